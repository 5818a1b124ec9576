(** Loops every segment of which overlaps one segment of the other give the loops of the table (C75). *)
From Coq Require Import Reals ZArith Bool List Arith Lra Lia Permutation.
From Verif Require Import Num RNum Res ModelMath ModelSeg ModelPline ModelView ModelIndex ModelIntr ModelSegIntr ModelIntersects ModelBoolean.
From Verif Require Import Spec SpecPline SpecGeom SpecBoolean SpecIndex SpecIntersects SpecJoin.
From Verif Require Import ProofBase ProofIter ProofFind ProofFindR ProofJoinR ProofBoolean ProofWinding4 ProofPolyOff2.
Import ListNotations.

Lemma flat_map_one {A B} (g : A -> list B) s o hs : NoDup hs -> In s hs -> g s = [o] -> (forall h, In h hs -> h <> s -> g h = []) -> flat_map g hs = [o].
Proof.
  intros ND I E Z. induction ND as [|h l NI ND IH]; [destruct I|]. cbn [flat_map]. destruct I as [->|I].
  - rewrite E. cbn [app]. f_equal. assert (K : forall x, In x l -> g x = []) by (intros x Hx; apply Z; [now right|intros ->; contradiction]). clear - K.
    induction l as [|x l IH]; [reflexivity|]. cbn [flat_map]. rewrite (K x) by (now left). apply IH. intros y Hy. apply K. now right.
  - rewrite (Z h) by (try (now left); intros ->; contradiction). apply IH; [exact I|]. intros y Hy. apply Z. now right.
Qed.

Lemma flat_map_flat_map {A B C} (f : A -> list B) (g : B -> list C) l : flat_map g (flat_map f l) = flat_map (fun a => flat_map g (f a)) l.
Proof. induction l as [|a l IH]; [reflexivity|]. cbn [flat_map]. now rewrite flat_map_app, IH. Qed.

Lemma NoDup_flat_part {A B} (f : A -> list B) l a : NoDup (flat_map f l) -> In a l -> NoDup (f a).
Proof.
  intros ND I. induction l as [|x l IH]; [destruct I|]. cbn [flat_map] in ND. destruct I as [->|I].
  - clear - ND. induction (f a) as [|y t IH]; [constructor|]. cbn [app] in ND. apply NoDup_cons_iff in ND as (N & ND). constructor; [|now apply IH]. intros K. apply N. apply in_or_app. now left.
  - apply IH; [|exact I]. clear - ND. induction (f x) as [|y t IH]; [exact ND|]. cbn [app] in ND. apply NoDup_cons_iff in ND as (_ & ND). now apply IH.
Qed.

(** An increasing list of numbers below its length. *)
Lemma increasing_nth (l : list nat) : (forall i a b, nth_error l i = Some a -> nth_error l (S i) = Some b -> a < b) ->
  (forall a, In a l -> a < length l) -> forall k a, nth_error l k = Some a -> a = k.
Proof.
  intros U B.
  assert (L : forall k a, nth_error l k = Some a -> k <= a).
  { induction k as [|k IH]; intros a E; [lia|]. destruct (nth_error l k) as [b|] eqn:Eb.
    - pose proof (IH b eq_refl). pose proof (U k b a Eb E). lia.
    - apply nth_error_None in Eb. assert (S k < length l) by (apply nth_error_Some; congruence). lia. }
  assert (G : forall d k a, nth_error l k = Some a -> length l = k + 1 + d -> a <= k).
  { induction d as [|d IH]; intros k a E D.
    - pose proof (B a (nth_error_In _ _ E)). lia.
    - destruct (nth_error l (S k)) as [b|] eqn:Eb; [|apply nth_error_None in Eb; lia]. pose proof (U k a b E Eb). pose proof (IH (S k) b Eb ltac:(lia)). lia. }
  intros k a E. assert (k < length l) by (apply nth_error_Some; congruence). pose proof (L k a E). pose proof (G (length l - k - 1) k a E ltac:(lia)). lia.
Qed.

(** Members that all join form one run. *)
Lemma one_run eps (l : list (overlap_intr R)) runs : l <> [] -> (forall i a b, nth_error l i = Some a -> nth_error l (S i) = Some b -> joins eps a b = true) ->
  joined_runs eps l runs -> runs = [l].
Proof.
  intros NE J (C & NR & BR). destruct runs as [|r [|r' t]].
  - exfalso. apply NE. now rewrite <- C.
  - cbn [concat] in C. rewrite app_nil_r in C. now subst.
  - exfalso. destruct (NR r (or_introl eq_refl)) as (N1 & _). destruct (NR r' (or_intror (or_introl eq_refl))) as (N2 & _).
    destruct (exists_last N1) as (r1 & a & ->). destruct r' as [|b r2]; [contradiction|].
    pose proof (BR 0 r1 a b r2 eq_refl eq_refl) as F. rewrite (J (length r1) a b) in F; [discriminate| |].
    + rewrite <- C. cbn [concat]. rewrite nth_error_app1 by (rewrite app_length; cbn; lia). rewrite nth_error_app2, Nat.sub_diag by lia. reflexivity.
    + rewrite <- C. cbn [concat]. rewrite nth_error_app2 by (rewrite app_length; cbn; lia). rewrite app_length. cbn [length].
      replace (S (length r1) - (length r1 + 1)) with 0 by lia. reflexivity.
Qed.

Section Same.
Context (p1 p2 : pline R) (eps : R) (He : (0 < eps)%R) (V1 : valid_loop p1) (V2' : valid_loop p2).
Let segs1 := spec_segs (vtx p1) (is_closed p1).
Let segs2 := spec_segs (vtx p2) (is_closed p2).

(** No overlap is reported. *)
Definition plain_intr (x : seg_intr R) : Prop := (forall p q, x <> SIOverlapLines p q) /\ forall p q, x <> SIOverlapArcs p q.

(** Segment [i] of the first loop is the only one with which segment [j] of the second overlaps, as a whole. *)
Definition over (i j : nat) : Prop :=
  exists v1 v2 u1 u2, nth_error segs1 i = Some (v1, v2) /\ nth_error segs2 j = Some (u1, u2)
  /\ seg_ok v1 v2 /\ seg_ok u1 u2 /\ (exists q, on_seg v1 v2 q /\ on_seg u1 u2 q)
  /\ (pline_seg_intr v1 v2 u1 u2 eps = SIOverlapLines (pos u1) (pos u2) \/ pline_seg_intr v1 v2 u1 u2 eps = SIOverlapArcs (pos u1) (pos u2))
  /\ forall i' w1 w2, i' <> i -> nth_error segs1 i' = Some (w1, w2) -> plain_intr (pline_seg_intr w1 w2 u1 u2 eps).

Context (OV : forall j, j < length segs2 -> exists i, over i j).

(** The overlap of a whole segment of the second loop. *)
Definition whole_overlap (o : overlap_intr R) : Prop :=
  exists u1 u2, nth_error segs2 (oi_index2 o) = Some (u1, u2) /\ oi_point1 o = pos u1 /\ oi_point2 o = pos u2 /\ oi_index1 o < length segs1.

Lemma plain_none i j keep x : plain_intr x -> overlaps (events_of i j keep (fun _ => true) x) = [].
Proof.
  intros (A & B). destruct x; cbn [events_of]; try reflexivity.
  - cbn [filter]. destruct (keep point); reflexivity.
  - cbn [filter]. destruct (keep point); reflexivity.
  - cbn [filter]. destruct (keep point1), (keep point2); reflexivity.
  - exfalso. now apply (A point1 point2).
  - exfalso. now apply (B point1 point2).
Qed.

Lemma found_overlaps boxes pairs : boxes = map (fun s => seg_fast_approx_bounding_box (fst s) (snd s)) segs1 -> cross_ok p2 eps boxes pairs ->
  let l := overlaps (flat_map (cross_pair p1 p2 eps) pairs) in
  map oi_index2 l = seq 0 (length segs2) /\ Forall whole_overlap l.
Proof.
  intros EB CO l. pose proof CO as (ND & (hits & EP) & IN). fold segs2 in EP.
  assert (ED : forall j, j < length segs2 -> exists o, oi_index2 o = j /\ whole_overlap o
    /\ overlaps (flat_map (cross_pair p1 p2 eps) (map (fun i1 => (i1, j)) (hits j))) = [o]).
  { intros j Hj. destruct (OV j Hj) as (i & v1 & v2 & u1 & u2 & E1 & E2 & S1 & S2 & (q & O1 & O2) & X & Z).
    exists (OI i j (pos u1) (pos u2)). split; [reflexivity|]. split.
    { exists u1, u2. cbn. repeat split; auto. apply nth_error_Some. congruence. }
    unfold overlaps. rewrite flat_map_flat_map.
    assert (IJ : In (i, j) pairs).
    { rewrite EB in CO. apply (cross_meet_examined p1 p2 eps pairs i j v1 v2 u1 u2 q); auto. lra. }
    assert (IH : In (i, j) (map (fun i1 => (i1, j)) (hits j))).
    { rewrite EP in IJ. apply in_flat_map in IJ as (j' & _ & K). apply in_map_iff in K as (i' & K & H). injection K as -> ->. apply in_map_iff. eauto. }
    apply (flat_map_one _ (i, j)).
    - rewrite EP in ND. apply (NoDup_flat_part _ _ j) in ND; [exact ND|]. apply in_seq. lia.
    - exact IH.
    - change (overlaps (cross_pair p1 p2 eps (i, j)) = [OI i j (pos u1) (pos u2)]). unfold cross_pair. fold segs1 segs2. rewrite E1, E2. destruct X as [-> | ->]; reflexivity.
    - intros (i', j') K NE. apply in_map_iff in K as (h & K & _). injection K as -> <-.
      assert (NI : i' <> i) by (intros ->; now apply NE).
      change (overlaps (cross_pair p1 p2 eps (i', j)) = []). unfold cross_pair. fold segs1 segs2. rewrite E2.
      destruct (nth_error segs1 i') as [[w1 w2]|] eqn:E'; [|reflexivity]. apply plain_none. eapply Z; eassumption. }
  assert (G : forall js, (forall j, In j js -> j < length segs2) ->
    let l' := overlaps (flat_map (cross_pair p1 p2 eps) (flat_map (fun i2 => map (fun i1 => (i1, i2)) (hits i2)) js)) in
    map oi_index2 l' = js /\ Forall whole_overlap l').
  { induction js as [|j js IH]; intros B; cbv zeta; [split; [reflexivity|constructor]|].
    destruct (IH (fun k K => B k (or_intror K))) as (M & F). destruct (ED j (B j (or_introl eq_refl))) as (o & Eo & W & E).
    cbn [flat_map]. rewrite flat_map_app. unfold overlaps in *. rewrite flat_map_app, E. cbn [app map]. rewrite Eo, M. split; [reflexivity|]. now constructor. }
  unfold l. rewrite EP. apply G. intros j Hj. apply in_seq in Hj. lia.
Qed.

Lemma segs2_len : length segs2 = vertex_count p2 /\ 2 <= length segs2.
Proof.
  unfold segs2. destruct V2' as (L & C). rewrite C, spec_segs_length. unfold vertex_count in *. destruct (Nat.ltb_spec (length (vtx p2)) 2); lia.
Qed.
Lemma segs1_len : length segs1 = vertex_count p1.
Proof.
  unfold segs1. destruct V1 as (L & C). rewrite C, spec_segs_length. unfold vertex_count in *. destruct (Nat.ltb_spec (length (vtx p1)) 2); lia.
Qed.

(** The start of the next segment is the end of this one. *)
Lemma next_start j a b c d : nth_error segs2 j = Some (a, b) -> nth_error segs2 ((j + 1) mod length segs2) = Some (c, d) -> b = c.
Proof.
  destruct segs2_len as (L & _). rewrite L. unfold segs2. destruct V2' as (_ & C). rewrite C. intros E1 E2. apply segs_nth in E1 as (_ & E1). apply segs_nth in E2 as (E2 & _).
  unfold vertex_count in E2. congruence.
Qed.

Theorem same_boolean mk op idx : pline_index p1 idx ->
  polyline_boolean mk p1 p2 op idx eps
  = let '(ps, ns) := whole_loops op Overlapping p1 p2 in Ret (BR (map (fun p => BRP p []) ps) (map (fun p => BRP p []) ns) Overlapping).
Proof.
  intros IO. destruct segs2_len as (L2 & G2).
  set (boxes := map (fun s => seg_fast_approx_bounding_box (fst s) (snd s)) segs1).
  destruct (boolean_whole mk p1 p2 op idx eps boxes IO (map_length _ _) V1 V2') as (bs & os & slices & w1 & w2 & k1 & k2 & EF & ES & _ & _ & _ & _ & H & _).
  destruct (find_intersects_pairs p1 p2 eps boxes idx IO (map_length _ _)) as (pairs & CO & EF'). cbv zeta in EF'. rewrite EF in EF'. injection EF' as _ EO.
  destruct (found_overlaps boxes pairs eq_refl CO) as (M & W). rewrite <- EO in M, W.
  assert (RG : Forall (in_range p1 p2) os).
  { eapply Forall_impl; [|exact W]. intros o (u1 & u2 & E & _ & _ & K). split; [rewrite <- segs1_len; exact K|]. rewrite <- L2. apply nth_error_Some. congruence. }
  destruct (sort_join_R p1 p2 eps os RG) as (sorted & PM & SA & runs & sl & result & ES' & JR & RS & EM). rewrite ES in ES'. injection ES' as <-.
  assert (WS : Forall whole_overlap sorted) by (eapply Permutation_Forall; eassumption).
  assert (PI : Permutation (seq 0 (length segs2)) (map oi_index2 sorted)) by (rewrite <- M; now apply Permutation_map).
  assert (LS : length sorted = length segs2) by (rewrite <- (map_length oi_index2), <- (Permutation_length PI), seq_length; reflexivity).
  assert (IX : forall k o, nth_error sorted k = Some o -> oi_index2 o = k).
  { intros k o E. apply (increasing_nth (map oi_index2 sorted)).
    - intros i a b Ea Eb. rewrite nth_error_map in Ea, Eb. destruct (nth_error sorted i) as [x|] eqn:Ex; [|discriminate]. destruct (nth_error sorted (S i)) as [y|] eqn:Ey; [|discriminate].
      injection Ea as <-. injection Eb as <-. destruct (SA i x y Ex Ey) as [K|(K & _)]; [exact K|]. exfalso.
      assert (ND : NoDup (map oi_index2 sorted)) by (eapply Permutation_NoDup; [exact PI|apply seq_NoDup]).
      rewrite NoDup_nth_error in ND. assert (i = S i); [|lia]. apply ND.
      + rewrite map_length. apply nth_error_Some. congruence.
      + rewrite !nth_error_map, Ex, Ey. cbn. now rewrite K.
    - intros a Ha. rewrite map_length, LS. apply (Permutation_in _ (Permutation_sym PI)) in Ha. apply in_seq in Ha. lia.
    - rewrite nth_error_map, E. reflexivity. }
  assert (PT : forall k o, nth_error sorted k = Some o -> exists u1 u2, nth_error segs2 k = Some (u1, u2) /\ oi_point1 o = pos u1 /\ oi_point2 o = pos u2).
  { intros k o E. rewrite Forall_forall in WS. destruct (WS o (nth_error_In _ _ E)) as (u1 & u2 & Eu & A & B & _). rewrite (IX k o E) in Eu. eauto. }
  assert (JO : forall i j a b, nth_error sorted i = Some a -> nth_error sorted j = Some b -> j = (i + 1) mod length segs2 -> v2fuzzy_eq_eps (oi_point2 a) (oi_point1 b) eps = true /\ joins eps a b = true).
  { intros i j a b Ea Eb ->. destruct (PT _ _ Ea) as (u1 & u2 & Eu & _ & A). destruct (PT _ _ Eb) as (x1 & x2 & Ex & B & _).
    unfold joins. rewrite A, B, (next_start i u1 u2 x1 x2 Eu Ex), v2fuzzy_refl by exact He. auto. }
  apply one_run in JR.
  - subst runs. inversion RS as [|? s ? t RSs RT]; subst. inversion RT; subst.
    assert (ER : slices = [s]).
    { destruct EM as [(f & mid & la & v0 & E & _)|(_ & E)]; [|exact E]. exfalso. injection E as _ E. destruct mid; discriminate. }
    apply (H s ER). destruct RSs as (a & z & Ea & Ez & _ & _ & _ & _ & _ & LP & _). rewrite LP.
    assert (Na : nth_error sorted 0 = Some a) by (destruct sorted; exact Ea).
    assert (Nz : nth_error sorted (length sorted - 1) = Some z).
    { destruct (rev sorted) as [|z' t] eqn:Er; [discriminate|]. injection Ez as ->. apply (f_equal (@rev _)) in Er. rewrite rev_involutive in Er. cbn [rev] in Er. rewrite Er, app_length. cbn [length].
      rewrite nth_error_app2 by lia. replace (length (rev t) + 1 - 1 - length (rev t)) with 0 by lia. reflexivity. }
    destruct (JO _ _ z a Nz Na) as (-> & _); [rewrite LS, Nat.sub_add, Nat.mod_same by lia; reflexivity|].
    rewrite andb_true_r. apply Nat.ltb_lt. lia.
  - destruct sorted; [cbn in LS; lia|discriminate].
  - intros i a b Ea Eb. apply (JO i (S i) a b Ea Eb). assert (S i < length sorted) by (apply nth_error_Some; congruence). rewrite Nat.mod_small by lia. lia.
Qed.
End Same.
