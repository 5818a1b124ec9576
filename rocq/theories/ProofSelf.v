(** Visiting self intersections (C24). *)
From Coq Require Import List Bool Arith Lia Permutation.
From Verif Require Import Num Res ModelMath ModelSeg ModelPline ModelSegIntr ModelIndex ModelIntersects Spec SpecIndex SpecIntersects.
From Verif Require Import ProofBase ProofIter ProofIndex2 ProofOffset2.
Import ListNotations.

Section Self.
Context {T : Type} {N : Num T}.

Section Feed.
Context {S : Type} (visit : S -> intr_event T -> S * bool).

Lemma feed_app s a b : feed visit s (a ++ b) = andthen (feed visit s a) (fun s => feed visit s b).
Proof.
  revert s. induction a as [|e t IH]; intros s; cbn [app feed]; [reflexivity|].
  destruct (visit s e) as [s' []] eqn:E; cbn [fst snd]; [reflexivity|apply IH].
Qed.

Lemma feed_one s e : feed visit s [e] = visit s e.
Proof. cbn. destruct (visit s e) as [s' []]; reflexivity. Qed.

Lemma randthen_feed s a (g : S -> res (S * bool)) b :
  (forall s, g s = Ret (feed visit s b)) -> randthen (feed visit s a) g = Ret (feed visit s (a ++ b)).
Proof. intros H. unfold randthen. rewrite feed_app. unfold andthen. destruct (snd _); [destruct (feed visit s a); reflexivity|apply H]. Qed.

Lemma feed_two s i j (keep : vec2 T -> bool) q1 q2 :
  andthen (if keep q1 then visit s (EvBasic (BI i j q1)) else (s, false))
          (fun s => if keep q2 then visit s (EvBasic (BI i j q2)) else (s, false))
  = feed visit s (map (fun q => EvBasic (BI i j q)) (filter keep [q1; q2])).
Proof.
  cbn [filter]. destruct (keep q1), (keep q2); cbn [map feed andthen fst snd].
  - unfold andthen. destruct (visit s _) as [s' []]; cbn [fst snd]; [reflexivity|]. destruct (visit s' _) as [s'' []]; reflexivity.
  - unfold andthen. destruct (visit s _) as [s' []]; reflexivity.
  - unfold andthen. cbn [fst snd]. destruct (visit s _) as [s' []]; reflexivity.
  - reflexivity.
Qed.

Lemma feed_events s i j (keep ko : vec2 T -> bool) (x : seg_intr T) :
  match x with
  | SINoIntersect => (s, false)
  | SITangent q | SIOne q => if keep q then visit s (EvBasic (BI i j q)) else (s, false)
  | SITwo q1 q2 => andthen (if keep q1 then visit s (EvBasic (BI i j q1)) else (s, false))
                           (fun s => if keep q2 then visit s (EvBasic (BI i j q2)) else (s, false))
  | SIOverlapLines q1 q2 | SIOverlapArcs q1 q2 => if ko q1 then visit s (EvOverlap (OI i j q1 q2)) else (s, false)
  end = feed visit s (events_of i j keep ko x).
Proof.
  destruct x as [|q|q|q1 q2|q1 q2|q1 q2]; cbn [events_of filter].
  - reflexivity.
  - destruct (keep q); [symmetry; apply feed_one|reflexivity].
  - destruct (keep q); [symmetry; apply feed_one|reflexivity].
  - apply feed_two.
  - destruct (ko q1); [symmetry; apply feed_one|reflexivity].
  - destruct (ko q1); [symmetry; apply feed_one|reflexivity].
Qed.

Context (p : pline T) (eps : T).
Local Notation n := (vertex_count p).
Local Notation segs := (spec_segs (vtx p) (is_closed p)).

Lemma seg_at_index i : i < length segs -> exists v1 v2, nth_error segs i = Some (v1, v2)
  /\ nth_error (vtx p) i = Some v1 /\ nth_error (vtx p) ((i + 1) mod n) = Some v2 /\ i < n.
Proof.
  intros H. destruct (spec_segs_nth _ _ i H) as (a & b & E & E1 & E2). exists a, b. repeat split; auto.
  unfold vertex_count. apply nth_error_Some. congruence.
Qed.

Lemma segs_len : 3 <= n -> length segs = if is_closed p then n else n - 1.
Proof. intros H. rewrite spec_segs_length. fold (vertex_count p). destruct (Nat.ltb_spec n 2); [lia|reflexivity]. Qed.

Lemma visit_local_pair k s : 3 <= n -> k < (if is_closed p then n else n - 2) ->
  visit_local_indexes visit p eps k ((k + 1) mod n) ((k + 2) mod n) s = Ret (feed visit s (local_pair p eps k ((k + 1) mod n))).
Proof.
  intros Hn Hk. assert (L1 : k < length segs) by (rewrite segs_len by exact Hn; destruct (is_closed p); lia).
  assert (L2 : (k + 1) mod n < length segs).
  { rewrite segs_len by exact Hn. destruct (is_closed p); [apply Nat.mod_upper_bound; lia|rewrite Nat.mod_small; lia]. }
  destruct (seg_at_index k L1) as (v1 & v2 & E1 & A1 & A2 & _).
  destruct (seg_at_index _ L2) as (v2' & v3 & E2 & B1 & B2 & _).
  rewrite A2 in B1. injection B1 as <-. rewrite Nat.add_mod_idemp_l in B2 by lia. replace (k + 1 + 1) with (k + 2) in B2 by lia.
  unfold visit_local_indexes, at_, index. rewrite A1, A2, B2. cbn [rbind]. unfold local_pair. rewrite E1, E2.
  destruct (v2fuzzy_eq_eps (pos v1) (pos v2) eps); [rewrite feed_one; reflexivity|].
  rewrite <- feed_events. destruct (pline_seg_intr v1 v2 v2 v3 eps); try reflexivity; destruct (negb _); reflexivity.
Qed.

Lemma visit_local_loop_spec m i s : 3 <= n -> 2 <= i -> i + m <= n ->
  visit_local_loop visit p eps (seq i m) s
  = Ret (feed visit s (flat_map (fun k => local_pair p eps k ((k + 1) mod n)) (seq (i - 2) m))).
Proof.
  intros Hn. revert i s. induction m as [|m IH]; intros i s Hi Hm; [reflexivity|].
  cbn [seq visit_local_loop flat_map].
  pose proof (visit_local_pair (i - 2) s Hn) as VP. replace ((i - 2 + 1) mod n) with (i - 1) in VP by (rewrite Nat.mod_small; lia).
  replace ((i - 2 + 2) mod n) with i in VP by (rewrite Nat.mod_small; lia).
  rewrite VP by (destruct (is_closed p); lia). cbn [rbind].
  replace ((i - 2 + 1) mod n) with (i - 1) by (rewrite Nat.mod_small; lia).
  replace (Datatypes.S (i - 2)) with (Datatypes.S i - 2) by lia. apply randthen_feed. intros s'. apply IH; lia.
Qed.

Lemma visit_local_spec s : visit_local_self_intersects visit p eps s = Ret (feed visit s (local_events p eps)).
Proof.
  unfold visit_local_self_intersects, local_events.
  destruct (Nat.ltb_spec n 2) as [L|L].
  - destruct (Nat.ltb_spec n 3); [|lia]. unfold vertex_count in L. destruct (vtx p) as [|a [|b t]]; try reflexivity. cbn in L. lia.
  - destruct (Nat.eqb_spec n 2) as [E|E].
    + destruct (Nat.ltb_spec n 3); [|lia]. unfold vertex_count in E. destruct (vtx p) as [|a [|b [|c t]]] eqn:V; try discriminate.
      destruct (is_closed p); cbn [andb]; [|reflexivity]. unfold at_, index. rewrite V. cbn [nth_error rbind].
      destruct (fuzzy_eq _ _); [rewrite feed_one; reflexivity|reflexivity].
    + destruct (Nat.ltb_spec n 3); [lia|]. rewrite visit_local_loop_spec by lia. cbn [rbind Nat.sub].
      replace (2 - 2) with 0 by lia. destruct (is_closed p) eqn:C.
      * assert (ES : seq 0 n = seq 0 (n - 2) ++ [n - 2; n - 1]).
        { replace n with (n - 2 + 2) at 1 by lia. rewrite seq_app. cbn. do 2 f_equal. f_equal. lia. }
        rewrite ES, flat_map_app. cbn [flat_map]. rewrite app_nil_r. apply randthen_feed. intros s'.
        pose proof (visit_local_pair (n - 2) s') as V1. replace ((n - 2 + 1) mod n) with (n - 1) in * by (rewrite Nat.mod_small; lia).
        replace ((n - 2 + 2) mod n) with 0 in V1 by (replace (n - 2 + 2) with n by lia; rewrite Nat.mod_same; lia).
        rewrite V1 by (rewrite ?C; lia). cbn [rbind]. apply randthen_feed. intros s''.
        pose proof (visit_local_pair (n - 1) s'') as V2. replace ((n - 1 + 1) mod n) with 0 in * by (replace (n - 1 + 1) with n by lia; rewrite Nat.mod_same; lia).
        replace ((n - 1 + 2) mod n) with 1 in V2.
        2:{ replace (n - 1 + 2) with (1 + 1 * n) by lia. rewrite Nat.mod_add by lia. rewrite Nat.mod_small; lia. }
        apply V2; rewrite ?C; lia.
      * etransitivity; [apply (randthen_feed _ _ _ []); reflexivity|rewrite app_nil_r; reflexivity].
Qed.

(** The pairs examined for the hits of segment [i], and for all segments. *)
Fixpoint hit_pairs (i : nat) (hits : list nat) (visited : list (nat * nat)) : list (nat * nat) :=
  match hits with
  | [] => []
  | h :: t =>
    if Nat.eqb i h || Nat.eqb i ((h + 1) mod n) || Nat.eqb ((i + 1) mod n) h then hit_pairs i t visited
    else if existsb (fun q => Nat.eqb (fst q) h && Nat.eqb (snd q) i) visited then hit_pairs i t visited
    else (i, h) :: hit_pairs i t ((i, h) :: visited)
  end.

Context (boxes : list (aabb T)) (idx : sindex T).
Hypothesis IO : index_of boxes idx.
Hypothesis BL : length boxes = length segs.

Definition box_hits (i : nat) : list nat :=
  match nth_error boxes i with Some b => ix_query idx (aabb_grow b eps) | None => [] end.

Fixpoint item_pairs (items : list nat) (visited : list (nat * nat)) : list (nat * nat) :=
  match items with
  | [] => []
  | i :: t => let new := hit_pairs i (box_hits i) visited in new ++ item_pairs t (rev new ++ visited)
  end.

Lemma box_hits_In i h : i < length segs -> (In h (box_hits i) <-> h < length segs
  /\ exists bi bh, nth_error boxes i = Some bi /\ nth_error boxes h = Some bh /\ aabb_overlaps bh (aabb_grow bi eps) = true).
Proof.
  intros L. unfold box_hits. destruct (nth_error boxes i) as [bi|] eqn:E.
  2:{ apply nth_error_None in E. lia. }
  destruct IO as (_ & _ & Q). destruct (Q (aabb_grow bi eps)) as [_ Q2]. rewrite Q2. split.
  - intros (b & Eb & O). split; [rewrite <- BL; apply nth_error_Some; congruence|]. eauto.
  - intros (_ & bi' & bh & Ei & Eh & O). injection Ei as <-. eauto.
Qed.

Lemma box_hits_NoDup i : NoDup (box_hits i).
Proof.
  unfold box_hits. destruct (nth_error boxes i); [|constructor]. destruct IO as (_ & _ & Q). apply (Q _).
Qed.

Lemma visit_global_hits_spec i v1 v2 hits : 3 <= n -> nth_error segs i = Some (v1, v2) -> Forall (fun h => h < length segs) hits ->
  forall visited s, exists r, visit_global_hits visit p eps i ((i + 1) mod n) v1 v2 hits visited s = Ret r
   /\ snd r = feed visit s (flat_map (global_pair p eps) (hit_pairs i hits visited))
   /\ (snd (snd r) = false -> fst r = rev (hit_pairs i hits visited) ++ visited).
Proof.
  intros Hn Ei. induction 1 as [|h t Hh Ht IH]; intros visited s.
  - cbn. eexists. repeat split.
  - assert (Li : i < length segs) by (apply nth_error_Some; congruence).
    destruct (seg_at_index i Li) as (_ & _ & _ & _ & _ & Ln).
    destruct (seg_at_index h Hh) as (u1 & u2 & Eh & A1 & A2 & Lh).
    cbn [visit_global_hits]. unfold visit_global_hit. rewrite next_wrapping_index_mod by exact Lh.
    cbn [hit_pairs]. fold n.
    assert (NE : Nat.eqb ((i + 1) mod n) ((h + 1) mod n) = Nat.eqb i h).
    { destruct (Nat.eqb_spec i h) as [->|D]; [apply Nat.eqb_refl|]. apply Nat.eqb_neq. intros E.
      destruct (Nat.eq_dec (i + 1) n) as [e1|d1], (Nat.eq_dec (h + 1) n) as [e2|d2].
      - lia.
      - rewrite e1, Nat.mod_same, Nat.mod_small in E by lia. lia.
      - rewrite e2, Nat.mod_same, Nat.mod_small in E by lia. lia.
      - rewrite !Nat.mod_small in E by lia. lia. }
    rewrite NE. destruct (Nat.eqb i h) eqn:D0; cbn [orb rbind snd fst].
    1: apply IH.
    rewrite orb_false_r. destruct (_ || _) eqn:D1; cbn [rbind snd fst]; [apply IH|].
    destruct (existsb _ visited); cbn [rbind snd fst]; [apply IH|].
    unfold at_, index. rewrite A1, A2. cbn [rbind].
    match goal with |- exists r, rbind ?X _ = _ /\ _ =>
      assert (EX : X = Ret ((i, h) :: visited, feed visit s (global_pair p eps (i, h)))) end.
    { unfold global_pair. rewrite Ei, Eh. rewrite <- feed_events.
      destruct (pline_seg_intr v1 v2 u1 u2 eps); try reflexivity; destruct (negb _); reflexivity. }
    rewrite EX. cbn [rbind fst snd flat_map]. rewrite feed_app. unfold andthen.
    destruct (feed visit s (global_pair p eps (i, h))) as [s' []] eqn:F; cbn [fst snd].
    + eexists. repeat split. cbn. discriminate.
    + destruct (IH ((i, h) :: visited) s') as (r & -> & R1 & R2). exists r. repeat split; [exact R1|].
      intros B. rewrite (R2 B). cbn [rev]. rewrite <- app_assoc. reflexivity.
Qed.

Lemma visit_global_loop_spec items : 3 <= n -> Forall (fun h => h < length segs) items -> forall visited s,
  visit_global_loop visit p idx eps items visited s = Ret (feed visit s (flat_map (global_pair p eps) (item_pairs items visited))).
Proof.
  intros Hn. induction 1 as [|i t Hi Ht IH]; intros visited s; [reflexivity|].
  cbn [visit_global_loop item_pairs].
  assert (EB : ix_boxes idx = boxes) by apply IO. rewrite EB.
  destruct (seg_at_index i Hi) as (v1 & v2 & Ei & A1 & A2 & Ln).
  unfold index at 1. destruct (nth_error boxes i) as [b|] eqn:Eb.
  2:{ apply nth_error_None in Eb. lia. }
  cbn [rbind]. rewrite next_wrapping_index_mod by exact Ln. fold n. unfold at_, index. rewrite A1, A2. cbn [rbind].
  assert (EH : box_hits i = ix_query idx (aabb_grow b eps)) by (unfold box_hits; rewrite Eb; reflexivity).
  rewrite <- EH. destruct (visit_global_hits_spec i v1 v2 (box_hits i) Hn Ei) with (visited := visited) (s := s) as (r & -> & R1 & R2).
  { apply Forall_forall. intros h Hh. apply box_hits_In in Hh; tauto. }
  cbn [rbind]. rewrite flat_map_app, feed_app, <- R1. unfold andthen.
  destruct (snd (snd r)) eqn:B; [destruct (snd r); reflexivity|]. rewrite (R2 eq_refl). apply IH.
Qed.

Lemma apart_eqb i h : Nat.eqb i h || Nat.eqb i ((h + 1) mod n) || Nat.eqb ((i + 1) mod n) h = false <-> apart p i h.
Proof.
  unfold apart. rewrite !orb_false_iff, !Nat.eqb_neq. tauto.
Qed.

Lemma apart_sym i h : apart p i h -> apart p h i.
Proof. unfold apart. intros (A & B & C). repeat split; auto. Qed.

Lemma hit_pairs_In i hits visited a b : In (a, b) (hit_pairs i hits visited) <->
  a = i /\ In b hits /\ apart p i b /\ ~ In (b, i) visited.
Proof.
  revert visited. induction hits as [|h t IH]; intros visited; cbn [hit_pairs In]; [tauto|].
  destruct (_ || _) eqn:D.
  { rewrite IH. split; [tauto|]. intros (-> & [<-|H] & A & V); [|tauto]. apply apart_eqb in A. congruence. }
  apply apart_eqb in D.
  assert (EX : existsb (fun q => Nat.eqb (fst q) h && Nat.eqb (snd q) i) visited = true <-> In (h, i) visited).
  { rewrite existsb_exists. split.
    - intros ([x y] & H & E). apply andb_prop in E as [E1 E2]. apply Nat.eqb_eq in E1, E2. cbn in *. subst. exact H.
    - intros H. exists (h, i). cbn. rewrite !Nat.eqb_refl. auto. }
  destruct (existsb _ visited).
  { rewrite IH. split; [tauto|]. intros (-> & [<-|H] & A & V); [|tauto]. destruct V. apply EX. reflexivity. }
  cbn [In]. rewrite IH. cbn [In]. split.
  - intros [E|(-> & H & A & V)].
    + injection E as <- <-. repeat split; auto; try apply D. rewrite <- EX. discriminate.
    + repeat split; auto; apply A.
  - intros (-> & [<-|H] & A & V); [auto|]. right. repeat split; auto; try apply A. intros [E|H2]; [|tauto].
    injection E as -> <-. destruct A as [A _]. congruence.
Qed.

Lemma hit_pairs_NoDup i hits visited : NoDup hits -> NoDup (hit_pairs i hits visited).
Proof.
  intros ND. revert visited. induction ND as [|h t NI ND IH]; intros visited; cbn [hit_pairs]; [constructor|].
  destruct (_ || _); [apply IH|]. destruct (existsb _ _); [apply IH|]. constructor; [|apply IH].
  rewrite hit_pairs_In. tauto.
Qed.

(** A pair appears for the earlier of its items that finds the other. *)
Lemma item_pairs_In items visited a b : NoDup items -> In (a, b) (item_pairs items visited) ->
  In a items /\ In b (box_hits a) /\ apart p a b /\ ~ In (b, a) visited /\ ~ In (b, a) (item_pairs items visited).
Proof.
  intros ND. revert a b visited. induction ND as [|i t NI ND IH]; intros a b visited; cbn [item_pairs]; [intros []|].
  cbn zeta. rewrite !in_app_iff. intros [H|H].
  - apply hit_pairs_In in H. destruct H as (-> & H & A & V). split; [left; reflexivity|]. repeat split; auto; try apply A.
    intros [K|K].
    + apply hit_pairs_In in K. destruct K as (-> & _). destruct A as [A _]. congruence.
    + apply IH in K. destruct K as (_ & _ & _ & K & _). apply K. apply in_or_app. left. apply -> in_rev. apply hit_pairs_In. tauto.
  - apply IH in H. destruct H as (H1 & H2 & A & H3 & H4). repeat split; auto; try apply A; try (right; exact H1).
    + intros V. apply H3. apply in_or_app. right. exact V.
    + intros [K|K]; [|tauto]. apply H3. apply in_or_app. left. apply -> in_rev. exact K.
Qed.

Lemma item_pairs_NoDup items visited : NoDup items -> NoDup (item_pairs items visited).
Proof.
  intros ND. revert visited. induction ND as [|i t NI ND IH]; intros visited; cbn [item_pairs]; [constructor|].
  cbn zeta. assert (ND2 : NoDup (hit_pairs i (box_hits i) visited)) by apply hit_pairs_NoDup, box_hits_NoDup.
  specialize (IH (rev (hit_pairs i (box_hits i) visited) ++ visited)).
  assert (DJ : forall q, In q (hit_pairs i (box_hits i) visited) -> ~ In q (item_pairs t (rev (hit_pairs i (box_hits i) visited) ++ visited))).
  { intros [a b] H K. apply hit_pairs_In in H. destruct H as (-> & _). apply item_pairs_In in K; [|exact ND]. tauto. }
  revert ND2 DJ. generalize (hit_pairs i (box_hits i) visited) at 1 2 4 as l. induction l as [|q l IHl]; intros ND2 DJ; [exact IH|].
  cbn [app]. inversion ND2; subst. constructor.
  - rewrite in_app_iff. intros [K|K]; [tauto|]. exact (DJ q (or_introl eq_refl) K).
  - apply IHl; [assumption|]. intros q' Hq'. apply DJ. right. exact Hq'.
Qed.

Lemma item_pairs_complete items visited a b : In a items -> In b (box_hits a) -> apart p a b ->
  In (a, b) (item_pairs items visited) \/ In (b, a) (item_pairs items visited) \/ In (b, a) visited.
Proof.
  revert visited. induction items as [|i t IH]; intros visited; cbn [item_pairs]; [intros []|].
  cbn zeta. rewrite !in_app_iff. intros H Hb A. destruct (Nat.eq_dec i a) as [->|D].
  - rewrite !hit_pairs_In. destruct (in_dec (fun x y : nat * nat => ltac:(decide equality; apply Nat.eq_dec)) (b, a) visited); tauto.
  - destruct H as [E|H]; [contradiction|]. destruct (IH (rev (hit_pairs i (box_hits i) visited) ++ visited) H Hb A) as [K|[K|K]]; auto.
    apply in_app_iff in K. destruct K as [K|K]; auto. apply in_rev in K. auto.
Qed.

Definition the_pairs : list (nat * nat) := if n <? 3 then [] else item_pairs (ix_order idx) [].

Lemma order_In i : In i (ix_order idx) <-> i < length segs.
Proof.
  destruct IO as (_ & P & _). split; intros H.
  - apply (Permutation_in _ P) in H. apply in_seq in H. lia.
  - apply (Permutation_in _ (Permutation_sym P)). apply in_seq. lia.
Qed.

Lemma order_NoDup : NoDup (ix_order idx).
Proof. destruct IO as (_ & P & _). apply (Permutation_NoDup (Permutation_sym P)). apply seq_NoDup. Qed.

Lemma the_pairs_ok : pairs_ok p eps boxes the_pairs.
Proof.
  unfold the_pairs, pairs_ok. destruct (Nat.ltb_spec n 3) as [L|L].
  { split; [intros i j []|]. split; [constructor|]. split; [lia|intros i j []]. }
  pose proof order_NoDup as ND.
  assert (K : forall i j, In (i, j) (item_pairs (ix_order idx) []) -> i < length segs /\ In j (box_hits i) /\ apart p i j /\ ~ In (j, i) (item_pairs (ix_order idx) [])).
  { intros i j H. apply item_pairs_In in H; [|exact ND]. destruct H as (H1 & H2 & A & _ & H3). apply order_In in H1. auto. }
  split; [|split; [|split]].
  - intros i j H. destruct (K i j H) as (H1 & H2 & A & H3). apply box_hits_In in H2; [|exact H1]. tauto.
  - apply item_pairs_NoDup, ND.
  - intros i j bi bj Ei Ej A _ O. assert (Li : i < length segs) by (rewrite <- BL; apply nth_error_Some; congruence).
    assert (Lj : j < length segs) by (rewrite <- BL; apply nth_error_Some; congruence).
    destruct (item_pairs_complete (ix_order idx) [] i j) as [H|[H|[]]]; auto.
    + apply order_In, Li.
    + apply box_hits_In; [exact Li|]. split; [exact Lj|]. eauto.
  - intros i j H. destruct (K i j H) as (H1 & H2 & _). apply box_hits_In in H2; [|exact H1]. destruct H2 as (_ & bi & bj & E). eauto.
Qed.

Lemma visit_global_spec s :
  visit_global_self_intersects visit p idx eps s = Ret (feed visit s (flat_map (global_pair p eps) the_pairs)).
Proof.
  unfold visit_global_self_intersects, the_pairs. destruct (Nat.ltb_spec n 3); [reflexivity|].
  apply visit_global_loop_spec; [lia|]. apply Forall_forall. intros i Hi. apply order_In, Hi.
Qed.

Lemma visit_self_spec inc s :
  visit_self_intersects visit p idx inc eps s
  = Ret (feed visit s (match inc with
                       | IncludeLocal => local_events p eps
                       | IncludeGlobal => flat_map (global_pair p eps) the_pairs
                       | IncludeAll => local_events p eps ++ flat_map (global_pair p eps) the_pairs
                       end)).
Proof.
  unfold visit_self_intersects. destruct (Nat.ltb_spec n 2) as [L|L].
  - assert (E1 : local_events p eps = []).
    { unfold local_events. destruct (Nat.ltb_spec n 3); [|lia]. unfold vertex_count in L. destruct (vtx p) as [|a [|b t]]; try reflexivity. cbn in L. lia. }
    assert (E2 : the_pairs = []) by (unfold the_pairs; destruct (Nat.ltb_spec n 3); [reflexivity|lia]).
    rewrite E1, E2. destruct inc; reflexivity.
  - destruct inc.
    + rewrite visit_local_spec. cbn [rbind]. apply randthen_feed. apply visit_global_spec.
    + apply visit_local_spec.
    + apply visit_global_spec.
Qed.
End Feed.

Lemma visits_pairs (p : pline T) eps boxes idx :
  index_of boxes idx -> length boxes = length (spec_segs (vtx p) (is_closed p)) ->
  exists pairs, pairs_ok p eps boxes pairs
  /\ forall S (visit : S -> intr_event T -> S * bool) s inc,
       visit_self_intersects visit p idx inc eps s
       = Ret (feed visit s (match inc with
                            | IncludeLocal => local_events p eps
                            | IncludeGlobal => flat_map (global_pair p eps) pairs
                            | IncludeAll => local_events p eps ++ flat_map (global_pair p eps) pairs
                            end)).
Proof.
  intros IO BL. exists (the_pairs p eps boxes idx). split; [apply the_pairs_ok; assumption|].
  intros S visit s inc. apply visit_self_spec; assumption.
Qed.

Definition basic_of (both : bool) (e : intr_event T) : list (basic_intr T) :=
  match e with
  | EvBasic b => [b]
  | EvOverlap o => if both then [BI (oi_index1 o) (oi_index2 o) (oi_point1 o);
                                 BI (oi_index1 o) (oi_index2 o) (oi_point2 o)] else []
  end.

Lemma feed_as_basic both l s : feed (as_basic_visitor both) s l = (s ++ flat_map (basic_of both) l, false).
Proof.
  revert s. induction l as [|e t IH]; intros s; cbn [feed flat_map]; [rewrite app_nil_r; reflexivity|].
  destruct e as [b|o]; cbn [as_basic_visitor basic_of snd fst].
  - rewrite IH, <- app_assoc. reflexivity.
  - destruct both; cbn [snd fst]; rewrite IH; [rewrite <- app_assoc|]; reflexivity.
Qed.

Lemma as_basic_pairs (p : pline T) eps boxes idx both :
  index_of boxes idx -> length boxes = length (spec_segs (vtx p) (is_closed p)) ->
  exists pairs, pairs_ok p eps boxes pairs
  /\ all_self_intersects_as_basic p idx both eps
     = Ret (flat_map (basic_of both) (local_events p eps ++ flat_map (global_pair p eps) pairs)).
Proof.
  intros IO BL. exists (the_pairs p eps boxes idx). split; [apply the_pairs_ok; assumption|].
  unfold all_self_intersects_as_basic. rewrite visit_local_spec. cbn [rbind]. rewrite (visit_global_spec _ _ _ boxes) by assumption.
  cbn [rbind]. rewrite !feed_as_basic. cbn [fst app]. rewrite <- flat_map_app. reflexivity.
Qed.
End Self.
