(** Where a polygon that clearly crosses itself is cut (C76). *)
From Coq Require Import Reals ZArith Bool List Arith Lra Lia Psatz Classical.
From Verif Require Import Num RNum Res ModelMath ModelSeg ModelPline ModelView ModelIndex ModelIntr ModelSegIntr ModelIntersects ModelBoolean ModelOffset.
From Verif Require Import Spec SpecPline SpecGeom SpecBox SpecIntr SpecView SpecPruneR SpecIntersects SpecCuts SpecOffsetJoin SpecPolyOff SpecPolyBool SpecVanish.
From Verif Require Import ProofR ProofBase ProofIter ProofArc ProofIntr ProofFind ProofFindR ProofSegIntr2 ProofOffsetJoin2 ProofWinding4 ProofWinding7 ProofPolyOff ProofPolyOff2 ProofPolyBool ProofConvex ProofTarget4 ProofTarget6 ProofVanish.
Import ListNotations.
Local Open Scope R_scope.

Lemma cross_in_sym eps a b c e x : cross_in eps a b c e x -> cross_in eps c e a b x.
Proof.
  intros (C & s & t & Hs & Ht & E1 & E2). split; [|exists t, s; auto].
  replace (cross (vec c e) (vec a b)) with (- cross (vec a b) (vec c e)) by (unfold cross, vec; cbn [vx vy]; ring). now rewrite Rabs_Ropp.
Qed.
Lemma no_neighbours_sym n i j : no_neighbours n i j -> no_neighbours n j i.
Proof. intros (A & B & C). repeat split; congruence. Qed.
Lemma sides_cross_sym eps qs i j x : sides_cross eps qs i j x -> sides_cross eps qs j i x.
Proof. intros (N & a & b & c & e & E1 & E2 & C). split; [now apply no_neighbours_sym|]. exists c, e, a, b. split; [exact E2|]. split; [exact E1|now apply cross_in_sym]. Qed.

Lemma differ_by_sym d x y : differ_by d x y -> differ_by d y x.
Proof. intros [H|H]; [left|right]; rewrite Rabs_minus_sym; exact H. Qed.

Section Cuts.
Variables (eps join : R) (qs : list (vec2 R)) (pairs : list (nat * nat)).
Hypothesis He : 0 < eps.
Hypothesis Cp : crossing_polygon eps join qs.
Local Notation n := (length qs).
Local Notation segs := (spec_segs qs true).
Local Notation raw := (polygon qs).
Hypothesis PO : pairs_ok raw eps (boxes_of raw) pairs.
Local Notation cuts := (self_cuts raw eps pairs).

Lemma vn_count : vertex_count raw = n. Proof. unfold vertex_count, polygon. cbn [vtx]. apply map_length. Qed.
Lemma vn_3 : (3 <= n)%nat. Proof. apply Cp. Qed.

Lemma vn_flat i a b c : nth_error segs i = Some (a, b) -> nth_error segs ((i + 1) mod n) = Some (b, c) -> eps <= Rabs (cross (vec a b) (vec b c)).
Proof. apply Cp. Qed.

Lemma vn_local i : (i < n)%nat -> basics (local_pair raw eps i ((i + 1) mod n)) = [].
Proof.
  intros Hi. unfold local_pair. change (is_closed (polygon qs)) with true. rewrite !polygon_segs.
  destruct (nth_error segs i) as [(a, b)|] eqn:E1; [|reflexivity]. destruct (nth_error segs ((i + 1) mod n)) as [(b', c)|] eqn:E2; [|reflexivity]. cbn [option_map fst snd].
  assert (B : b' = b).
  { destruct (segs_nth _ _ _ _ E1) as (_ & N1). destruct (segs_nth _ _ _ _ E2) as (N2 & _). rewrite N1 in N2. congruence. } subst b'.
  destruct (v2fuzzy_eq_eps _ _ _); [reflexivity|]. pose proof (vn_flat i a b c E1 E2) as HA.
  unfold pline_seg_intr. rewrite !lv_zero, !lv_pos. cbn [andb].
  destruct (line_line_nonparallel a b b c eps He HA) as (s & t & E & U & [(_ & EL)|(_ & EL)]); rewrite EL; [|reflexivity].
  destruct (U 1 0) as (S1 & T0). { rewrite line_pt_1. unfold line_pt. apply vec2_eq; cbn [vx vy]; ring. }
  cbn [events_of]. rewrite from_parametric_R, <- S1, line_pt_1. cbn [filter]. rewrite (v2fuzzy_refl b eps He). reflexivity.
Qed.

Lemma vn_locals : basics (local_events raw eps) = [].
Proof.
  assert (FM : forall (f : nat -> list (intr_event R)) l, (forall x, In x l -> basics (f x) = []) -> basics (flat_map f l) = []).
  { intros f l K. induction l as [|x l IH]; [reflexivity|]. cbn. unfold basics in *. rewrite flat_map_app, (K x (or_introl eq_refl)), IH; [reflexivity|]. intros y I. apply K. now right. }
  unfold local_events. rewrite vn_count. pose proof vn_3. destruct (Nat.ltb_spec n 3) as [L|L]; [lia|]. change (is_closed raw) with true. cbv iota.
  apply FM. intros i I. apply in_seq in I. apply vn_local. lia.
Qed.

(** Two sides without a common corner have one common point, which is reported, or none. *)
Lemma vn_pair i j : (i < n)%nat -> (j < n)%nat -> no_neighbours n i j ->
  (global_pair raw eps (i, j) = [] /\ forall x, ~ sides_cross eps qs i j x) \/ exists x, sides_cross eps qs i j x /\ global_pair raw eps (i, j) = [EvBasic (BI i j x)] .
Proof.
  intros Hi Hj N. assert (SL : length segs = n) by (rewrite spec_segs_length; pose proof vn_3; destruct (Nat.ltb_spec n 2); lia).
  destruct (nth_error segs i) as [(a, b)|] eqn:E1; [|apply nth_error_None in E1; lia]. destruct (nth_error segs j) as [(c, e)|] eqn:E2; [|apply nth_error_None in E2; lia].
  pose proof Cp as (_ & _ & SD & OV & _). specialize (SD i j a b c e E1 E2 N). rewrite <- or_assoc in SD.
  unfold global_pair. change (is_closed raw) with true. rewrite !polygon_segs, E1, E2. cbn [option_map fst snd]. destruct SD as [B|(x & C)].
  - left. split; [rewrite lines_apart; [reflexivity|exact He|reflexivity|reflexivity|rewrite !lv_pos; exact B]|].
    intros x (_ & a' & b' & c' & e' & E1' & E2' & _ & s & t & Hs & Ht & X1 & X2). rewrite E1 in E1'. rewrite E2 in E2'. injection E1' as <- <-. injection E2' as <- <-.
    apply (beside_no_common eps (lv a) (lv b) (lv c) (lv e) x); [exact He|reflexivity|reflexivity|rewrite !lv_pos; exact B| |]; (apply line_point; [reflexivity|]); rewrite !lv_pos; [exists s|exists t]; (split; [lra|assumption]).
  - right. exists x. assert (SC : sides_cross eps qs i j x) by (split; [exact N|]; exists a, b, c, e; auto). split; [exact SC|].
    assert (C' : cross_in eps (pos (lv a)) (pos (lv b)) (pos (lv c)) (pos (lv e)) x) by (rewrite !lv_pos; exact C).
    destruct (cross_found eps (lv a) (lv b) (lv c) (lv e) x He eq_refl eq_refl C') as (E & _). rewrite E. cbn [events_of filter map].
    rewrite (off_fuzzy eps (lv b) x); [reflexivity|]. apply (OV i j x b SC). apply (spec_segs_In_both _ _ _ _ (nth_error_In _ _ E1)).
Qed.

Lemma vn_ok i j : In (i, j) pairs -> (i < n)%nat /\ (j < n)%nat /\ no_neighbours n i j /\ ~ In (j, i) pairs.
Proof.
  intros I. destruct PO as (P & _). destruct (P i j I) as (L1 & L2 & A & NI). unfold apart in A. rewrite vn_count in A.
  assert (SL : length (spec_segs (vtx raw) (is_closed raw)) = n). { change (is_closed raw) with true. unfold polygon. cbn [vtx]. rewrite spec_segs_map, map_length, spec_segs_length. pose proof vn_3. destruct (Nat.ltb_spec n 2); lia. }
  rewrite SL in L1, L2. auto.
Qed.

Lemma vn_each ij : In ij pairs -> global_pair raw eps ij = [] \/ exists q, global_pair raw eps ij = [EvBasic (BI (fst ij) (snd ij) q)].
Proof. destruct ij as (i, j). intros I. destruct (vn_ok i j I) as (Hi & Hj & N & _). destruct (vn_pair i j Hi Hj N) as [(E & _)|(x & _ & E)]; eauto. Qed.

Definition meets : list (basic_intr R) := basics (flat_map (global_pair raw eps) pairs).

Lemma vn_cuts : cuts = flat_map (fun b => [(bi_index1 b, bi_point b); (bi_index2 b, bi_point b)]) meets.
Proof. unfold self_cuts, meets. rewrite basics_app, vn_locals. reflexivity. Qed.

Lemma vn_meet b : In b meets -> In (bi_index1 b, bi_index2 b) pairs /\ sides_cross eps qs (bi_index1 b) (bi_index2 b) (bi_point b).
Proof.
  intros I. apply (each_basics _ _ vn_each) in I as (I & E). split; [exact I|]. destruct (vn_ok _ _ I) as (Hi & Hj & N & _).
  destruct (vn_pair _ _ Hi Hj N) as [(E' & _)|(x & SC & E')]; rewrite E in E'; [discriminate|]. injection E' as ->. cbn [bi_index1 bi_index2 bi_point] in *. exact SC.
Qed.

Lemma cross_unique i j x y : sides_cross eps qs i j x -> sides_cross eps qs i j y -> x = y.
Proof.
  intros (_ & a & b & c & e & E1 & E2 & C & s & t & Hs & Ht & X1 & X2) (_ & a' & b' & c' & e' & E1' & E2' & _ & s' & t' & _ & _ & Y1 & Y2).
  rewrite E1 in E1'. rewrite E2 in E2'. injection E1' as <- <-. injection E2' as <- <-.
  destruct (line_line_nonparallel a b c e eps He C) as (u & v & _ & U & _). destruct (U s t) as (<- & <-); [congruence|]. destruct (U s' t') as (-> & _); congruence.
Qed.

Lemma vn_found i j x : sides_cross eps qs i j x -> In (BI i j x) meets \/ In (BI j i x) meets.
Proof.
  intros SC. pose proof SC as (N & a & b & c & e & E1 & E2 & C & s & t & Hs & Ht & X1 & X2). pose proof vn_3 as N3.
  assert (O1 : on_seg (lv a) (lv b) x) by (apply line_point; [reflexivity|]; rewrite !lv_pos; exists s; split; [lra|exact X1]).
  assert (O2 : on_seg (lv c) (lv e) x) by (apply line_point; [reflexivity|]; rewrite !lv_pos; exists t; split; [lra|exact X2]).
  assert (P : In (i, j) pairs \/ In (j, i) pairs).
  { apply (self_meet_examined raw eps pairs i j (lv a) (lv b) (lv c) (lv e) x); auto.
    - lra.
    - rewrite vn_count. exact N3.
    - change (is_closed raw) with true. rewrite polygon_segs, E1. reflexivity.
    - change (is_closed raw) with true. rewrite polygon_segs, E2. reflexivity.
    - now apply line_ok.
    - now apply line_ok.
    - unfold apart. rewrite vn_count. exact N. }
  assert (K : forall i j, sides_cross eps qs i j x -> In (i, j) pairs -> In (BI i j x) meets).
  { clear - He Cp PO. intros i j SC I. apply (each_basics _ _ vn_each). cbn [bi_index1 bi_index2]. split; [exact I|]. destruct (vn_ok _ _ I) as (Hi & Hj & N & _).
    destruct (vn_pair _ _ Hi Hj N) as [(_ & E)|(y & SC' & E)]; [exfalso; exact (E x SC)|]. rewrite E. now rewrite (cross_unique i j x y SC SC'). }
  destruct P as [P|P]; [left|right]; apply K; auto using sides_cross_sym.
Qed.

Lemma vn_in k x : In (k, x) cuts <-> exists j, sides_cross eps qs k j x.
Proof.
  rewrite vn_cuts, in_flat_map. split.
  - intros (b & I & [E|[E|[]]]); destruct (vn_meet b I) as (_ & SC); pose proof (f_equal fst E) as E1; pose proof (f_equal snd E) as E2; cbn [fst snd] in E1, E2; subst k x; [exists (bi_index2 b); exact SC|exists (bi_index1 b); now apply sides_cross_sym].
  - intros (j & SC). destruct (vn_found k j x SC) as [I|I]; (eexists; split; [exact I|]); cbn [bi_index1 bi_index2 bi_point]; [now left|right; now left].
Qed.

(** Two crossings at the same point are the same. *)
Lemma cross_same i j i' j' x : sides_cross eps qs i j x -> sides_cross eps qs i' j' x -> (i = i' /\ j = j') \/ (i = j' /\ j = i').
Proof.
  intros S1 S2. destruct Cp as (_ & _ & _ & _ & SP & _). destruct (SP _ _ _ _ _ _ S1 S2) as [A|[A|([D|D] & _)]]; auto; rewrite Rminus_diag_eq, Rabs_R0 in D by reflexivity; lra.
Qed.

Lemma vn_nodup : NoDup cuts.
Proof.
  rewrite vn_cuts. pose proof (each_nodup _ _ vn_each (proj1 (proj2 PO))) as ND. fold meets in ND.
  assert (M : forall b, In b meets -> In (bi_index1 b, bi_index2 b) pairs /\ sides_cross eps qs (bi_index1 b) (bi_index2 b) (bi_point b)) by apply vn_meet.
  revert ND M. generalize meets as l. induction l as [|b l IH]; intros ND M; [constructor|]. inversion ND as [|? ? NI ND']; subst. specialize (IH ND' (fun c I => M c (or_intror I))).
  destruct (M b (or_introl eq_refl)) as (Ib & Sb). destruct (vn_ok _ _ Ib) as (_ & _ & (Nb & _) & NIb).
  assert (K : forall k, k = bi_index1 b \/ k = bi_index2 b -> ~ In (k, bi_point b) (flat_map (fun b => [(bi_index1 b, bi_point b); (bi_index2 b, bi_point b)]) l)).
  { intros k Hk I. apply in_flat_map in I as (c & Ic & J). destruct (M c (or_intror Ic)) as (Jc & Sc). destruct (vn_ok _ _ Jc) as (_ & _ & (Nc & _) & _).
    assert (Ep : bi_point c = bi_point b) by (destruct J as [J|[J|[]]]; exact (f_equal snd J)). rewrite Ep in Sc.
    destruct (cross_same _ _ _ _ _ Sb Sc) as [(A & B)|(A & B)].
    - apply NI. destruct b as [b1 b2 b3], c as [c1 c2 c3]. cbn [bi_index1 bi_index2 bi_point] in *. subst. exact Ic.
    - apply NIb. rewrite A, B. exact Jc. }
  cbn [flat_map app]. constructor.
  - intros [E|I]; [apply Nb; symmetry; exact (f_equal fst E)|]. exact (K _ (or_introl eq_refl) I).
  - constructor; [|exact IH]. intros I. exact (K _ (or_intror eq_refl) I).
Qed.

Lemma vn_many : (2 <= length cuts)%nat.
Proof.
  destruct Cp as (_ & _ & _ & _ & _ & i & j & x & SC). rewrite vn_cuts. destruct (vn_found i j x SC) as [I|I]; destruct meets as [|b l]; try destruct I; cbn [flat_map app length]; lia.
Qed.

Lemma cross_place k j x : sides_cross eps qs k j x -> exists a b t, nth_error segs k = Some (a, b) /\ 0 < t < 1 /\ x = line_pt a b t /\ point_at raw k t x.
Proof.
  intros (_ & a & b & c & e & E1 & _ & _ & s & t & Hs & _ & X1 & _). exists a, b, s. split; [exact E1|]. split; [exact Hs|]. split; [exact X1|].
  exists (lv a), (lv b). change (is_closed raw) with true. rewrite polygon_segs, E1. split; [reflexivity|]. split; [lra|]. apply seg_at_line; [reflexivity|]. now rewrite !lv_pos.
Qed.

Lemma vn_wide x y : In x cuts -> In y cuts -> snd x = snd y \/
  ((eps <= Rabs (vx (snd x) - vx (snd y)) \/ eps <= Rabs (vy (snd x) - vy (snd y))) /\ (2 * join < Rabs (vx (snd x) - vx (snd y)) \/ 2 * join < Rabs (vy (snd x) - vy (snd y)))).
Proof.
  destruct x as [k x], y as [l y]. intros I J. apply vn_in in I as (i & S1). apply vn_in in J as (j & S2). cbn [snd].
  destruct Cp as (_ & _ & _ & _ & SP & _). destruct (SP _ _ _ _ _ _ S1 S2) as [(A & B)|[(A & B)|(D & d & Hd & D')]].
  - left. subst. eapply cross_unique; eauto.
  - left. subst. apply (cross_unique l j); auto using sides_cross_sym.
  - right. split; [exact D|]. destruct D' as [D'|D']; [left|right]; lra.
Qed.

Lemma vn_clean : clear_cuts eps raw (map as_slice cuts).
Proof.
  assert (I0 : forall k sp, In (k, sp) (map as_slice cuts) -> In (k, sp_pos sp) cuts).
  { intros k sp I. apply in_map_iff in I as ([k' x] & E & I). unfold as_slice in E. cbn [fst snd] in E. pose proof (f_equal fst E) as E1. pose proof (f_equal snd E) as E2. cbn [fst snd] in E1, E2. subst. exact I. }
  assert (Z : forall k v, nth_error (vtx raw) k = Some v -> pbulge v = 0).
  { intros k v E. apply nth_error_In in E. unfold polygon in E. cbn [vtx] in E. apply in_map_iff in E as (q & <- & _). reflexivity. }
  split.
  - intros k sp I. apply I0 in I. apply vn_in in I as (j & SC). split.
    + intros v Iv. right. unfold polygon in Iv. cbn [vtx] in Iv. apply in_map_iff in Iv as (q & <- & Iq). destruct Cp as (_ & _ & _ & OV & _). rewrite ProofConvex.pos_vertex. exact (OV _ _ _ q SC Iq).
    + destruct (cross_place _ _ _ SC) as (a & b & t & _ & Ht & _ & P). exists t. split; [split; [lra|exact P]|]. intros v E. left. exact (Z _ _ E).
  - intros k sp sp' I J. apply I0 in I. apply I0 in J. split.
    + destruct (vn_wide _ _ I J) as [W|(W & _)]; [left; exact W|right; exact W].
    + intros t u v _ _ _ E. left. exact (Z _ _ E).
Qed.
End Cuts.
