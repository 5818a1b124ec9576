(** Paths that clearly do not meet themselves are not cut and pass no point twice (C78). *)
From Coq Require Import Reals ZArith Bool List Arith Lra Lia Psatz Classical.
From Verif Require Import Num RNum Res ModelMath ModelIntr ModelSeg ModelPline ModelView ModelSegIntr ModelIndex ModelIntersects ModelBoolean ModelOffset.
From Verif Require Import Spec SpecPline SpecGeom SpecIntr SpecSegIntr SpecWinding SpecOffset SpecOffsetJoin SpecIndex SpecIntersects SpecCuts SpecOffNear SpecBoolean SpecView SpecBox SpecPrune SpecPolyOff SpecJordan SpecConvex SpecRound SpecCurve SpecSimple.
From Verif Require Import ProofR ProofBase ProofIter ProofIntr ProofArc ProofMeasure ProofIndex2 ProofSegIntr2 ProofSegIntr5 ProofSegIntr6 ProofOffsetJoin2 ProofOffsetJoin4 ProofRawNear2 ProofSlice ProofWinding4 ProofWinding6 ProofNest ProofWhole ProofJordan2 ProofJordan5 ProofOverlap ProofPolyOff ProofPolyOff2 ProofRound2 ProofCurve1.
From Verif Require ProofConvex.
Import ListNotations.
Local Open Scope R_scope.

Lemma foot_dist a b k t : at_right_angles a b k -> dist (line_pt a b t) k * dist (line_pt a b t) k = dist b k * dist b k + (1 - t) * (1 - t) * (dist a b * dist a b).
Proof.
  unfold at_right_angles, vec. cbn [vx vy]. intros H. rewrite !dist_sqr. unfold line_pt. cbn [vx vy].
  transitivity ((vx b - vx k) * (vx b - vx k) + (vy b - vy k) * (vy b - vy k) + (1 - t) * (1 - t) * ((vx a - vx b) * (vx a - vx b) + (vy a - vy b) * (vy a - vy b)) - 2 * (1 - t) * ((vx b - vx a) * (vx b - vx k) + (vy b - vy a) * (vy b - vy k))); [ring|].
  rewrite H. ring.
Qed.

Lemma foot_far a b k r t : a <> b -> at_right_angles a b k -> dist b k = r -> t <> 1 -> r < dist (line_pt a b t) k.
Proof.
  intros N H D T. pose proof (foot_dist a b k t H) as Q. rewrite D in Q. pose proof (ProofConvex.dist_pos _ _ N) as P. pose proof (ProofIntr.dist_pos b k) as R0. rewrite D in R0.
  assert (0 < (1 - t) * (1 - t)) by (assert (Z : 1 - t <> 0) by lra; destruct (Rdichotomy _ _ Z); nra). assert (0 < dist a b * dist a b) by (apply Rmult_lt_0_compat; lra).
  assert (0 < (1 - t) * (1 - t) * (dist a b * dist a b)) by (apply Rmult_lt_0_compat; lra). apply Rsqr_incrst_0; [unfold Rsqr; lra|lra|apply sqrt_pos].
Qed.

Lemma arc_far_start v1 v2 c r : arc_circle v1 v2 c r -> dist (pos v1) c = r /\ dist (pos v2) c = r.
Proof.
  intros (a & P & E1 & E2). assert (K : forall x, dist (circle_pt c r x) c = r).
  { intros x. assert (Q : dist (circle_pt c r x) c * dist (circle_pt c r x) c = r * r). { rewrite dist_sqr. unfold circle_pt. cbn [vx vy]. pose proof (sin2_cos2 x) as S. unfold Rsqr in S. transitivity (r * r * (sin x * sin x + cos x * cos x)); [ring|rewrite S; ring]. }
    apply Rsqr_inj; [apply sqrt_pos|lra|exact Q]. }
  rewrite E1, E2. auto.
Qed.

Lemma arc_at_dist v1 v2 c r t q : pbulge v1 <> 0 -> arc_circle v1 v2 c r -> seg_at v1 v2 t q -> dist q c = r.
Proof.
  intros Nz (a & A) [(Z & _)|(_ & c' & r' & a' & A' & ->)]; [contradiction|]. destruct (arc_unique _ _ _ _ _ _ Nz A) as (-> & ->). destruct (arc_unique _ _ _ _ _ _ Nz A') as (Ec & Er). rewrite <- Ec, <- Er.
  destruct A' as (P & _). assert (Q : forall x, dist (circle_pt c' r' x) c' * dist (circle_pt c' r' x) c' = r' * r'). { intros x. rewrite dist_sqr. unfold circle_pt. cbn [vx vy]. pose proof (sin2_cos2 x) as S. unfold Rsqr in S. transitivity (r' * r' * (sin x * sin x + cos x * cos x)); [ring|rewrite S; ring]. }
  apply Rsqr_inj; [apply sqrt_pos|lra|apply Q].
Qed.

Section Lone.
Variables (p : pline R) (eps : R).
Hypothesis He : 0 < eps.
Hypothesis LP : lone_path eps p.
Let segs := spec_segs (vtx p) true.
Let n := length (vtx p).

Lemma lp_closed : is_closed p = true. Proof. apply LP. Qed.
Lemma lp_n : (3 <= n)%nat. Proof. apply LP. Qed.
Lemma lp_seg i v1 v2 : nth_error segs i = Some (v1, v2) -> seg_ok v1 v2 /\ ~ is_point (pos v1) (pos v2) eps /\ pos v1 <> pos v2.
Proof.
  intros E. destruct LP as (C & _ & CP & _). destruct (CP v1 v2) as (Ok & D). { rewrite C. exact (nth_error_In _ _ E). }
  assert (NP : ~ is_point (pos v1) (pos v2) eps). { intros (A & B). unfold pos in A, B. cbn [vx vy] in A, B. rewrite Rabs_minus_sym in A. rewrite Rabs_minus_sym in B. destruct D; lra. }
  split; [exact Ok|]. split; [exact NP|]. intros Q. apply NP. rewrite Q. split; rewrite Rminus_diag_eq, Rabs_R0 by reflexivity; exact He.
Qed.
Lemma lp_ok : pline_ok p.
Proof. intros a b I. rewrite lp_closed in I. destruct (In_nth_error _ _ I) as (i & E). exact (proj1 (lp_seg i a b E)). Qed.
Lemma lp_valid : valid_loop p.
Proof. split; [|exact lp_closed]. pose proof lp_n. unfold vertex_count. fold n. lia. Qed.

Lemma lp_next i v1 v2 u1 u2 : nth_error segs i = Some (v1, v2) -> nth_error segs ((i + 1) mod n) = Some (u1, u2) -> u1 = v2.
Proof. intros E1 E2. apply segs_nth in E1 as (_ & E1). apply segs_nth in E2 as (E2 & _). fold n in E1. congruence. Qed.

Lemma lp_local i : basics (local_pair p eps i ((i + 1) mod n)) = [].
Proof.
  unfold local_pair. rewrite lp_closed. fold segs.
  destruct (nth_error segs i) as [(a, b)|] eqn:E1; [|reflexivity]. destruct (nth_error segs ((i + 1) mod n)) as [(b', c)|] eqn:E2; [|reflexivity].
  assert (b' = b) by exact (lp_next i a b b' c E1 E2). subst b'.
  destruct (v2fuzzy_eq_eps _ _ _); [reflexivity|]. pose proof LP as (_ & _ & _ & J & _). specialize (J i a b c E1 E2).
  destruct (lp_seg _ _ _ E1) as (Ok1 & P1 & D1). destruct (lp_seg _ _ _ E2) as (Ok2 & P2 & D2).
  destruct J as [(Z1 & Z2 & X)|[(Z1 & Z2 & CD & k & r & (al & A) & RA & F)|(Z1 & Z2 & CD & k & r & (al & A) & RA)]].
  - unfold pline_seg_intr. rewrite (is_zero_line a Z1), (is_zero_line b Z2). cbn [andb].
    destruct (line_line_nonparallel (pos a) (pos b) (pos b) (pos c) eps He X) as (s & t & E & U & [(_ & EL)|(_ & EL)]); rewrite EL; [|reflexivity].
    destruct (U 1 0) as (S1 & T0). { rewrite line_pt_1. unfold line_pt. apply vec2_eq; cbn [vx vy]; ring. }
    cbn [events_of]. rewrite from_parametric_R, <- S1, line_pt_1. cbn [filter]. rewrite (v2fuzzy_refl (pos b) eps He). reflexivity.
  - rewrite (into_arc a b c k r al eps He Z1 Ok2 Z2 A P1 CD); [cbn [events_of filter]; rewrite (v2fuzzy_refl (pos b) eps He); reflexivity| |exact F].
    intros t Ht. apply foot_far; auto. apply (arc_far_start b c k r). now exists al.
  - rewrite (out_of_arc a b c k r al eps He Z2 Ok1 Z1 A P2 CD); [cbn [events_of filter]; rewrite (v2fuzzy_refl (pos b) eps He); reflexivity|].
    intros t Ht. replace (line_pt (pos b) (pos c) t) with (line_pt (pos c) (pos b) (1 - t)) by (unfold line_pt; apply vec2_eq; cbn [vx vy]; ring). apply foot_far; [congruence|exact RA|apply (arc_far_start a b k r); now exists al|lra].
Qed.

Lemma lp_global i j : SpecIntersects.apart p i j -> global_pair p eps (i, j) = [].
Proof.
  intros (A1 & A2 & A3). unfold global_pair. rewrite lp_closed. fold segs. unfold vertex_count in A2, A3. fold n in A2, A3.
  destruct (nth_error segs i) as [(a, b)|] eqn:E1; [|reflexivity]. destruct (nth_error segs j) as [(c, e)|] eqn:E2; [|reflexivity].
  pose proof LP as (_ & _ & _ & _ & J). destruct (J i j a b c e E1 E2 A1 A2 A3) as (SC & No).
  destruct (sides_exact eps a b c e He (proj1 (lp_seg _ _ _ E1)) (proj1 (lp_seg _ _ _ E2)) SC) as (NO & RP & _).
  assert (Z : forall q, ~ reported (pline_seg_intr a b c e eps) q) by (intros q Rq; apply RP in Rq as (O1 & O2); exact (No q O1 O2)).
  destruct (pline_seg_intr a b c e eps) as [|q|q|q q'|q q'|q q']; [reflexivity| | | |destruct NO..]; exfalso; apply (Z q); cbn [reported]; auto.
Qed.

Lemma lp_no_cuts pairs : pairs_ok p eps (boxes_of p) pairs -> self_cuts p eps pairs = [].
Proof.
  intros (PO & _). unfold self_cuts. pose proof lp_n as N3.
  assert (B : basics (local_events p eps ++ flat_map (global_pair p eps) pairs) = []).
  { unfold basics. rewrite flat_map_app.
    assert (FM : forall (f : nat -> list (intr_event R)) l, (forall x, In x l -> basics (f x) = []) -> basics (flat_map f l) = []).
    { intros f l K. induction l as [|x l IH]; [reflexivity|]. cbn. unfold basics in *. rewrite flat_map_app, (K x (or_introl eq_refl)), IH; [reflexivity|]. intros y I. apply K. now right. }
    assert (FM' : forall (f : nat * nat -> list (intr_event R)) l, (forall x, In x l -> f x = []) -> flat_map f l = []).
    { intros f l K. induction l as [|x l IH]; [reflexivity|]. cbn. rewrite (K x (or_introl eq_refl)), IH; [reflexivity|]. intros y I. apply K. now right. }
    rewrite (FM' (global_pair p eps) pairs).
    - cbn [flat_map]. rewrite app_nil_r. unfold local_events. unfold vertex_count. fold n. destruct (Nat.ltb_spec n 3) as [L|L]; [lia|]. rewrite lp_closed.
      apply FM. intros i I. apply lp_local.
    - intros (i, j) I. destruct (PO i j I) as (_ & _ & A & _). now apply lp_global. }
  rewrite B. reflexivity.
Qed.

Lemma lp_len : length segs = n.
Proof. unfold segs. rewrite spec_segs_length. fold n. pose proof lp_n. destruct (Nat.ltb_spec n 2); [lia|reflexivity]. Qed.

Lemma lp_adjacent i v1 v2 v3 t u q : nth_error segs i = Some (v1, v2) -> nth_error segs ((i + 1) mod n) = Some (v2, v3) -> 0 <= t <= 1 -> t < 1 -> 0 <= u <= 1 -> seg_at v1 v2 t q -> seg_at v2 v3 u q -> False.
Proof.
  intros E1 E2 Ht T1 Hu St Su. pose proof LP as (_ & _ & _ & J & _). specialize (J i v1 v2 v3 E1 E2). destruct (lp_seg _ _ _ E1) as (Ok1 & P1 & D1). destruct (lp_seg _ _ _ E2) as (Ok2 & P2 & D2).
  destruct J as [(Z1 & Z2 & X)|[(Z1 & Z2 & CD & k & r & A & RA & F)|(Z1 & Z2 & CD & k & r & A & RA)]].
  - apply seg_at_line in St; [|exact Z1]. apply seg_at_line in Su; [|exact Z2]. destruct (line_line_nonparallel (pos v1) (pos v2) (pos v2) (pos v3) eps He X) as (s & t' & E & U & _).
    destruct (U 1 0) as (S1 & T0). { rewrite line_pt_1. unfold line_pt. apply vec2_eq; cbn [vx vy]; ring. } destruct (U t u) as (S2 & _); [congruence|]. lra.
  - apply seg_at_line in St; [|exact Z1]. pose proof (arc_at_dist _ _ _ _ _ _ Z2 A Su) as D. pose proof (foot_far (pos v1) (pos v2) k r t D1 RA (proj1 (arc_far_start _ _ _ _ A)) ltac:(lra)) as Q. rewrite <- St in Q. lra.
  - pose proof Su as Su'. apply seg_at_line in Su'; [|exact Z2]. pose proof (arc_at_dist _ _ _ _ _ _ Z1 A St) as D.
    destruct (Req_dec u 0) as [->|U0].
    + rewrite line_pt_0 in Su'. subst q. assert (S1 : seg_at v1 v2 1 (pos v2)) by (apply seg_at_1; assumption). pose proof (seg_at_inj v1 v2 t 1 (pos v2) Ok1 D1 Ht ltac:(lra) St S1). lra.
    + pose proof (foot_far (pos v3) (pos v2) k r (1 - u) ltac:(congruence) RA (proj2 (arc_far_start _ _ _ _ A)) ltac:(lra)) as Q.
      replace (line_pt (pos v3) (pos v2) (1 - u)) with q in Q by (rewrite Su'; unfold line_pt; apply vec2_eq; cbn [vx vy]; ring). lra.
Qed.

Lemma lp_once : passes_once p.
Proof.
  intros i j t u q (v1 & v2 & E1 & Ht & St) (u1 & u2 & E2 & Hu & Su) T1 U1. rewrite lp_closed in E1, E2. fold segs in E1, E2.
  destruct (Nat.eq_dec i j) as [->|N].
  - split; [reflexivity|]. pose proof (eq_trans (eq_sym E1) E2) as Q. injection Q as <- <-. destruct (lp_seg _ _ _ E1) as (Ok & _ & D). exact (seg_at_inj v1 v2 t u q Ok D Ht Hu St Su).
  - exfalso. destruct (Nat.eq_dec ((i + 1) mod n) j) as [A|A].
    { rewrite <- A in E2. pose proof (lp_next _ _ _ _ _ E1 E2). subst u1. exact (lp_adjacent i v1 v2 u2 t u q E1 E2 Ht T1 Hu St Su). }
    destruct (Nat.eq_dec i ((j + 1) mod n)) as [B|B].
    { rewrite B in E1. pose proof (lp_next _ _ _ _ _ E2 E1). subst v1. exact (lp_adjacent j u1 u2 v2 u t q E2 E1 Hu U1 Ht Su St). }
    pose proof LP as (_ & _ & _ & _ & J). destruct (J i j _ _ _ _ E1 E2 N B A) as (_ & No). apply (No q); [exists t|exists u]; auto.
Qed.
End Lone.
