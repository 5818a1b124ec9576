(** Statements about single segments assembled from [ProofArc] (C11, C12, C13, C18). *)
From Coq Require Import Reals ZArith Bool List Lra Lia Psatz.
From Verif Require Import Num RNum ModelMath ModelSeg SpecGeom ProofR ProofArc.
Local Open Scope R_scope.

(** ** C11 *)
Lemma radius_and_center_spec v1 v2 : pos v1 <> pos v2 -> pbulge v1 <> 0 ->
  let '(r, c) := seg_arc_radius_and_center v1 v2 in
  0 < r
  /\ (exists a, is_arc (pos v1) (pos v2) (pbulge v1) c r a)
  /\ (forall c' r' a', is_arc (pos v1) (pos v2) (pbulge v1) c' r' a' -> c' = c /\ r' = r).
Proof.
  intros Hp Hb. rewrite arc_radius_and_center_eq by assumption. split; [now apply radius_pos|]. split.
  - eexists. now apply computed_is_arc.
  - intros c' r' a' H. now apply (arc_unique _ _ _ _ _ _ Hb H).
Qed.

(** ** C12 *)
Lemma arc_pts_distinct p1 p2 b c r a : 0 < r -> b <> 0 -> is_arc p1 p2 b c r a -> p1 <> p2.
Proof.
  intros Hr Hb HA E. destruct (arc_unique _ _ _ _ _ _ Hb HA) as [_ Er]. subst p2.
  unfold radius_of, chord2 in Er. rewrite !Rminus_diag_eq in Er by reflexivity.
  rewrite !Rmult_0_l, Rplus_0_r, sqrt_0, Rmult_0_l in Er. unfold Rdiv in Er. lra.
Qed.

Lemma seg_at_known_arc v1 v2 c r a u p : 0 < r -> pbulge v1 <> 0 ->
  is_arc (pos v1) (pos v2) (pbulge v1) c r a ->
  (seg_at v1 v2 u p <-> p = circle_pt c r (a + u * sweep (pbulge v1))).
Proof.
  intros Hr Hb HA. pose proof (arc_pts_distinct _ _ _ _ _ _ Hr Hb HA) as Hd. split.
  - intros H. apply seg_at_arc in H; auto. destruct (arc_unique _ _ _ _ _ _ Hb HA) as [-> ->]. rewrite H.
    apply circle_pt_congr. apply congr_plus; [|apply congr_refl].
    destruct (arc_angle_congr _ _ _ _ _ _ Hd Hb HA) as (_ & C & _). 
    destruct (arc_unique _ _ _ _ _ _ Hb HA) as [Ec _]. exact C.
  - intros ->. right. split; [exact Hb|]. now exists c, r, a.
Qed.

Lemma split_halves v1 v2 q eps t :
  seg_ok v1 v2 -> 0 < t < 1 -> seg_at v1 v2 t q ->
  (pbulge v1 <> 0 -> v2fuzzy_eq_eps (pos v1) (pos v2) eps = false
     /\ v2fuzzy_eq_eps (pos v1) q eps = false /\ v2fuzzy_eq_eps (pos v2) q eps = false) ->
  let s := seg_split_at_point v1 v2 q eps in
  pos (updated_start s) = pos v1 /\ pos (split_vertex s) = q
  /\ (forall u p, seg_at (updated_start s) (split_vertex s) u p <-> seg_at v1 v2 (u * t) p)
  /\ (forall u p, seg_at (split_vertex s) v2 u p <-> seg_at v1 v2 (t + u * (1 - t)) p)
  /\ sweep (pbulge (updated_start s)) = t * sweep (pbulge v1)
  /\ sweep (pbulge (split_vertex s)) = (1 - t) * sweep (pbulge v1).
Proof.
  intros Hok Ht Hq Hf s. destruct (Req_dec (pbulge v1) 0) as [E|E].
  - unfold s. rewrite seg_split_line by exact E. cbn [updated_start split_vertex pbulge].
    apply seg_at_line in Hq; [|exact E]. subst q.
    assert (S0 : sweep 0 = 0) by (unfold sweep; rewrite atan_0; ring).
    split; [reflexivity|]. split; [reflexivity|]. split; [|split; [|split]].
    + intros u p. rewrite !seg_at_line by exact E. unfold line_pt, pos. cbn [vx vy px py].
      split; intros ->; f_equal; ring.
    + intros u p. rewrite (seg_at_line _ v2) by reflexivity. rewrite seg_at_line by exact E.
      unfold line_pt, pos. cbn [vx vy px py]. split; intros ->; f_equal; ring.
    + rewrite E, S0. ring.
    + rewrite E, S0. ring.
  - destruct (Hf E) as (F1 & F2 & F3). destruct Hq as [[Z _]|[_ (c & r & a & HA & Eq)]]; [contradiction|].
    destruct (seg_split_arc v1 v2 q eps t c r a Hok E Ht HA Eq F1 F2 F3) as (P1 & P2 & S1 & S2 & A1 & A2).
    fold s in P1, P2, S1, S2, A1, A2.
    split; [exact P1|]. split; [exact P2|].
    destruct (arc_angle_congr _ _ _ _ _ _ (proj2 Hok E) E HA) as (Hr & _).
    pose proof (sweep_nonzero _ E) as Hs.
    assert (B1 : pbulge (updated_start s) <> 0).
    { intros Z. rewrite Z in S1. unfold sweep at 1 in S1. rewrite atan_0 in S1. nra. }
    assert (B2 : pbulge (split_vertex s) <> 0).
    { intros Z. rewrite Z in S2. unfold sweep at 1 in S2. rewrite atan_0 in S2. nra. }
    split; [|split; [|split; assumption]].
    + intros u p. rewrite <- P1, <- P2 in A1. rewrite (seg_at_known_arc _ _ _ _ _ u p Hr B1 A1).
      rewrite (seg_at_known_arc _ _ _ _ _ (u * t) p Hr E HA). rewrite S1.
      replace (u * (t * sweep (pbulge v1))) with (u * t * sweep (pbulge v1)) by ring. reflexivity.
    + intros u p. rewrite <- P2 in A2. rewrite (seg_at_known_arc _ _ _ _ _ u p Hr B2 A2).
      rewrite (seg_at_known_arc _ _ _ _ _ (t + u * (1 - t)) p Hr E HA). rewrite S2.
      replace (a + t * sweep (pbulge v1) + u * ((1 - t) * sweep (pbulge v1)))
        with (a + (t + u * (1 - t)) * sweep (pbulge v1)) by ring. reflexivity.
Qed.

(** ** C18, the last clause *)
Lemma normalize_radians_unique a m : congr m a -> 0 <= m < 2 * PI -> a <> 2 * PI -> normalize_radians a = m.
Proof.
  intros C Hm Ha. destruct (normalize_radians_spec a) as (C' & B & E).
  apply congr_range_eq.
  - eapply congr_trans; [exact C'|]. now apply congr_sym.
  - pose proof PI_pos. destruct (Req_dec (normalize_radians a) (2 * PI)) as [Z|Z]; [tauto|]. lra.
Qed.

Lemma angle_is_between_spec test start end_ eps m w :
  congr m (test - start) -> 0 <= m < 2 * PI -> test - start <> 2 * PI ->
  congr w (end_ - start) -> 0 <= w < 2 * PI -> end_ - start <> 2 * PI ->
  (angle_is_between_eps test start end_ eps = true <-> m < w + eps).
Proof.
  intros C1 B1 N1 C2 B2 N2. unfold angle_is_between_eps. rnum.
  rewrite (normalize_radians_unique _ m), (normalize_radians_unique _ w) by assumption.
  apply rltb_true.
Qed.

Lemma angle_is_within_sweep_spec test start s eps m lo :
  Rabs s < 2 * PI -> lo = Rmin start (start + s) ->
  congr m (test - lo) -> 0 <= m < 2 * PI -> test - lo <> 2 * PI ->
  (angle_is_within_sweep_eps test start s eps = true <-> m < Rabs s + eps).
Proof.
  intros Hs -> C B NE. unfold angle_is_within_sweep_eps. rnum. destruct (rltb s 0) eqn:E.
  - apply rltb_true in E. rewrite Rabs_left in * by lra. rewrite Rmin_right in * by lra.
    apply angle_is_between_spec; auto; try lra. exists 0%Z. lra.
  - apply rltb_false in E. rewrite Rabs_pos_eq in * by lra. rewrite Rmin_left in * by lra.
    apply angle_is_between_spec; auto; try lra. exists 0%Z. lra.
Qed.

Lemma within_example : angle_is_within_sweep_eps 0 (PI / 2) (- PI) (1 / 100000) = true
  /\ angle_is_within_sweep_eps PI (PI / 2) (- PI) (1 / 100000) = false.
Proof.
  pose proof PI_pos. pose proof PI_4. assert (3 < PI) by (pose proof PI2_3_2; lra).
  assert (A : Rabs (- PI) = PI) by (rewrite Rabs_left; lra).
  assert (L : Rabs (- PI) < 2 * PI) by (rewrite A; lra).
  assert (M : PI / 2 + - PI = Rmin (PI / 2) (PI / 2 + - PI)) by (rewrite Rmin_right; lra). split.
  - apply (angle_is_within_sweep_spec _ _ _ _ (PI / 2) _ L M); try lra. exists 0%Z; lra.
  - apply not_true_iff_false. intros H2.
    apply (angle_is_within_sweep_spec _ _ _ _ (3 * (PI / 2)) _ L M) in H2; try lra. exists 0%Z; lra.
Qed.

Lemma split_ends v1 v2 q eps :
  bulge_ok (pbulge v1) ->
  let s := seg_split_at_point v1 v2 q eps in
  (pbulge v1 = 0 -> updated_start s = v1 /\ pos (split_vertex s) = q /\ pbulge (split_vertex s) = 0)
  /\ (pbulge v1 <> 0 -> Rabs (px v1 - vx q) < eps -> Rabs (py v1 - vy q) < eps ->
        pos (updated_start s) = q /\ pbulge (updated_start s) = 0
        /\ pos (split_vertex s) = q /\ pbulge (split_vertex s) = pbulge v1)
  /\ (pbulge v1 <> 0 -> Rabs (px v2 - vx q) < eps -> Rabs (py v2 - vy q) < eps ->
        ~ (Rabs (px v1 - vx q) < eps /\ Rabs (py v1 - vy q) < eps) ->
        ~ (Rabs (px v1 - px v2) < eps /\ Rabs (py v1 - py v2) < eps) ->
        updated_start s = v1 /\ pos (split_vertex s) = pos v2 /\ pbulge (split_vertex s) = 0).
Proof.
  intros Hb s.
  assert (FT : forall a b : vec2 R, v2fuzzy_eq_eps a b eps = true <-> Rabs (vx a - vx b) < eps /\ Rabs (vy a - vy b) < eps).
  { intros a b. unfold v2fuzzy_eq_eps, fuzzy_eq_eps. rewrite andb_true_iff. rnum. rewrite !rltb_true. tauto. }
  assert (FF : forall a b : vec2 R, ~ (Rabs (vx a - vx b) < eps /\ Rabs (vy a - vy b) < eps) -> v2fuzzy_eq_eps a b eps = false).
  { intros a b H. destruct (v2fuzzy_eq_eps a b eps) eqn:E; [|reflexivity]. apply FT in E. contradiction. }
  split; [|split].
  - intros E. unfold s. rewrite seg_split_line by exact E. cbn. destruct q. auto.
  - intros E X Y. unfold s, seg_split_at_point.
    destruct (bulge_is_zero v1) eqn:Z; [apply bulge_ok_zero in Z; [contradiction|exact Hb]|].
    rewrite (proj2 (FT (pos v1) q)) by (split; assumption). rewrite orb_true_r. cbn. destruct q. auto.
  - intros E X Y N1 N2. unfold s, seg_split_at_point.
    destruct (bulge_is_zero v1) eqn:Z; [apply bulge_ok_zero in Z; [contradiction|exact Hb]|].
    rewrite (FF (pos v1) (pos v2) N2), (FF (pos v1) q N1), (proj2 (FT (pos v2) q)) by (split; assumption).
    cbn. auto.
Qed.

(** ** Examples *)
Lemma sqrt_val x y : 0 <= x -> y = x * x -> sqrt y = x.
Proof. intros H ->. now apply sqrt_square. Qed.

Lemma ex_half_circle : seg_arc_radius_and_center (Vtx 1 0 (-1)) (Vtx 1 4 0) = (2, V2 1 2).
Proof.
  rewrite arc_radius_and_center_eq.
  - unfold radius_of, centre_of, chord2, pos. cbn [px py pbulge vx vy].
    rewrite (sqrt_val 4) by lra. rewrite (Rabs_left (-1)) by lra. f_equal; [field|]. f_equal; field.
  - intros E. injection E. lra.
  - cbn. lra.
Qed.

Lemma ex_unit_circle : seg_arc_radius_and_center (Vtx 1 0 1) (Vtx (-1) 0 0) = (1, V2 0 0).
Proof.
  rewrite arc_radius_and_center_eq.
  - unfold radius_of, centre_of, chord2, pos. cbn [px py pbulge vx vy].
    rewrite (sqrt_val 2) by lra. rewrite (Rabs_pos_eq 1) by lra. f_equal; [field|]. f_equal; field.
  - intros E. injection E. lra.
  - cbn. lra.
Qed.

Lemma ratan2_vals : ratan2 0 1 = 0 /\ ratan2 1 0 = PI / 2 /\ ratan2 0 (-1) = PI.
Proof.
  pose proof PI_pos as HPI. repeat split.
  - destruct (ratan2_spec 0 1 ltac:(left; lra)) as (X & Y & B).
    rewrite (sqrt_val 1) in X, Y by lra. apply congr_range_eq; [|lra]. apply cos_sin_congr; rewrite ?cos_0, ?sin_0; lra.
  - destruct (ratan2_spec 1 0 ltac:(right; lra)) as (X & Y & B).
    rewrite (sqrt_val 1) in X, Y by lra. apply congr_range_eq; [|lra]. apply cos_sin_congr; rewrite ?cos_PI2, ?sin_PI2; lra.
  - destruct (ratan2_spec 0 (-1) ltac:(left; lra)) as (X & Y & B).
    rewrite (sqrt_val 1) in X, Y by lra. apply congr_range_eq; [|lra]. apply cos_sin_congr; rewrite ?cos_PI, ?sin_PI; lra.
Qed.

Lemma ex_not_zero : bulge_is_zero (Vtx 1 0 1 : vertex R) = false.
Proof. rewrite bulge_is_zero_R. cbn. apply rltb_false. rewrite (Rabs_pos_eq 1); lra. Qed.

Lemma ex_split :
  seg_split_at_point (Vtx 1 0 1) (Vtx (-1) 0 0) (V2 0 1) (1 / 100000)
  = SplitResult (Vtx 1 0 (tan (PI / 8))) (Vtx 0 1 (tan (PI / 8))).
Proof.
  pose proof PI_pos as HPI. destruct ratan2_vals as (W1 & W2 & W3).
  unfold seg_split_at_point. rewrite ex_not_zero, ex_unit_circle.
  assert (FF : forall a b c d : R, 1 <= Rabs (a - b) -> v2fuzzy_eq_eps (V2 a c) (V2 b d) (1 / 100000) = false).
  { intros a b c d H. unfold v2fuzzy_eq_eps, fuzzy_eq_eps. rnum. rewrite (proj2 (rltb_false _ _)); [reflexivity|lra]. }
  unfold pos. cbn [px py pbulge]. rewrite !FF by (unfold Rabs; match goal with |- context [Rcase_abs ?x] => destruct (Rcase_abs x) end; lra).
  cbn [orb]. unfold angle. rnum. rewrite !Rminus_0_r, W1, W2, W3.
  unfold bulge_is_neg. cbn [pbulge]. rnum. rewrite (proj2 (rltb_false 1 0)) by lra.
  unfold delta_angle_signed. rewrite (delta_angle_unique 0 (PI / 2) (PI / 2)) by (try lra; exists 0%Z; lra).
  rewrite (delta_angle_unique (PI / 2) PI (PI / 2)) by (try lra; exists 0%Z; lra).
  unfold bulge_from_angle. rnum. rewrite (Rabs_pos_eq (PI / 2)) by lra.
  replace (PI / 2 / 4) with (PI / 8) by field. reflexivity.
Qed.

Lemma ex_mid :
  seg_midpoint (Vtx 1 0 1) (Vtx (-1) 0 0) = V2 0 1
  /\ seg_tangent_vector (Vtx 1 0 1) (Vtx (-1) 0 0) (V2 0 1) = V2 (-1) 0.
Proof.
  pose proof PI_pos as HPI. destruct ratan2_vals as (W1 & W2 & W3). split.
  - unfold seg_midpoint. rewrite ex_not_zero, ex_unit_circle. unfold angle, pos. rnum. cbn [px py].
    rewrite !Rminus_0_r, W1, W3. unfold bulge_is_neg. cbn [pbulge]. rnum. rewrite (proj2 (rltb_false 1 0)) by lra.
    unfold delta_angle_signed. rewrite (delta_angle_unique 0 PI PI) by (try lra; exists 0%Z; lra).
    rnum. rewrite (Rabs_pos_eq PI) by lra. unfold point_on_circle. rnum.
    rewrite !Rplus_0_l, cos_PI2, sin_PI2. f_equal; ring.
  - unfold seg_tangent_vector. rewrite ex_not_zero, ex_unit_circle. unfold bulge_is_pos. cbn [pbulge]. rnum.
    rewrite (proj2 (rltb_true 0 1)) by lra. rnum. f_equal; ring.
Qed.

Lemma normalize_radians_example : normalize_radians (5 * PI) = PI /\ delta_angle (PI / 2) (2 * PI) = - (PI / 2).
Proof.
  pose proof PI_pos. split.
  - apply normalize_radians_unique; [exists (-2)%Z; lra|lra|lra].
  - apply delta_angle_unique; [exists (-1)%Z; lra|lra].
Qed.

Lemma between_example : angle_is_between_eps 0 (- (PI / 2)) (PI / 2) (1 / 100000) = true
  /\ angle_is_between_eps PI (- (PI / 2)) (PI / 2) (1 / 100000) = false.
Proof.
  pose proof PI_pos. pose proof PI_4. assert (3 < PI) by (pose proof PI2_3_2; lra). split.
  - apply (angle_is_between_spec _ _ _ _ (PI / 2) PI); try lra; exists 0%Z; lra.
  - apply not_true_iff_false. intros H2.
    apply (angle_is_between_spec _ _ _ _ (3 * (PI / 2)) PI) in H2; try lra; exists 0%Z; lra.
Qed.

Lemma bulge_example : angle_from_bulge 1 = PI /\ bulge_from_angle PI = 1.
Proof.
  assert (E : angle_from_bulge 1 = PI) by (unfold angle_from_bulge; rnum; rewrite atan_1; field).
  split; [exact E|]. rewrite <- E. apply bulge_from_angle_from_bulge.
Qed.
