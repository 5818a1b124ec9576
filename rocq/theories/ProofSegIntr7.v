(** Segment intersections: concrete cases and the inputs for which a clause fails. *)
From Coq Require Import Reals Lra Lia Bool.
From Verif Require Import Num RNum ModelMath ModelIntr ModelSeg ModelSegIntr SpecGeom SpecIntr SpecBox SpecSegIntr
  ProofR ProofArc ProofArc2 ProofIntr ProofBox ProofBox2 ProofSlice ProofClosest ProofRedundantR
  ProofSegIntr ProofSegIntr2 ProofSegIntr3 ProofSegIntr4 ProofSegIntr5 ProofSegIntr6.
Local Open Scope R_scope.

(** Two nearly vertical lines less than [1e-6] apart: the parameters of the overlap come from the
    abscissas, so the reported overlap starts 0.4 before the first line. *)
Lemma overlap_steep :
  exists v1 v2 u1 u2 eps p q, pbulge v1 = 0 /\ pbulge u1 = 0 /\ 0 < eps <= 1 / 100000
    /\ pline_seg_intr v1 v2 u1 u2 eps = SIOverlapLines p q
    /\ forall x, on_seg v1 v2 x -> 2 / 5 <= dist p x.
Proof.
  exists (Vtx (92 / 10000000) 5 0), (Vtx (192 / 10000000) 10 0), (Vtx 0 0 0), (Vtx (2 / 100000) 10 0), (1 / 100000).
  eexists. eexists. split; [reflexivity|]. split; [reflexivity|]. split; [lra|]. split.
  - unfold pline_seg_intr. rewrite !bulge_zero_is by reflexivity. cbn [andb]. unfold pos. cbn [px py].
    unfold line_line_intr. rewrite !dist_v2length.
    set (L := dist (V2 0 0) (V2 (2 / 100000) 10)).
    assert (HL : 10 <= L <= 11).
    { unfold L, dist. cbn [vx vy]. split.
      - apply Rle_trans with (sqrt (10 * 10)); [rewrite sqrt_square; lra|]. apply sqrt_le_1; lra.
      - apply Rle_trans with (sqrt (11 * 11)); [|rewrite sqrt_square; lra]. apply sqrt_le_1; lra. }
    clearbody L.
    unfold fuzzy_eq_zero_eps, v2perp_dot, v2fuzzy_eq_eps, fuzzy_eq_eps, v2sub, fuzzy_lt_eps, fuzzy_gt_eps. rnum. cbn [vx vy].
    repeat (rdec1; cbn [negb andb orb]).
    rewrite Rmax_left by lra. rewrite Rmin_left by lra.
    match goal with |- context [rltb (Rabs ?a) ?b] => replace (rltb (Rabs a) b) with false end.
    2:{ symmetry. apply rltb_false. rewrite Rabs_right; lra. }
    rewrite !from_parametric_R. reflexivity.
  - intros x Hx. apply on_line in Hx; [|reflexivity]. destruct Hx as (t & Ht & ->).
    apply Rle_trans with (sqrt (2 / 5 * (2 / 5))); [rewrite sqrt_square; lra|]. unfold dist. apply sqrt_le_1; [lra| |].
    + apply Rplus_le_le_0_compat; apply Rle_0_sqr.
    + unfold line_pt, pos. cbn [vx vy px py].
      match goal with |- _ <= ?a * ?a + ?b * ?b => assert (0 <= a * a) by apply Rle_0_sqr; assert (b <= - (2 / 5)) by lra; assert (2 / 5 * (2 / 5) <= b * b) by nra end. lra.
Qed.

(** Right half of the circle about the origin, and left half of the one about (6, 0). *)
Lemma half_right : seg_arc_radius_and_center (Vtx 0 (-5) 1) (Vtx 0 5 0) = (5, V2 0 0).
Proof.
  rewrite arc_radius_and_center_eq.
  - unfold radius_of, centre_of, chord2, pos. cbn [px py pbulge vx vy].
    rewrite (sqrt_val 10) by lra. rewrite (Rabs_right 1) by lra. f_equal; [field|]. f_equal; field.
  - intros E. injection E. lra.
  - cbn. lra.
Qed.
Lemma half_left : seg_arc_radius_and_center (Vtx 6 5 1) (Vtx 6 (-5) 0) = (5, V2 6 0).
Proof.
  rewrite arc_radius_and_center_eq.
  - unfold radius_of, centre_of, chord2, pos. cbn [px py pbulge vx vy].
    rewrite (sqrt_val 10) by lra. rewrite (Rabs_right 1) by lra. f_equal; [field|]. f_equal; field.
  - intros E. injection E. lra.
  - cbn. lra.
Qed.

Lemma arcs_two : pline_seg_intr (Vtx 0 (-5) 1) (Vtx 0 5 0) (Vtx 6 5 1) (Vtx 6 (-5) 0) (1 / 100000) = SITwo (V2 3 (-4)) (V2 3 4).
Proof.
  unfold pline_seg_intr, bulge_is_zero, fuzzy_eq_zero, fuzzy_eq_zero_eps. rnum. cbn [pbulge]. repeat (rdec1; cbn [negb andb orb]).
  unfold arc_arc_intr. rewrite half_right, half_left.
  destruct circle_circle_example as [-> _].
  unfold arc_arc_two, point_lies_on_arc, point_within_arc_sweep, is_left_or_coincident_eps, is_right_or_coincident_eps, bulge_is_neg, fuzzy_eq_eps, dist_squared, perp_dot_test_value, v2sub, v2dot, pos. rnum. cbn [px py pbulge vx vy].
  assert (Q : 5 + 1 < sqrt 61) by (apply Rle_lt_trans with (sqrt (6 * 6)); [rewrite sqrt_square; lra|apply sqrt_lt_1; lra]).
  repeat match goal with |- context [sqrt ?a] => lazymatch a with 61 => fail | _ => replace a with 61 by ring end end.
  repeat (rdec1; cbn [negb andb orb]).
  reflexivity.
Qed.


Lemma half_left_ok : seg_ok (Vtx 6 5 1) (Vtx 6 (-5) 0).
Proof.
  split; cbn [pbulge].
  - right. rewrite Rabs_right by lra. lra.
  - intros _ E. unfold pos in E. cbn [px py] in E. injection E. lra.
Qed.
Lemma half_right_ok : seg_ok (Vtx 0 (-5) 1) (Vtx 0 5 0).
Proof.
  split; cbn [pbulge].
  - right. rewrite Rabs_right by lra. lra.
  - intros _ E. unfold pos in E. cbn [px py] in E. injection E. lra.
Qed.

Lemma arcs_order :
  exists v1 v2 u1 u2 eps p q, seg_ok v1 v2 /\ seg_ok u1 u2 /\ 0 < eps <= 1 / 100000
    /\ pline_seg_intr v1 v2 u1 u2 eps = SITwo p q /\ p <> q /\ before u1 u2 q p.
Proof.
  exists (Vtx 0 (-5) 1), (Vtx 0 5 0), (Vtx 6 5 1), (Vtx 6 (-5) 0), (1 / 100000), (V2 3 (-4)), (V2 3 4).
  split; [exact half_right_ok|]. split; [exact half_left_ok|]. split; [lra|]. split; [exact arcs_two|].
  split; [intros E; injection E; lra|].
  assert (Hb : pbulge (Vtx 6 5 1) <> 0) by (cbn; lra). pose proof PI_pos as HPI.
  assert (SW : sweep 1 = PI) by (unfold sweep; rewrite atan_1; field).
  assert (HA : is_arc (V2 6 5) (V2 6 (-5)) 1 (V2 6 0) 5 (PI / 2)).
  { split; [lra|]. rewrite SW. unfold circle_pt. cbn [vx vy]. rewrite cos_PI2, sin_PI2.
    replace (PI / 2 + PI) with (PI + PI / 2) by ring. rewrite <- (Rplus_comm (PI / 2) PI), neg_cos, neg_sin, cos_PI2, sin_PI2. split; f_equal; ring. }
  set (th := acos (- (3 / 5))).
  assert (B : 0 <= th <= PI) by apply acos_bound.
  assert (C : cos th = - (3 / 5)) by (apply cos_acos; lra).
  assert (S : sin th = 4 / 5).
  { unfold th. rewrite sin_acos by lra. unfold Rsqr. apply (sqrt_val (4 / 5)); lra. }
  assert (B2 : PI / 2 <= th).
  { destruct (Rle_dec (PI / 2) th) as [G|G]; [exact G|exfalso]. assert (0 < cos th) by (apply cos_gt_0; lra). lra. }
  exists ((th - PI / 2) / PI), ((2 * PI - th - PI / 2) / PI).
  assert (I0 : forall x y, x <= y -> x / PI <= y / PI) by (intros; apply Rmult_le_compat_r; [left; now apply Rinv_0_lt_compat|assumption]).
  assert (Z0 : 0 / PI = 0) by (field; lra). assert (Z1 : PI / PI = 1) by (field; lra).
  split; [split; [rewrite <- Z0|]; apply I0; lra|]. split; [rewrite <- Z1; apply I0; lra|].
  split; right; (split; [exact Hb|]); exists (V2 6 0), 5, (PI / 2); (split; [exact HA|]); cbn [pbulge]; rewrite SW.
  - replace (PI / 2 + (th - PI / 2) / PI * PI) with th by (field; lra). unfold circle_pt. cbn [vx vy]. rewrite C, S. f_equal; field.
  - replace (PI / 2 + (2 * PI - th - PI / 2) / PI * PI) with (- th + 2 * PI) by (field; lra).
    unfold circle_pt. cbn [vx vy]. replace (2 * PI) with (2 * INR 1 * PI) by (cbn; ring). rewrite cos_period, sin_period, cos_neg, sin_neg, C, S. f_equal; field.
Qed.

(** The line from the origin to (0, 10) meets the upper half of the circle of radius 5 at (0, 5). *)
Lemma line_arc_meets :
  let v1 := Vtx 0 0 0 in let v2 := Vtx 0 10 0 in let u1 := Vtx 5 0 1 in let u2 := Vtx (-5) 0 0 in
  reported (pline_seg_intr v1 v2 u1 u2 (1 / 100000)) (V2 0 5)
  /\ reported (pline_seg_intr u1 u2 v1 v2 (1 / 100000)) (V2 0 5)
  /\ all_near v1 v2 u1 u2 (1 / 100000) (pline_seg_intr v1 v2 u1 u2 (1 / 100000)).
Proof.
  intros v1 v2 u1 u2. pose proof PI_pos as HPI.
  assert (SW : sweep 1 = PI) by (unfold sweep; rewrite atan_1; field).
  assert (HA : is_arc (pos u1) (pos u2) (pbulge u1) (V2 0 0) 5 0).
  { unfold u1, u2, pos. cbn [px py pbulge]. split; [lra|]. rewrite SW, Rplus_0_l. unfold circle_pt. cbn [vx vy]. rewrite cos_0, sin_0, cos_PI, sin_PI.
    split; f_equal; ring. }
  assert (Hok : seg_ok u1 u2).
  { split; unfold u1, u2; cbn [pbulge].
    - right. rewrite Rabs_right by lra. lra.
    - intros _ E. unfold pos in E. cbn [px py] in E. injection E. lra. }
  assert (Hb : pbulge u1 <> 0) by (unfold u1; cbn; lra).
  assert (Hv : pbulge v1 = 0) by reflexivity.
  assert (HD : forall t, dist (line_pt (pos v1) (pos v2) t) (V2 0 0) = Rabs (10 * t)).
  { intros t. unfold v1, v2, pos, line_pt. cbn [px py vx vy]. apply dist_eq_sqr; [apply Rabs_pos|]. cbn [vx vy].
    rewrite <- Rabs_mult, Rabs_pos_eq by apply Rle_0_sqr. ring. }
  assert (NP : ~ is_point (pos v1) (pos v2) (1 / 100000)).
  { intros [_ K]. unfold v1, v2, pos in K. cbn [px py vx vy] in K. rewrite Rabs_right in K by lra. lra. }
  assert (UP : vx (pos v2) - vx (pos v1) = 0 \/ 1 / 100000000 <= Rabs (vx (pos v2) - vx (pos v1))) by (left; unfold v1, v2, pos; cbn; ring).
  assert (E0 : dist (line_pt (pos v1) (pos v2) 0) (V2 0 0) = 0) by (rewrite HD, Rmult_0_r; apply Rabs_R0).
  assert (F : exists t, dist (line_pt (pos v1) (pos v2) t) (V2 0 0) <= 5 - 1 / 100000) by (exists 0; lra).
  assert (O1 : on_seg v1 v2 (V2 0 5)).
  { exists (1 / 2). split; [lra|]. left. split; [reflexivity|]. unfold v1, v2, pos, line_pt. cbn [px py vx vy]. f_equal; field. }
  assert (O2 : on_seg u1 u2 (V2 0 5)).
  { exists (1 / 2). split; [lra|]. right. split; [exact Hb|]. exists (V2 0 0), 5, 0. split; [exact HA|]. cbn [pbulge u1]. rewrite SW.
    replace (0 + 1 / 2 * PI) with (PI / 2) by field. unfold circle_pt. cbn [vx vy]. rewrite cos_PI2, sin_PI2. f_equal; ring. }
  destruct (seg_intr_line_arc_found v1 v2 u1 u2 (1 / 100000) (V2 0 0) 5 0 (V2 0 5) ltac:(lra) Hok Hv Hb HA NP UP F O1 O2) as (_ & _ & [[R1 R2]|[K|K]]).
  - split; [exact R1|]. split; [exact R2|].
    apply (seg_intr_line_arc v1 v2 u1 u2 (1 / 100000) (V2 0 0) 5 0); auto; [lra| |].
    + intros [_ K]. specialize (K 0). lra.
    + intros _ c r a HA'. destruct (arc_unique _ _ _ _ _ _ Hb HA) as [_ Er]. destruct (arc_unique _ _ _ _ _ _ Hb HA') as [_ Er'].
      assert (r = 5) by congruence. subst r.
      assert (D : dist (pos u1) (pos u2) = 10) by (unfold u1, u2, pos; cbn [px py]; apply dist_eq_sqr; cbn [vx vy]; lra). rewrite D. lra.
  - exfalso. assert (D : dist (pos v1) (V2 0 0) = 0) by (unfold v1, pos; cbn [px py]; apply dist_eq_sqr; cbn [vx vy]; lra).
    rewrite D, Rabs_left in K by lra. lra.
  - exfalso. assert (D : dist (pos v2) (V2 0 0) = 10) by (unfold v2, pos; cbn [px py]; apply dist_eq_sqr; cbn [vx vy]; lra).
    rewrite D, Rabs_right in K by lra. lra.
Qed.
