(** Vectors, sides of lines, quadratic equations, parameters of points (C56). *)
From Coq Require Import Reals ZArith Bool List Arith Lra Lia Psatz.
From Verif Require Import Num RNum Res ModelMath ModelSeg.
From Verif Require Import Spec SpecGeom SpecIntr SpecOffset SpecMath ProofR ProofBase ProofArc ProofIntr.
Import ListNotations.
Local Open Scope R_scope.

Lemma polar_pos r s : r * cos s * (r * cos s) + r * sin s * (r * sin s) = r * r.
Proof. pose proof (sin2_cos2 s) as H. unfold Rsqr in H. replace (r * cos s * (r * cos s) + r * sin s * (r * sin s)) with (r * r * (sin s * sin s + cos s * cos s)) by ring. rewrite H. ring. Qed.

Lemma vector_products r s q t :
  v2dot (polar r s) (polar q t) = r * q * cos (t - s) /\ v2perp_dot (polar r s) (polar q t) = r * q * sin (t - s)
  /\ v2length_squared (polar r s) = r * r /\ v2length (polar r s) = Rabs r
  /\ v2perp (polar r s) = polar r (s + PI / 2).
Proof.
  unfold v2dot, v2perp_dot, v2length_squared, v2length, v2perp, v2dot, polar. rnum. cbn [vx vy].
  rewrite cos_minus, sin_minus, cos_plus, sin_plus, cos_PI2, sin_PI2.
  split; [ring|]. split; [ring|]. rewrite polar_pos. split; [ring|]. split; [apply sqrt_Rsqr_abs|]. apply vec2_eq; cbn [vx vy]; ring.
Qed.

Lemma vector_unit r s : 0 < r -> v2normalize (polar r s) = polar 1 s /\ v2unit_perp (polar r s) = polar 1 (s + PI / 2).
Proof.
  intros Hr.
  assert (H : forall t, v2normalize (polar r t) = polar 1 t).
  { intros t. unfold v2normalize. destruct (vector_products r t r t) as (_ & _ & _ & L & _). rewrite L, Rabs_pos_eq by lra.
    unfold v2scale, polar. rnum. apply vec2_eq; cbn [vx vy]; field; lra. }
  split; [apply H|]. unfold v2unit_perp. destruct (vector_products r s r s) as (_ & _ & _ & _ & ->). apply H.
Qed.

Lemma vector_sums (a b : vec2 R) s :
  v2add a b = V2 (vx a + vx b) (vy a + vy b) /\ v2sub (v2add a b) b = a /\ v2add a (v2neg a) = v2zero /\ v2add a v2zero = a
  /\ v2scale a s = V2 (s * vx a) (s * vy a).
Proof.
  unfold v2add, v2sub, v2neg, v2zero, v2scale. rnum. split; [reflexivity|]. split; [apply vec2_eq; cbn [vx vy]; ring|].
  split; [apply vec2_eq; cbn [vx vy]; ring|]. split; [apply vec2_eq; cbn [vx vy]; ring|reflexivity].
Qed.

Lemma rotate_spec o r s t : v2rotate_about (circle_pt o r s) o t = circle_pt o r (s + t).
Proof.
  unfold v2rotate_about, v2add, v2sub, circle_pt. rnum. rewrite cos_plus, sin_plus. apply vec2_eq; cbn [vx vy]; ring.
Qed.

(** ** Points *)
Lemma points_spec (p q : vec2 R) r s t : 
  dist_squared p q = dist p q * dist p q /\ midpoint p q = line_pt p q (1 / 2) /\ point_from_parametric p q t = line_pt p q t
  /\ point_on_circle r p s = circle_pt p r s.
Proof.
  split. { unfold dist. rewrite sqrt_sqrt. - unfold dist_squared, v2dot, v2sub. rnum. reflexivity. - pose proof (Rle_0_sqr (vx p - vx q)). pose proof (Rle_0_sqr (vy p - vy q)). unfold Rsqr in *. lra. }
  split. { unfold midpoint, line_pt. rnum. apply vec2_eq; cbn [vx vy]; field. }
  split. { unfold point_from_parametric, line_pt, v2add, v2scale, v2sub. rnum. apply vec2_eq; cbn [vx vy]; ring. }
  reflexivity.
Qed.

Lemma angle_polar p r t : 0 < r -> - PI < t <= PI -> angle p (circle_pt p r t) = t.
Proof.
  intros Hr Ht. unfold angle, circle_pt. rnum. cbn [vx vy].
  replace (vy p + r * sin t - vy p) with (r * sin t) by ring. replace (vx p + r * cos t - vx p) with (r * cos t) by ring.
  assert (NZ : r * cos t <> 0 \/ r * sin t <> 0).
  { destruct (Req_dec (cos t) 0) as [E|E]; [right|left]; apply Rmult_integral_contrapositive_currified; try lra. intros E'. pose proof (sin2_cos2 t) as S. rewrite E, E' in S. unfold Rsqr in S. lra. }
  destruct (ratan2_spec (r * sin t) (r * cos t) NZ) as (X & Y & B). rewrite polar_pos in X, Y.
  replace (sqrt (r * r)) with r in X, Y by (symmetry; apply sqrt_square; lra).
  apply Rmult_eq_reg_l in X; [|lra]. apply Rmult_eq_reg_l in Y; [|lra].
  set (a := ratan2 (r * sin t) (r * cos t)) in *.
  assert (D : cos (a - t) = 1). { rewrite cos_minus, <- X, <- Y. pose proof (sin2_cos2 t) as S. unfold Rsqr in S. lra. }
  assert (Dn : sin (a - t) = 0). { rewrite sin_minus, <- X, <- Y. ring. }
  destruct (Rtotal_order a t) as [L|[E|L]]; [|exact E|].
  - exfalso. assert (0 < t - a < 2 * PI) by lra. assert (C : cos (t - a) = 1) by (replace (t - a) with (- (a - t)) by ring; rewrite cos_neg; exact D).
    replace (t - a) with (2 * ((t - a) / 2)) in C by field. rewrite cos_2a_sin in C.
    assert (0 < sin ((t - a) / 2)) by (apply sin_gt_0; lra). nra.
  - exfalso. assert (0 < a - t < 2 * PI) by lra. replace (a - t) with (2 * ((a - t) / 2)) in D by field. rewrite cos_2a_sin in D.
    assert (0 < sin ((a - t) / 2)) by (apply sin_gt_0; lra). nra.
Qed.

Lemma parametric_inverse (p q : vec2 R) t eps : p <> q -> parametric_from_point p q (line_pt p q t) eps = t.
Proof.
  intros H. unfold parametric_from_point, line_pt. rnum. cbn [vx vy].
  destruct (rltb (Rabs (vx q - vx p)) (Rabs (vy q - vy p))) eqn:E.
  - apply rltb_true in E. assert (vy q - vy p <> 0). { intros Z. rewrite Z, Rabs_R0 in E. pose proof (Rabs_pos (vx q - vx p)). lra. }
    field. assumption.
  - apply rltb_false in E. assert (vx q - vx p <> 0).
    { intros Z. rewrite Z, Rabs_R0 in E. pose proof (Rabs_pos (vy q - vy p)). assert (Rabs (vy q - vy p) = 0) by lra. apply H. apply vec2_eq; [lra|].
      destruct (Req_dec (vy q - vy p) 0) as [E0|E0]; [lra|]. apply Rabs_no_R0 in E0. lra. }
    field. assumption.
Qed.

Lemma min_max_spec (a b : R) : min_max a b = (Rmin a b, Rmax a b).
Proof.
  unfold min_max. rnum. unfold Rmin, Rmax. destruct (rltb a b) eqn:E.
  - apply rltb_true in E. destruct (Rle_dec a b); [reflexivity|lra].
  - apply rltb_false in E. destruct (Rle_dec a b); [|reflexivity]. assert (a = b) by lra. subst. reflexivity.
Qed.

(** ** Sides of a line *)
Lemma side_value p0 p1 n t d : left_normal p0 p1 n -> perp_dot_test_value p0 p1 (moved (line_pt p0 p1 t) n d) = d * dist p0 p1.
Proof.
  intros (U & O & C). unfold perp_dot_test_value, moved, line_pt. unfold vec, cross in *. rnum. cbn [vx vy] in *.
  set (dx := vx p1 - vx p0) in *. set (dy := vy p1 - vy p0) in *.
  replace (dx * (vy p0 + t * dy + d * vy n - vy p0) - dy * (vx p0 + t * dx + d * vx n - vx p0)) with (d * (dx * vy n - dy * vx n)) by ring.
  f_equal. symmetry. apply dist_eq_sqr; [lra|]. cbn [vx vy].
  replace ((vx p0 - vx p1) * (vx p0 - vx p1) + (vy p0 - vy p1) * (vy p0 - vy p1)) with (dx * dx + dy * dy) by (unfold dx, dy; ring).
  assert (I : (dx * vy n - dy * vx n) * (dx * vy n - dy * vx n) + (dx * vx n + dy * vy n) * (dx * vx n + dy * vy n) = (dx * dx + dy * dy) * (vx n * vx n + vy n * vy n)) by ring.
  rewrite U, O in I. lra.
Qed.

Lemma sides_spec p0 p1 n t d eps : left_normal p0 p1 n ->
  let q := moved (line_pt p0 p1 t) n d in
  (is_left p0 p1 q = true <-> 0 < d) /\ (is_left_or_equal p0 p1 q = true <-> 0 <= d)
  /\ (is_left_or_coincident_eps p0 p1 q eps = true <-> - eps < d * dist p0 p1)
  /\ (is_right_or_coincident_eps p0 p1 q eps = true <-> d * dist p0 p1 < eps)
  /\ (is_left_or_coincident p0 p1 q = true <-> - (1 / 100000000) < d * dist p0 p1)
  /\ (is_right_or_coincident p0 p1 q = true <-> d * dist p0 p1 < 1 / 100000000).
Proof.
  intros Hn q. pose proof (side_value p0 p1 n t d Hn) as V. fold q in V.
  assert (L : 0 < dist p0 p1).
  { destruct Hn as (_ & _ & C). unfold dist. apply sqrt_lt_R0. unfold cross, vec in C. cbn [vx vy] in C.
    pose proof (Rle_0_sqr (vx p0 - vx p1)) as X. pose proof (Rle_0_sqr (vy p0 - vy p1)) as Y. unfold Rsqr in *.
    destruct (Req_dec (vx p0 - vx p1) 0) as [Z|Z]; [destruct (Req_dec (vy p0 - vy p1) 0) as [Z'|Z']|].
    - replace (vx p1 - vx p0) with (- (vx p0 - vx p1)) in C by ring. replace (vy p1 - vy p0) with (- (vy p0 - vy p1)) in C by ring. rewrite Z, Z' in C. lra.
    - pose proof (Rsqr_pos_lt _ Z') as W. unfold Rsqr in W. lra.
    - pose proof (Rsqr_pos_lt _ Z) as W. unfold Rsqr in W. lra. }
  unfold is_left, is_left_or_equal, is_left_or_coincident, is_right_or_coincident, is_left_or_coincident_eps, is_right_or_coincident_eps.
  rewrite V. rnum.
  split. { rewrite rltb_true. split; intros H; [|nra]. destruct (Rlt_le_dec 0 d); [assumption|]. nra. }
  split. { rewrite rleb_true. split; intros H; [|nra]. destruct (Rle_lt_dec 0 d); [assumption|]. nra. }
  split; [rewrite rltb_true; tauto|]. split; [rewrite rltb_true; tauto|].
  split; rewrite rltb_true; tauto.
Qed.

(** ** Sectors *)
Lemma sin_pos_iff u : - PI < u <= PI -> (0 < sin u <-> 0 < u < PI).
Proof.
  intros H. split; [|intros; apply sin_gt_0; lra]. intros S. destruct (Rle_lt_dec u 0) as [L|L].
  - exfalso. destruct (Req_dec u 0) as [->|]; [rewrite sin_0 in S; lra|]. assert (0 < sin (- u)) by (apply sin_gt_0; lra). rewrite sin_neg in *. lra.
  - split; [exact L|]. destruct (Req_dec u PI) as [->|]; [rewrite sin_PI in S; lra|lra].
Qed.

Lemma test_polar c r s q t : perp_dot_test_value c (circle_pt c r s) (circle_pt c q t) = r * q * sin (t - s).
Proof. unfold perp_dot_test_value, circle_pt. rnum. cbn [vx vy]. rewrite sin_minus. ring. Qed.

(** [u] is the turn from the start to the point, in the direction of the arc; [w] the sweep. *)
Lemma sector_spec c r s w (cw : bool) q u eps : 0 < w <= PI -> - PI < u <= PI ->
  0 < eps -> eps <= Rabs (r * q * sin u) -> eps <= Rabs (r * q * sin (u - w)) -> 0 < r -> 0 < q ->
  let dir := if cw then -1 else 1 in
  point_within_arc_sweep c (circle_pt c r s) (circle_pt c r (s + dir * w)) cw (circle_pt c q (s + dir * u)) eps = true <-> 0 < u < w.
Proof.
  intros Hw Hu He H1 H2 Hr Hq dir. unfold point_within_arc_sweep, is_left_or_coincident_eps, is_right_or_coincident_eps. rewrite !test_polar.
  replace (s + dir * u - s) with (dir * u) by ring. replace (s + dir * u - (s + dir * w)) with (dir * (u - w)) by ring.
  assert (P : 0 < r * q) by nra.
  assert (G : (0 < r * q * sin u /\ r * q * sin (u - w) < 0) <-> 0 < u < w).
  { split.
    - intros (A & B). assert (SU : 0 < sin u) by (destruct (Rlt_le_dec 0 (sin u)); [assumption|nra]). apply sin_pos_iff in SU; [|exact Hu].
      split; [lra|]. destruct (Rlt_le_dec u w) as [L|L]; [exact L|exfalso]. assert (0 <= sin (u - w)) by (apply sin_ge_0; lra). nra.
    - intros (A & B). assert (0 < sin u) by (apply sin_gt_0; lra). assert (0 < sin (- (u - w))) by (apply sin_gt_0; lra). rewrite sin_neg in *. split; nra. }
  assert (D : dir = 1 \/ dir = -1) by (unfold dir; destruct cw; auto).
  destruct cw; unfold dir in *; rnum; rewrite andb_true_iff, !rltb_true, <- G.
  - replace (-1 * u) with (- u) by ring. replace (-1 * (u - w)) with (- (u - w)) by ring. rewrite !sin_neg.
    unfold Rabs in H1, H2. destruct (Rcase_abs (r * q * sin u)), (Rcase_abs (r * q * sin (u - w))); split; intros (A & B); split; lra.
  - rewrite !Rmult_1_l. unfold Rabs in H1, H2. destruct (Rcase_abs (r * q * sin u)), (Rcase_abs (r * q * sin (u - w))); split; intros (A & B); split; lra.
Qed.

(** ** Quadratic equations *)
Lemma quadratic_spec a b c s : a <> 0 -> 0 <= s -> s * s = b * b - 4 * a * c -> (b <> 0 \/ c <> 0) ->
  let '(x1, x2) := quadratic_solutions a b c s in forall x, a * x * x + b * x + c = 0 <-> x = x1 \/ x = x2.
Proof.
  intros Ha Hs E NZ. unfold quadratic_solutions. rnum.
  set (x1 := if rltb b 0 then (- b + s) / (2 * a) else (- b - s) / (2 * a)).
  assert (R1 : a * x1 * x1 + b * x1 + c = 0).
  { unfold x1. destruct (rltb b 0).
    - replace (a * ((- b + s) / (2 * a)) * ((- b + s) / (2 * a)) + b * ((- b + s) / (2 * a)) + c) with ((s * s - (b * b - 4 * a * c)) / (4 * a)) by (field; lra). rewrite E. field. lra.
    - replace (a * ((- b - s) / (2 * a)) * ((- b - s) / (2 * a)) + b * ((- b - s) / (2 * a)) + c) with ((s * s - (b * b - 4 * a * c)) / (4 * a)) by (field; lra). rewrite E. field. lra. }
  assert (N1 : x1 <> 0).
  { unfold x1. destruct (rltb b 0) eqn:B; intros Z.
    - apply rltb_true in B. apply Rmult_integral in Z. destruct Z as [Z|Z]; [lra|]. apply (Rinv_neq_0_compat (2 * a)); [lra|exact Z].
    - apply rltb_false in B. apply Rmult_integral in Z. destruct Z as [Z|Z]; [|apply (Rinv_neq_0_compat (2 * a)); [lra|exact Z]].
      assert (b = 0) by lra. assert (s = 0) by lra. subst b s. destruct NZ as [NZ|NZ]; [lra|]. assert (a * c = 0) by lra. apply Rmult_integral in H as [H|H]; contradiction. }
  clearbody x1. assert (EC : c = - (a * x1 * x1 + b * x1)) by lra.
  set (x2 := c / a / x1).
  assert (F : forall x, a * x * x + b * x + c = a * (x - x1) * (x - x2)).
  { intros x. unfold x2. rewrite EC. field. lra. }
  intros x. rewrite F. split.
  - intros H. apply Rmult_integral in H as [H|H]; [apply Rmult_integral in H as [H|H]; [contradiction|left; lra]|right; lra].
  - intros [-> | ->]; ring.
Qed.

(** ** Vertexes *)
Lemma vertex_ops {T} {N : Num T} (l : list T) (v : vertex T) (p : vec2 T) b :
  (forall w, vertex_from_slice l = Some w <-> l = [px w; py w; pbulge w]) /\ (vertex_from_slice l = None <-> length l <> 3%nat)
  /\ from_vector2 p b = Vtx (vx p) (vy p) b /\ with_bulge v b = Vtx (px v) (py v) b /\ pos v = V2 (px v) (py v).
Proof.
  split.
  { intros [x y u]. destruct l as [|x0 [|y0 [|u0 [|]]]]; cbn; split; intros H; try discriminate; injection H as -> -> ->; reflexivity. }
  split. { destruct l as [|x0 [|y0 [|u0 [|]]]]; cbn; split; intros H; try discriminate; try reflexivity; try lia; intros E; discriminate. }
  repeat split.
Qed.

Lemma bulge_signs (v : vertex R) : (bulge_is_zero v = true <-> Rabs (pbulge v) < 1 / 100000000)
  /\ (bulge_is_pos v = true <-> 0 < pbulge v) /\ (bulge_is_neg v = true <-> pbulge v < 0).
Proof.
  unfold bulge_is_zero, bulge_is_pos, bulge_is_neg, fuzzy_eq_zero, fuzzy_eq_zero_eps. rnum. rewrite !rltb_true. tauto.
Qed.

(** ** The forms without a tolerance *)
Lemma default_forms (a b c : R) (v w : vertex R) :
  angle_is_between a b c = angle_is_between_eps a b c (1 / 100000000)
  /\ angle_is_within_sweep a b c = angle_is_within_sweep_eps a b c (1 / 100000000)
  /\ (v2fuzzy_eq (pos v) (pos w) = true <-> Rabs (px v - px w) < 1 / 100000000 /\ Rabs (py v - py w) < 1 / 100000000)
  /\ (vfuzzy_eq v w = true <-> Rabs (px v - px w) < 1 / 100000000 /\ Rabs (py v - py w) < 1 / 100000000 /\ Rabs (pbulge v - pbulge w) < 1 / 100000000).
Proof.
  split; [reflexivity|]. split; [reflexivity|].
  unfold v2fuzzy_eq, v2fuzzy_eq_eps, vfuzzy_eq, vfuzzy_eq_eps, fuzzy_eq_eps. rnum. cbn [pos vx vy]. rewrite !andb_true_iff, !rltb_true. tauto.
Qed.
