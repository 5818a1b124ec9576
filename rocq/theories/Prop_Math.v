(** Property C56: vectors, points, sides of lines, sectors, quadratic equations and vertexes. *)
From Coq Require Import Reals Bool List PrimFloat.
From Verif Require Import Num RNum FNum ModelMath ModelSeg Spec SpecGeom SpecOffset SpecMath ProofMath ProofMathF.
Import ListNotations.
Local Open Scope R_scope.

(** Products, length and the vector turned by a right angle, for vectors given by length and direction. *)
Theorem C56_products r s q t :
  v2dot (polar r s) (polar q t) = r * q * cos (t - s) /\ v2perp_dot (polar r s) (polar q t) = r * q * sin (t - s)
  /\ v2length_squared (polar r s) = r * r /\ v2length (polar r s) = Rabs r
  /\ v2perp (polar r s) = polar r (s + PI / 2).
Proof. exact (vector_products r s q t). Qed.
Print Assumptions C56_products.

Theorem C56_units r s : 0 < r -> v2normalize (polar r s) = polar 1 s /\ v2unit_perp (polar r s) = polar 1 (s + PI / 2).
Proof. exact (vector_unit r s). Qed.
Print Assumptions C56_units.

Theorem C56_sums (a b : vec2 R) s :
  v2add a b = V2 (vx a + vx b) (vy a + vy b) /\ v2sub (v2add a b) b = a /\ v2add a (v2neg a) = v2zero /\ v2add a v2zero = a
  /\ v2scale a s = V2 (s * vx a) (s * vy a).
Proof. exact (vector_sums a b s). Qed.
Print Assumptions C56_sums.

(** Turning about a point. *)
Theorem C56_rotate o r s t : v2rotate_about (circle_pt o r s) o t = circle_pt o r (s + t).
Proof. exact (rotate_spec o r s t). Qed.
Print Assumptions C56_rotate.

Theorem C56_points (p q : vec2 R) r s t :
  dist_squared p q = dist p q * dist p q /\ midpoint p q = line_pt p q (1 / 2) /\ point_from_parametric p q t = line_pt p q t
  /\ point_on_circle r p s = circle_pt p r s.
Proof. exact (points_spec p q r s t). Qed.
Print Assumptions C56_points.

Theorem C56_angle p r t : 0 < r -> - PI < t <= PI -> angle p (circle_pt p r t) = t.
Proof. exact (angle_polar p r t). Qed.
Print Assumptions C56_angle.

(** Finding the parameter of a point of a line undoes finding the point of a parameter. *)
Theorem C56_parametric (p q : vec2 R) t eps : p <> q -> parametric_from_point p q (line_pt p q t) eps = t.
Proof. exact (parametric_inverse p q t eps). Qed.
Print Assumptions C56_parametric.

Theorem C56_min_max (a b : R) : min_max a b = (Rmin a b, Rmax a b).
Proof. exact (min_max_spec a b). Qed.
Print Assumptions C56_min_max.

(** Where a point [d] to the left of a line is said to be. *)
Theorem C56_sides p0 p1 n t d eps : left_normal p0 p1 n ->
  let q := moved (line_pt p0 p1 t) n d in
  (is_left p0 p1 q = true <-> 0 < d) /\ (is_left_or_equal p0 p1 q = true <-> 0 <= d)
  /\ (is_left_or_coincident_eps p0 p1 q eps = true <-> - eps < d * dist p0 p1)
  /\ (is_right_or_coincident_eps p0 p1 q eps = true <-> d * dist p0 p1 < eps)
  /\ (is_left_or_coincident p0 p1 q = true <-> - (1 / 100000000) < d * dist p0 p1)
  /\ (is_right_or_coincident p0 p1 q = true <-> d * dist p0 p1 < 1 / 100000000).
Proof. exact (sides_spec p0 p1 n t d eps). Qed.
Print Assumptions C56_sides.

(** A point clearly away from the sides of a sector of at most half a turn is said to be within it if and only if
    the turn to it from the start, in the direction of the arc, is less than the sweep. *)
Theorem C56_sector c r s w (cw : bool) q u eps : 0 < w <= PI -> - PI < u <= PI ->
  0 < eps -> eps <= Rabs (r * q * sin u) -> eps <= Rabs (r * q * sin (u - w)) -> 0 < r -> 0 < q ->
  let dir := if cw then -1 else 1 in
  point_within_arc_sweep c (circle_pt c r s) (circle_pt c r (s + dir * w)) cw (circle_pt c q (s + dir * u)) eps = true <-> 0 < u < w.
Proof. exact (sector_spec c r s w cw q u eps). Qed.
Print Assumptions C56_sector.

(** Given the square root of the discriminant, exactly the solutions are returned, unless both are zero. *)
Theorem C56_quadratic a b c s : a <> 0 -> 0 <= s -> s * s = b * b - 4 * a * c -> (b <> 0 \/ c <> 0) ->
  let '(x1, x2) := quadratic_solutions a b c s in forall x, a * x * x + b * x + c = 0 <-> x = x1 \/ x = x2.
Proof. exact (quadratic_spec a b c s). Qed.
Print Assumptions C56_quadratic.

(** For x^2 = 0 the second solution is not a number. *)
Theorem C56_both_zero_refuted : exists a b c s : float, ((s * s =? b * b - 4 * a * c) && (0 <? a))%float%bool = true
  /\ (let (x1, x2) := quadratic_solutions a b c s in (a * x1 * x1 + b * x1 + c =? 0) && negb (x2 =? x2))%float%bool = true.
Proof. exact both_zero. Qed.
Print Assumptions C56_both_zero_refuted.

Theorem C56_vertexes {T} {N : Num T} (l : list T) (v : vertex T) (p : vec2 T) b :
  (forall w, vertex_from_slice l = Some w <-> l = [px w; py w; pbulge w]) /\ (vertex_from_slice l = None <-> length l <> 3%nat)
  /\ from_vector2 p b = Vtx (vx p) (vy p) b /\ with_bulge v b = Vtx (px v) (py v) b /\ pos v = V2 (px v) (py v).
Proof. exact (vertex_ops l v p b). Qed.
Print Assumptions C56_vertexes.

Theorem C56_bulges (v : vertex R) : (bulge_is_zero v = true <-> Rabs (pbulge v) < 1 / 100000000)
  /\ (bulge_is_pos v = true <-> 0 < pbulge v) /\ (bulge_is_neg v = true <-> pbulge v < 0).
Proof. exact (bulge_signs v). Qed.
Print Assumptions C56_bulges.

(** The forms without a tolerance use 1e-8. *)
Theorem C56_defaults (a b c : R) (v w : vertex R) :
  angle_is_between a b c = angle_is_between_eps a b c (1 / 100000000)
  /\ angle_is_within_sweep a b c = angle_is_within_sweep_eps a b c (1 / 100000000)
  /\ (v2fuzzy_eq (pos v) (pos w) = true <-> Rabs (px v - px w) < 1 / 100000000 /\ Rabs (py v - py w) < 1 / 100000000)
  /\ (vfuzzy_eq v w = true <-> Rabs (px v - px w) < 1 / 100000000 /\ Rabs (py v - py w) < 1 / 100000000 /\ Rabs (pbulge v - pbulge w) < 1 / 100000000).
Proof. exact (default_forms a b c v w). Qed.
Print Assumptions C56_defaults.

(** x^2 - 3x + 2 = 0; a point to the right of an upward line. *)
Example C56_example : (quadratic_solutions 1 (-3) 2 1 = (2, 1) /\ is_left (V2 0 0) (V2 0 5) (V2 1 3) = false
  /\ is_right_or_coincident (V2 0 0) (V2 0 5) (V2 1 3) = true)%float
  /\ left_normal (V2 0 0) (V2 0 5) (V2 (-1) 0).
Proof. exact math_example. Qed.
