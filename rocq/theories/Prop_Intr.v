(** C20, C21, C22: intersections of lines and circles over the reals. *)
From Coq Require Import Reals.
From Verif Require Import Num RNum ModelMath ModelIntr SpecGeom SpecIntr ProofIntr.
Local Open Scope R_scope.

(** ** C20 *)
Theorem C20_line_line_nonparallel v1 v2 u1 u2 eps :
  0 < eps -> eps <= Rabs (cross (vec v1 v2) (vec u1 u2)) ->
  exists s t, line_pt v1 v2 s = line_pt u1 u2 t
    /\ (forall s' t', line_pt v1 v2 s' = line_pt u1 u2 t' -> s' = s /\ t' = t)
    /\ ((in_range s (dist v1 v2) eps /\ in_range t (dist u1 u2) eps)
         /\ line_line_intr v1 v2 u1 u2 eps = LLTrueIntersect s t
       \/ ~ (in_range s (dist v1 v2) eps /\ in_range t (dist u1 u2) eps)
          /\ line_line_intr v1 v2 u1 u2 eps = LLFalseIntersect s t).
Proof. exact (line_line_nonparallel v1 v2 u1 u2 eps). Qed.
Print Assumptions C20_line_line_nonparallel.

Theorem C20_line_line_parallel v1 v2 u1 u2 eps :
  0 < eps -> Rabs (cross (vec v1 v2) (vec u1 u2)) < eps ->
  (forall s t, line_line_intr v1 v2 u1 u2 eps <> LLFalseIntersect s t)
  /\ (forall t0 t1, line_line_intr v1 v2 u1 u2 eps = LLOverlapping t0 t1 -> 0 <= t0 /\ t0 < t1 /\ t1 <= 1).
Proof. exact (line_line_parallel_kind v1 v2 u1 u2 eps). Qed.
Print Assumptions C20_line_line_parallel.

Theorem C20_line_line_collinear v1 v2 u1 u2 eps :
  0 < eps ->
  cross (vec u1 u2) (vec u1 v1) = 0 -> cross (vec u1 u2) (vec u1 v2) = 0 ->
  ~ is_point v1 v2 eps -> ~ is_point u1 u2 eps ->
  match line_line_intr v1 v2 u1 u2 eps with
  | LLOverlapping t0 t1 =>
      (forall t, t0 <= t <= t1 -> exists s, 0 <= s <= 1 /\ line_pt v1 v2 s = line_pt u1 u2 t)
      /\ (forall s t, 0 <= s <= 1 -> 0 <= t <= 1 -> line_pt v1 v2 s = line_pt u1 u2 t -> t0 <= t <= t1)
  | LLNoIntersect =>
      forall s t, 0 <= s <= 1 -> 0 <= t <= 1 -> line_pt v1 v2 s <> line_pt u1 u2 t
  | LLTrueIntersect s t =>
      dist (line_pt v1 v2 s) (line_pt u1 u2 t) <= 3 * eps
      /\ (s = 0 \/ s = 1) /\ in_range t (dist u1 u2) eps
  | LLFalseIntersect _ _ => False
  end.
Proof. exact (line_line_collinear_main v1 v2 u1 u2 eps). Qed.
Print Assumptions C20_line_line_collinear.

(** The test for parallel lines does not scale with the lengths of the segments: two perpendicular
    segments of length 0.002 crossing at their middles are reported as touching at an end. *)
Theorem C20_short_segments_refuted :
  exists v1 v2 u1 u2 eps s t,
    line_pt v1 v2 (1 / 2) = line_pt u1 u2 (1 / 2)
    /\ line_line_intr v1 v2 u1 u2 eps = LLTrueIntersect s t
    /\ dist (line_pt v1 v2 s) (line_pt u1 u2 t) = 100 * eps /\ 0 < eps.
Proof. exact line_line_short_ex. Qed.
Print Assumptions C20_short_segments_refuted.

Example C20_example :
  line_line_intr (V2 0 0) (V2 4 4) (V2 0 2) (V2 4 2) (1 / 100000) = LLTrueIntersect (1 / 2) (1 / 2)
  /\ line_line_intr (V2 0 0) (V2 1 0) (V2 3 1) (V2 3 2) (1 / 100000) = LLFalseIntersect 3 (-1).
Proof. exact line_line_cross_example. Qed.
Example C20_example_overlap :
  line_line_intr (V2 0 0) (V2 4 0) (V2 6 0) (V2 2 0) (1 / 100000) = LLOverlapping (1 / 2) 1.
Proof. exact line_line_overlap_example. Qed.

(** ** C21 *)
Theorem C21_line_circle p0 p1 r c eps :
  0 < eps -> ~ is_point p0 p1 eps ->
  (vx p1 - vx p0 = 0 \/ 1 / 100000000 <= Rabs (vx p1 - vx p0)) ->
  match line_circle_intr p0 p1 r c eps with
  | LCNoIntersect => exists d, r + eps < d /\ forall t, d <= dist (line_pt p0 p1 t) c
  | LCTangentIntersect t =>
      (forall t', dist (line_pt p0 p1 t) c <= dist (line_pt p0 p1 t') c)
      /\ Rabs (dist (line_pt p0 p1 t) c - r) < eps
  | LCTwoIntersects t0 t1 =>
      t0 <= t1 /\ (exists t, dist (line_pt p0 p1 t) c <= r + eps)
      /\ ((exists t, dist (line_pt p0 p1 t) c < r + eps) ->
          t0 < t1 /\ dist (line_pt p0 p1 t0) c = r /\ dist (line_pt p0 p1 t1) c = r
          /\ (forall t, dist (line_pt p0 p1 t) c = r -> t = t0 \/ t = t1)
          /\ (exists t, dist (line_pt p0 p1 t) c <= r - eps))
  end.
Proof. exact (line_circle_main p0 p1 r c eps). Qed.
Print Assumptions C21_line_circle.

(** Nearly vertical lines are handled as the vertical line through the middle of the two points. *)
Theorem C21_line_circle_near_vertical p0 p1 r c eps :
  1 / 100000000 <= eps -> ~ is_point p0 p1 eps -> Rabs (vx p1 - vx p0) < 1 / 100000000 ->
  let xm := (vx p0 + vx p1) / 2 in
  line_circle_intr p0 p1 r c eps = line_circle_intr (V2 xm (vy p0)) (V2 xm (vy p1)) r c eps.
Proof. exact (line_circle_near_vertical p0 p1 r c eps). Qed.
Print Assumptions C21_line_circle_near_vertical.

(** A line segment that is a point up to epsilon is compared with the circle by squared distances. *)
Theorem C21_line_circle_point p0 p1 r c eps :
  is_point p0 p1 eps ->
  let m := V2 ((vx p0 + vx p1) / 2) ((vy p0 + vy p1) / 2) in
  (line_circle_intr p0 p1 r c eps = LCTangentIntersect 0 <-> Rabs (dist m c * dist m c - r * r) < eps)
  /\ (line_circle_intr p0 p1 r c eps = LCNoIntersect <-> eps <= Rabs (dist m c * dist m c - r * r)).
Proof. exact (line_circle_point_main p0 p1 r c eps). Qed.
Print Assumptions C21_line_circle_point.

(** At a distance of exactly r + eps two points are reported that are not on the circle. *)
Theorem C21_at_epsilon_refuted :
  exists p0 p1 r c eps t0 t1, 0 < r /\ 0 < eps <= 1 / 100000
    /\ line_circle_intr p0 p1 r c eps = LCTwoIntersects t0 t1
    /\ r + eps < dist (line_pt p0 p1 t0) c.
Proof. exact line_circle_edge. Qed.
Print Assumptions C21_at_epsilon_refuted.

Example C21_example :
  line_circle_intr (V2 (-2) 0) (V2 2 0) 1 (V2 0 0) (1 / 100000) = LCTwoIntersects (1 / 4) (3 / 4)
  /\ line_circle_intr (V2 (-2) 3) (V2 2 3) 1 (V2 0 0) (1 / 100000) = LCNoIntersect
  /\ line_circle_intr (V2 1 (-1)) (V2 1 1) 1 (V2 0 0) (1 / 100000) = LCTangentIntersect (1 / 2).
Proof. exact line_circle_example. Qed.

(** ** C22 *)
Theorem C22_circle_circle r1 c1 r2 c2 eps :
  0 < eps -> 0 <= r1 -> 0 <= r2 ->
  match circle_circle_intr r1 c1 r2 c2 eps with
  | CCOverlapping => dist c1 c2 < eps /\ Rabs (r1 - r2) < eps
  | CCNoIntersect => forall q, ~ (dist q c1 = r1 /\ dist q c2 = r2)
  | CCTwoIntersects q1 q2 =>
      ~ is_point q1 q2 eps /\ dist q1 c1 = r1 /\ dist q1 c2 = r2 /\ dist q2 c1 = r1 /\ dist q2 c2 = r2
      /\ (forall q, dist q c1 = r1 -> dist q c2 = r2 -> q = q1 \/ q = q2)
  | CCTangentIntersect q =>
      eps <= dist c1 c2
      /\ ((dist q c1 = r1 /\ dist q c2 = r2
           /\ forall p p', dist p c1 = r1 -> dist p c2 = r2 -> dist p' c1 = r1 -> dist p' c2 = r2 -> is_point p p' eps)
          \/ ((forall q', ~ (dist q' c1 = r1 /\ dist q' c2 = r2))
              /\ exists a, q = line_pt c1 c2 a
                 /\ Rabs (dist q c1 - r1) <= eps * Rmax 1 ((r1 + r2) / dist c1 c2)
                 /\ Rabs (dist q c2 - r2) <= eps * Rmax 1 ((r1 + r2) / dist c1 c2)))
  end.
Proof. exact (circle_circle_spec r1 c1 r2 c2 eps). Qed.
Print Assumptions C22_circle_circle.

Theorem C22_overlap r1 c1 r2 c2 eps :
  circle_circle_intr r1 c1 r2 c2 eps = CCOverlapping <-> dist c1 c2 < eps /\ Rabs (r1 - r2) < eps.
Proof. exact (circle_circle_overlap r1 c1 r2 c2 eps). Qed.
Print Assumptions C22_overlap.

(** For nearly concentric circles the reported tangent point can be far from both of them. *)
Theorem C22_tangent_far_refuted :
  exists r1 c1 r2 c2 eps q,
    0 < eps <= 1 / 100000 /\ 0 < r1 <= 1 /\ 0 < r2 <= 1
    /\ circle_circle_intr r1 c1 r2 c2 eps = CCTangentIntersect q /\ 1 / 3 < dist q c1 - r1.
Proof. exact circle_circle_far_ex. Qed.
Print Assumptions C22_tangent_far_refuted.

Example C22_example :
  circle_circle_intr 5 (V2 0 0) 5 (V2 6 0) (1 / 100000) = CCTwoIntersects (V2 3 (-4)) (V2 3 4)
  /\ circle_circle_intr 1 (V2 0 0) 1 (V2 6 0) (1 / 100000) = CCNoIntersect
  /\ circle_circle_intr 1 (V2 0 0) 1 (V2 0 0) (1 / 100000) = CCOverlapping
  /\ circle_circle_intr 1 (V2 0 0) 5 (V2 6 0) (1 / 100000) = CCTangentIntersect (V2 1 0).
Proof. exact circle_circle_example. Qed.
