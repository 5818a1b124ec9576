(** C11, C12, C13: single segments. *)
From Coq Require Import Reals.
From Verif Require Import Num RNum ModelMath ModelSeg SpecGeom ProofR ProofArc ProofArc2.
Local Open Scope R_scope.

(** The computed circle is the one circle on which sweeping by 4 atan(bulge) leads from the first
    point to the second. *)
Theorem C11_radius_and_center v1 v2 : pos v1 <> pos v2 -> pbulge v1 <> 0 ->
  let '(r, c) := seg_arc_radius_and_center v1 v2 in
  0 < r
  /\ (exists a, is_arc (pos v1) (pos v2) (pbulge v1) c r a)
  /\ (forall c' r' a', is_arc (pos v1) (pos v2) (pbulge v1) c' r' a' -> c' = c /\ r' = r).
Proof. exact (radius_and_center_spec v1 v2). Qed.
Print Assumptions C11_radius_and_center.

Example C11_example : seg_arc_radius_and_center (Vtx 1 0 (-1)) (Vtx 1 4 0) = (2, V2 1 2).
Proof. exact ex_half_circle. Qed.

(** Splitting at the point with parameter [t]: the pieces join at the point, and every point of a
    piece is the point of the original at the corresponding parameter. *)
Theorem C12_split_inside v1 v2 q eps t :
  seg_ok v1 v2 -> 0 < t < 1 -> seg_at v1 v2 t q ->
  (pbulge v1 <> 0 -> v2fuzzy_eq_eps (pos v1) (pos v2) eps = false
     /\ v2fuzzy_eq_eps (pos v1) q eps = false /\ v2fuzzy_eq_eps (pos v2) q eps = false) ->
  let s := seg_split_at_point v1 v2 q eps in
  pos (updated_start s) = pos v1 /\ pos (split_vertex s) = q
  /\ (forall u p, seg_at (updated_start s) (split_vertex s) u p <-> seg_at v1 v2 (u * t) p)
  /\ (forall u p, seg_at (split_vertex s) v2 u p <-> seg_at v1 v2 (t + u * (1 - t)) p)
  /\ sweep (pbulge (updated_start s)) = t * sweep (pbulge v1)
  /\ sweep (pbulge (split_vertex s)) = (1 - t) * sweep (pbulge v1).
Proof. exact (split_halves v1 v2 q eps t). Qed.
Print Assumptions C12_split_inside.

Theorem C12_split_ends v1 v2 q eps :
  bulge_ok (pbulge v1) ->
  let s := seg_split_at_point v1 v2 q eps in
  (pbulge v1 = 0 -> updated_start s = v1 /\ pos (split_vertex s) = q /\ pbulge (split_vertex s) = 0)
  /\ (pbulge v1 <> 0 -> Rabs (px v1 - vx q) < eps -> Rabs (py v1 - vy q) < eps ->
        pos (updated_start s) = q /\ pbulge (updated_start s) = 0
        /\ pos (split_vertex s) = q /\ pbulge (split_vertex s) = pbulge v1)
  /\ (pbulge v1 <> 0 -> Rabs (px v2 - vx q) < eps -> Rabs (py v2 - vy q) < eps ->
        ~ (Rabs (px v1 - vx q) < eps /\ Rabs (py v1 - vy q) < eps) ->
        ~ (Rabs (px v1 - px v2) < eps /\ Rabs (py v1 - py v2) < eps) ->
        updated_start s = v1 /\ pos (split_vertex s) = pos v2 /\ pbulge (split_vertex s) = 0).
Proof. exact (split_ends v1 v2 q eps). Qed.
Print Assumptions C12_split_ends.

Example C12_example :
  seg_split_at_point (Vtx 1 0 1) (Vtx (-1) 0 0) (V2 0 1) (1 / 100000)
  = SplitResult (Vtx 1 0 (tan (PI / 8))) (Vtx 0 1 (tan (PI / 8))).
Proof. exact ex_split. Qed.

Theorem C13_midpoint v1 v2 : seg_ok v1 v2 -> seg_at v1 v2 (1 / 2) (seg_midpoint v1 v2).
Proof. exact (seg_midpoint_spec v1 v2). Qed.
Print Assumptions C13_midpoint.

(** The tangent is the chord of a line, and for an arc a positive multiple of the velocity of the
    sweeping point. *)
Theorem C13_tangent v1 v2 t q : seg_ok v1 v2 -> seg_at v1 v2 t q ->
  (pbulge v1 = 0 -> seg_tangent_vector v1 v2 q = V2 (px v2 - px v1) (py v2 - py v1))
  /\ (pbulge v1 <> 0 -> forall c r a, is_arc (pos v1) (pos v2) (pbulge v1) c r a ->
        exists k, 0 < k /\
        vx (seg_tangent_vector v1 v2 q) = k * (sweep (pbulge v1) * r * - sin (a + t * sweep (pbulge v1)))
        /\ vy (seg_tangent_vector v1 v2 q) = k * (sweep (pbulge v1) * r * cos (a + t * sweep (pbulge v1)))).
Proof. exact (seg_tangent_spec v1 v2 t q). Qed.
Print Assumptions C13_tangent.

Example C13_example :
  seg_midpoint (Vtx 1 0 1) (Vtx (-1) 0 0) = V2 0 1
  /\ seg_tangent_vector (Vtx 1 0 1) (Vtx (-1) 0 0) (V2 0 1) = V2 (-1) 0.
Proof. exact ex_mid. Qed.
