(** Property C23: intersections of two polyline segments. *)
From Coq Require Import Reals Floats Bool.
From Verif Require Import Num RNum FNum ModelMath ModelSeg ModelSegIntr SpecGeom SpecIntr SpecSegIntr
  ProofSegIntr6 ProofSegIntr7 ProofSegIntrF.
Local Open Scope R_scope.

(** Two lines that are not parallel. *)
Theorem C23_lines v1 v2 u1 u2 eps :
  0 < eps -> pbulge v1 = 0 -> pbulge u1 = 0 -> eps <= Rabs (cross (vec (pos v1) (pos v2)) (vec (pos u1) (pos u2))) ->
  match pline_seg_intr v1 v2 u1 u2 eps with
  | SINoIntersect => disjoint_segs v1 v2 u1 u2
  | SIOne q => near_seg v1 v2 eps q /\ near_seg u1 u2 eps q
               /\ forall q', on_seg v1 v2 q' -> on_seg u1 u2 q' -> q' = q
  | _ => False
  end.
Proof. exact (seg_intr_lines v1 v2 u1 u2 eps). Qed.
Print Assumptions C23_lines.

(** Two lines on one line. *)
Theorem C23_collinear v1 v2 u1 u2 eps :
  0 < eps -> pbulge v1 = 0 -> pbulge u1 = 0 ->
  cross (vec (pos u1) (pos u2)) (vec (pos u1) (pos v1)) = 0 -> cross (vec (pos u1) (pos u2)) (vec (pos u1) (pos v2)) = 0 ->
  ~ is_point (pos v1) (pos v2) eps -> ~ is_point (pos u1) (pos u2) eps ->
  match pline_seg_intr v1 v2 u1 u2 eps with
  | SINoIntersect => disjoint_segs v1 v2 u1 u2
  | SIOne q => (q = pos v1 \/ q = pos v2) /\ near_seg u1 u2 (4 * eps) q
  | SIOverlapLines p q => before u1 u2 p q /\ p <> q
      /\ forall x, part u1 u2 p q x <-> on_seg v1 v2 x /\ on_seg u1 u2 x
  | _ => False
  end.
Proof. exact (seg_intr_collinear v1 v2 u1 u2 eps). Qed.
Print Assumptions C23_collinear.

(** A line and an arc, in either order. *)
Theorem C23_line_arc v1 v2 u1 u2 eps c r a :
  0 < eps -> seg_ok u1 u2 -> pbulge v1 = 0 -> pbulge u1 <> 0 -> is_arc (pos u1) (pos u2) (pbulge u1) c r a ->
  ~ is_point (pos v1) (pos v2) eps ->
  (vx (pos v2) - vx (pos v1) = 0 \/ 1 / 100000000 <= Rabs (vx (pos v2) - vx (pos v1))) ->
  ~ passes_at (pos v1) (pos v2) c (r + eps) -> wide u1 u2 eps ->
  let check i i' := all_near v1 v2 u1 u2 eps i /\ all_near u1 u2 v1 v2 eps i' /\ no_overlap i /\ no_overlap i'
    /\ in_order u1 u2 i /\ in_order v1 v2 i' in
  check (pline_seg_intr v1 v2 u1 u2 eps) (pline_seg_intr u1 u2 v1 v2 eps).
Proof. exact (seg_intr_line_arc v1 v2 u1 u2 eps c r a). Qed.
Print Assumptions C23_line_arc.

(** A common point of a line and an arc is reported, unless the line ends next to the circle, and then
    some other point is. *)
Theorem C23_line_arc_found v1 v2 u1 u2 eps c r a q :
  0 < eps -> seg_ok u1 u2 -> pbulge v1 = 0 -> pbulge u1 <> 0 -> is_arc (pos u1) (pos u2) (pbulge u1) c r a ->
  ~ is_point (pos v1) (pos v2) eps ->
  (vx (pos v2) - vx (pos v1) = 0 \/ 1 / 100000000 <= Rabs (vx (pos v2) - vx (pos v1))) ->
  (exists t, dist (line_pt (pos v1) (pos v2) t) c <= r - eps) ->
  on_seg v1 v2 q -> on_seg u1 u2 q ->
  let check i i' := i <> SINoIntersect /\ i' <> SINoIntersect
         /\ ((reported i q /\ reported i' q) \/ Rabs (dist (pos v1) c - r) < eps \/ Rabs (dist (pos v2) c - r) < eps) in
  check (pline_seg_intr v1 v2 u1 u2 eps) (pline_seg_intr u1 u2 v1 v2 eps).
Proof. exact (seg_intr_line_arc_found v1 v2 u1 u2 eps c r a q). Qed.
Print Assumptions C23_line_arc_found.

(** Arcs of circles about different centres. *)
Theorem C23_arcs v1 v2 u1 u2 eps tol c1 r1 a1 c2 r2 a2 :
  0 < eps <= tol -> seg_ok v1 v2 -> seg_ok u1 u2 -> pbulge v1 <> 0 -> pbulge u1 <> 0 ->
  is_arc (pos v1) (pos v2) (pbulge v1) c1 r1 a1 -> is_arc (pos u1) (pos u2) (pbulge u1) c2 r2 a2 ->
  eps <= dist c1 c2 -> eps * (r1 + r2) <= tol * dist c1 c2 -> wide v1 v2 tol -> wide u1 u2 tol ->
  let i := pline_seg_intr v1 v2 u1 u2 eps in
  all_near v1 v2 u1 u2 tol i /\ no_overlap i.
Proof. exact (seg_intr_arcs v1 v2 u1 u2 eps tol c1 r1 a1 c2 r2 a2). Qed.
Print Assumptions C23_arcs.

Theorem C23_arcs_found v1 v2 u1 u2 eps c1 r1 a1 c2 r2 a2 p p' q :
  0 < eps -> seg_ok v1 v2 -> seg_ok u1 u2 -> pbulge v1 <> 0 -> pbulge u1 <> 0 ->
  is_arc (pos v1) (pos v2) (pbulge v1) c1 r1 a1 -> is_arc (pos u1) (pos u2) (pbulge u1) c2 r2 a2 ->
  eps <= dist c1 c2 ->
  dist p c1 = r1 -> dist p c2 = r2 -> dist p' c1 = r1 -> dist p' c2 = r2 -> ~ is_point p p' eps ->
  on_seg v1 v2 q -> on_seg u1 u2 q ->
  let i := pline_seg_intr v1 v2 u1 u2 eps in
  i <> SINoIntersect
  /\ (reported i q
      \/ Rabs (dist (pos u1) c1 - r1) < eps \/ Rabs (dist (pos u2) c1 - r1) < eps
      \/ Rabs (dist (pos v1) c2 - r2) < eps \/ Rabs (dist (pos v2) c2 - r2) < eps).
Proof. exact (seg_intr_arcs_found v1 v2 u1 u2 eps c1 r1 a1 c2 r2 a2 p p' q). Qed.
Print Assumptions C23_arcs_found.

(** Arcs of one circle. *)
Theorem C23_same_circle v1 v2 u1 u2 eps c1 r1 a1 c2 r2 a2 :
  0 < eps -> seg_ok v1 v2 -> seg_ok u1 u2 -> pbulge v1 <> 0 -> pbulge u1 <> 0 ->
  is_arc (pos v1) (pos v2) (pbulge v1) c1 r1 a1 -> is_arc (pos u1) (pos u2) (pbulge u1) c2 r2 a2 ->
  dist c1 c2 < eps -> Rabs (r1 - r2) < eps -> (r1 + r2) / 2 / 100000000 <= eps ->
  0 < pbulge v1 * pbulge u1 \/ 5 * eps < dist (pos v2) (pos u2) ->
  let i := pline_seg_intr v1 v2 u1 u2 eps in
  all_near v1 v2 u1 u2 (5 * eps) i /\ (forall q, i <> SITangent q) /\ (forall p q, i <> SIOverlapLines p q)
  /\ (forall p q, i = SITwo p q -> p = pos u1 /\ q = pos u2)
  /\ (c1 = c2 -> r1 = r2 ->
      (i = SINoIntersect -> disjoint_segs v1 v2 u1 u2)
      /\ forall p q, i = SIOverlapArcs p q ->
         before u1 u2 p q
         /\ (forall x, part u1 u2 p q x -> near_seg v1 v2 (5 * eps) x)
         /\ (forall x, on_seg v1 v2 x -> on_seg u1 u2 x -> part u1 u2 p q x)).
Proof. exact (seg_intr_overlap v1 v2 u1 u2 eps c1 r1 a1 c2 r2 a2). Qed.
Print Assumptions C23_same_circle.

(** Arcs about one centre with different radii. *)
Theorem C23_concentric v1 v2 u1 u2 eps c1 r1 a1 c2 r2 a2 :
  0 < eps -> seg_ok v1 v2 -> seg_ok u1 u2 -> pbulge v1 <> 0 -> pbulge u1 <> 0 ->
  is_arc (pos v1) (pos v2) (pbulge v1) c1 r1 a1 -> is_arc (pos u1) (pos u2) (pbulge u1) c2 r2 a2 ->
  dist c1 c2 < eps -> eps <= Rabs (r1 - r2) ->
  pline_seg_intr v1 v2 u1 u2 eps = SINoIntersect /\ disjoint_segs v1 v2 u1 u2.
Proof. exact (seg_intr_concentric v1 v2 u1 u2 eps c1 r1 a1 c2 r2 a2). Qed.
Print Assumptions C23_concentric.

(** For two steep lines less than a millionth apart the reported overlap starts 0.4 away from the first
    one. *)
Theorem C23_steep_overlap_refuted :
  exists v1 v2 u1 u2 eps p q, pbulge v1 = 0 /\ pbulge u1 = 0 /\ 0 < eps <= 1 / 100000
    /\ pline_seg_intr v1 v2 u1 u2 eps = SIOverlapLines p q
    /\ forall x, on_seg v1 v2 x -> 2 / 5 <= dist p x.
Proof. exact overlap_steep. Qed.
Print Assumptions C23_steep_overlap_refuted.

(** The two points of arcs of different circles do not come in the order of the second arc, as the
    documentation of [TwoIntersects] says. *)
Theorem C23_arcs_order_refuted :
  exists v1 v2 u1 u2 eps p q, seg_ok v1 v2 /\ seg_ok u1 u2 /\ 0 < eps <= 1 / 100000
    /\ pline_seg_intr v1 v2 u1 u2 eps = SITwo p q /\ p <> q /\ before u1 u2 q p.
Proof. exact arcs_order. Qed.
Print Assumptions C23_arcs_order_refuted.

(** The test whether a point is within the sweep compares a cross product, which has the dimension of an
    area, with the tolerance for positions: the second segment is the upper half of a circle of radius 1/1024 and the
    reported point is the bottom of that circle. *)
Theorem C23_small_arc_refuted :
  exists v1 v2 q, (pline_seg_intr v1 v2 (Vtx 0x1p-10 0 1) (Vtx (-0x1p-10) 0 0) 0x1p-17 = SIOne q
    /\ (vy q <=? -0x1p-10) = true)%float.
Proof. exact small_arc_f. Qed.
Print Assumptions C23_small_arc_refuted.

(** A line end next to the circle replaces the crossing, which is 100 times the tolerance away. *)
Theorem C23_shallow_crossing_refuted :
  exists x y q w, (pline_seg_intr (Vtx x y 0) (Vtx (-1) y 0) (Vtx 1 0 1) (Vtx (-1) 0 0) 0x1p-17 = SIOne q
    /\ vy w = y /\ (-1 <? vx w) && (vx w <? x) && (abs (vx w * vx w + y * y - 1) <? 0x1p-50) = true
    /\ (100 * 0x1p-17 <? vx q - vx w) = true)%float.
Proof. exact shallow_f. Qed.
Print Assumptions C23_shallow_crossing_refuted.

(** A crossing of a line that is nearly tangent to the circle is missed: only the point of the line closest to
    the centre is considered, and it is beyond the end of the arc. *)
Theorem C23_tangent_missed_refuted :
  exists y u2 w, (pline_seg_intr (Vtx (-1) y 0) (Vtx 1 y 0) (Vtx 1 0 0.41362) u2 0x1p-17 = SINoIntersect
    /\ vy w = y /\ (px u2 + 100 * 0x1p-17 <? vx w) && (vx w <? 1) && (abs (vx w * vx w + y * y - 1) <? 0x1p-50) = true)%float.
Proof. exact tangent_f. Qed.
Print Assumptions C23_tangent_missed_refuted.

(** Two quarters of the unit circle in opposite directions that end at (0, 1): the other end of the second
    one is reported. *)
Theorem C23_opposite_arcs_refuted :
  exists v1 v2 u1 u2 eps q, (pline_seg_intr v1 v2 u1 u2 eps = SIOne q
    /\ v1 = Vtx 1 0 (sqrt 2 - 1) /\ v2 = Vtx 0 1 0 /\ u1 = Vtx (-1) 0 (- (sqrt 2 - 1)) /\ u2 = Vtx 0 1 0 /\ eps = 0x1p-17
    /\ q = V2 (-1) 0)%float.
Proof. exact opposite_ex. Qed.
Print Assumptions C23_opposite_arcs_refuted.

(** Two quarters of a circle of radius 1048576 with a gap of 512 times the tolerance between them are
    reported to overlap: angles are compared with the fixed tolerance 1e-8. *)
Theorem C23_large_arcs_refuted :
  exists v1 v2 u1 u2 p q, (pline_seg_intr v1 v2 u1 u2 0x1p-17 = SIOverlapArcs p q
    /\ v1 = Vtx 1048576 0 (sqrt 2 - 1) /\ v2 = Vtx 0 1048576 0
    /\ u1 = Vtx (-0x1p-8) 1048576 (sqrt 2 - 1) /\ u2 = Vtx (-1048576) (-0x1p-8) 0
    /\ (vx p <? - (100 * 0x1p-17)) = true)%float.
Proof. exact large_f. Qed.
Print Assumptions C23_large_arcs_refuted.

Example C23_example_line_arc :
  let v1 := Vtx 0 0 0 in let v2 := Vtx 0 10 0 in let u1 := Vtx 5 0 1 in let u2 := Vtx (-5) 0 0 in
  reported (pline_seg_intr v1 v2 u1 u2 (1 / 100000)) (V2 0 5)
  /\ reported (pline_seg_intr u1 u2 v1 v2 (1 / 100000)) (V2 0 5)
  /\ all_near v1 v2 u1 u2 (1 / 100000) (pline_seg_intr v1 v2 u1 u2 (1 / 100000)).
Proof. exact line_arc_meets. Qed.

Example C23_example_arcs :
  pline_seg_intr (Vtx 0 (-5) 1) (Vtx 0 5 0) (Vtx 6 5 1) (Vtx 6 (-5) 0) (1 / 100000) = SITwo (V2 3 (-4)) (V2 3 4).
Proof. exact arcs_two. Qed.

Example C23_example_same_circle :
  (pline_seg_intr (Vtx 1 0 1) (Vtx (-1) 0 0) (Vtx 0 1 1) (Vtx 0 (-1) 0) 0x1p-17 = SIOverlapArcs (V2 0 1) (V2 (-1) 0)
  /\ pline_seg_intr (Vtx 1 0 1) (Vtx (-1) 0 0) (Vtx 1 0 (-1)) (Vtx (-1) 0 0) 0x1p-17 = SITwo (V2 1 0) (V2 (-1) 0)
  /\ pline_seg_intr (Vtx 1 0 (sqrt 2 - 1)) (Vtx 0 1 0) (Vtx (-1) 0 (sqrt 2 - 1)) (Vtx 0 (-1) 0) 0x1p-17 = SINoIntersect)%float.
Proof. exact overlap_examples_f. Qed.
