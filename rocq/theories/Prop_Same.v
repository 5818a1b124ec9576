(** C75: boolean operations on two loops along the same segments. *)
From Coq Require Import Reals ZArith Bool List.
From Verif Require Import Num RNum Res ModelMath ModelSeg ModelPline ModelView ModelIndex ModelSegIntr ModelBoolean.
From Verif Require Import Spec SpecGeom SpecBox SpecIntr SpecPrune SpecJordan SpecBoolean SpecIndex SpecPolyOff SpecCircle SpecSame.
From Verif Require Import ProofConvexEx ProofCurveEx ProofSame2 ProofSame3 ProofSame4 ProofSame5.
Import ListNotations.
Local Open Scope R_scope.

(** A line or an arc overlaps itself, forwards or backwards, as a whole. *)
Theorem C75_same_line (v1 v2 u1 u2 : vertex R) eps : 0 < eps -> ~ is_point (pos v1) (pos v2) eps -> pbulge v1 = 0 -> same_seg v1 v2 u1 u2 ->
  pline_seg_intr v1 v2 u1 u2 eps = SIOverlapLines (pos u1) (pos u2).
Proof. exact (line_same v1 v2 u1 u2 eps). Qed.
Print Assumptions C75_same_line.

Theorem C75_same_arc (v1 v2 u1 u2 : vertex R) eps : 0 < eps -> seg_ok v1 v2 -> seg_ok u1 u2 -> ~ is_point (pos v1) (pos v2) eps ->
  pbulge v1 <> 0 -> same_seg v1 v2 u1 u2 -> pline_seg_intr v1 v2 u1 u2 eps = SIOverlapArcs (pos u1) (pos u2).
Proof. exact (arc_same v1 v2 u1 u2 eps). Qed.
Print Assumptions C75_same_arc.

(** Segments that clearly have no part in common are not reported as overlapping. *)
Theorem C75_parted eps (v1 v2 u1 u2 : vertex R) : 0 < eps -> seg_ok v1 v2 -> seg_ok u1 u2 -> ~ is_point (pos v1) (pos v2) eps -> parted eps v1 v2 u1 u2 ->
  (forall p q, pline_seg_intr v1 v2 u1 u2 eps <> SIOverlapLines p q) /\ forall p q, pline_seg_intr v1 v2 u1 u2 eps <> SIOverlapArcs p q.
Proof. exact (parted_plain eps v1 v2 u1 u2). Qed.
Print Assumptions C75_parted.

(** If every segment of the second loop is a segment of the first, forwards or backwards, the loops are found to be the
    same: the second is their union and their intersection, and nothing is left of their differences. *)
Theorem C75_boolean mk (p1 p2 : pline R) eps op idx : 0 < eps -> pline_ok p1 -> pline_ok p2 -> valid_loop p1 -> valid_loop p2 ->
  parted_pline eps p1 -> follows p1 p2 -> pline_index p1 idx ->
  polyline_boolean mk p1 p2 op idx eps
  = Ret (BR (match op with BOr | BAnd => [BRP p2 []] | BNot | BXor => [] end) [] Overlapping).
Proof. exact (fun He O1 O2 V1 V2 P F => outline_boolean p1 p2 eps He O1 O2 V1 V2 P F mk op idx). Qed.
Print Assumptions C75_boolean.

(** Two loops that pass no point twice and pass the same points go around the same points. *)
Theorem C75_inside (p1 p2 : pline R) x : pline_ok p1 -> pline_ok p2 -> valid_loop p1 -> valid_loop p2 -> passes_once p1 -> passes_once p2 ->
  (forall q, on_path p1 q <-> on_path p2 q) -> ~ on_path p1 x -> inside p1 x = inside p2 x.
Proof. exact (same_inside p1 p2 x). Qed.
Print Assumptions C75_inside.

(** The result encloses the points that the operation says. *)
Theorem C75_region mk (p1 p2 : pline R) eps op idx : 0 < eps -> pline_ok p1 -> pline_ok p2 -> valid_loop p1 -> valid_loop p2 ->
  parted_pline eps p1 -> same_outline p1 p2 -> pline_index p1 idx -> passes_once p1 -> passes_once p2 ->
  exists r, polyline_boolean mk p1 p2 op idx eps = Ret r
  /\ forall x, ~ on_path p1 x -> (region (fun p y => inside p y = true) r x <-> operation op (inside p1 x = true) (inside p2 x = true)).
Proof. exact (fun He O1 O2 V1 V2 P S I => outline_region p1 p2 eps He O1 O2 V1 V2 P (proj1 S) mk op idx I (proj2 S)). Qed.
Print Assumptions C75_region.

(** Polygons that clearly do not meet themselves. *)
Theorem C75_polygons mk eps ps qs op idx : 0 < eps -> lone_polygon eps ps -> lone_polygon eps qs ->
  (forall a b, In (a, b) (spec_segs ps true) -> ~ is_point a b eps) -> same_outline (polygon ps) (polygon qs) -> pline_index (polygon ps) idx ->
  exists r, polyline_boolean mk (polygon ps) (polygon qs) op idx eps = Ret r
  /\ r = BR (match op with BOr | BAnd => [BRP (polygon qs) []] | BNot | BXor => [] end) [] Overlapping
  /\ forall x, ~ on_path (polygon ps) x ->
     (region (fun p y => inside p y = true) r x <-> operation op (inside (polygon ps) x = true) (inside (polygon qs) x = true)).
Proof. exact (polygon_same mk eps ps qs op idx). Qed.
Print Assumptions C75_polygons.

(** A circle of either sense and itself, of either sense and from either end of its diameter. *)
Theorem C75_circles mk c u u' r b b' eps op idx : unit_vec u -> b = 1 \/ b = -1 -> b' = 1 \/ b' = -1 -> u' = u \/ u' = V2 (- vx u) (- vy u) -> 0 < eps <= r ->
  pline_index (circle c u r b) idx ->
  exists res, polyline_boolean mk (circle c u r b) (circle c u' r b') op idx eps = Ret res
  /\ res = BR (match op with BOr | BAnd => [BRP (circle c u' r b') []] | BNot | BXor => [] end) [] Overlapping
  /\ forall x, dist x c <> r -> (region (fun p y => inside p y = true) res x <-> operation op (dist x c < r) (dist x c < r)).
Proof. exact (circle_same mk c u u' r b b' eps op idx). Qed.
Print Assumptions C75_circles.

(** The triangle (0,0), (8,0), (0,6) and the triangle (0,6), (8,0), (0,0). *)
Example C75_example op :
  polyline_boolean (@list_index R RNum) (polygon tri) (polygon tri_back) op (ex_index (polygon tri)) (1 / 100000)
  = Ret (BR (match op with BOr | BAnd => [BRP (PL [Vtx 0 6 0; Vtx 8 0 0; Vtx 0 0 0] true) []] | BNot | BXor => [] end) [] Overlapping).
Proof. exact (tri_twice op). Qed.
Print Assumptions C75_example.

(** The circle of radius 2 about (1,1) and itself the other way round. *)
Example C75_example_circle op : let p1 := circle (V2 1 1) (V2 1 0) 2 1 in let p2 := circle (V2 1 1) (V2 1 0) 2 (-1) in
  exists r, polyline_boolean (@list_index R RNum) p1 p2 op (ex_index p1) (1 / 100000) = Ret r
  /\ (region (fun p y => inside p y = true) r (V2 1 1) <-> op = BOr \/ op = BAnd).
Proof. exact (circle_twice op). Qed.
Print Assumptions C75_example_circle.
