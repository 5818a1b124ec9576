(** Property C69: convex polygons and their offset to the inner side. *)
From Coq Require Import Reals List.
From Verif Require Import Num RNum Res ModelMath ModelSeg ModelPline ModelIndex ModelOffset.
From Verif Require Import Spec SpecGeom SpecIntr SpecBox SpecBoolean SpecView SpecPrune SpecIndex SpecCuts SpecOffset SpecOffNear SpecPolyOff SpecOffsetJoin SpecJordan SpecConvex.
From Verif Require Import ProofPolyOff3 ProofConvex ProofConvexOff ProofConvexEx.
Import ListNotations.
Local Open Scope R_scope.

(** The points inside a convex polygon (of either sense) are those strictly on the inner side of all its sides. *)
Theorem C69_inside (s : R) (ps : list (vec2 R)) x : s = 1 \/ s = -1 -> convex s ps -> valid_loop (polygon ps) -> passes_once (polygon ps) ->
  ~ on_path (polygon ps) x ->
  (inside (polygon ps) x = true <-> forall a b, In (a, b) (spec_segs ps true) -> 0 < s * cross (vec a b) (vec a x)).
Proof. exact (fun Hs Cv Vl Po => convex_inside s ps Hs Cv Vl Po x). Qed.
Print Assumptions C69_inside.

(** A convex polygon by [e] to its inner side, when the moved sides of neighbouring sides meet in points at least [e]
    inside of all sides which are the corners of a polygon that clearly does not meet itself: the result is that polygon,
    and it encloses exactly the points inside the given one that are farther than [e] from all its points. *)
Theorem C69_offset mk s ps qs e o idx : makes_index mk -> s = 1 \/ s = -1 -> 0 < e ->
  0 < oo_pos_equal_eps o -> 0 < oo_slice_join_eps o -> 0 < oo_offset_dist_eps o < 2 * e -> oo_handle_self_intersects o = false ->
  convex s ps -> passes_once (polygon ps) -> pline_index (polygon ps) idx ->
  inner_corners (polygon ps) (s * e) (oo_pos_equal_eps o) qs -> lone_polygon (oo_pos_equal_eps o) qs -> (forall q, In q qs -> within_by s e ps q) ->
  parallel_offset mk (polygon ps) idx (s * e) o = Ret [polygon qs]
  /\ forall x, ~ on_path (polygon ps) x -> ~ on_path (polygon qs) x ->
     (inside (polygon qs) x = true <-> inside (polygon ps) x = true /\ forall q, on_path (polygon ps) q -> e < dist x q).
Proof. exact (convex_offset mk s ps qs e o idx). Qed.
Print Assumptions C69_offset.

(** A triangle with sides 8, 10 and 6 by 1, with the index built by the operation. *)
Example C69_example : let p := polygon [V2 0 0; V2 8 0; V2 0 6] in let q := polygon [V2 1 1; V2 5 1; V2 1 4] in
  parallel_offset_constructed (@list_index R _) p 1 (OO (1 / 100000) (1 / 10000) (1 / 10000) false) = Ret [q]
  /\ (forall x, ~ on_path p x -> ~ on_path q x -> (inside q x = true <-> inside p x = true /\ forall y, on_path p y -> 1 < dist x y))
  /\ inside q (V2 2 2) = true.
Proof. exact tri_offset. Qed.
Print Assumptions C69_example.
