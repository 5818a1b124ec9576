(** C74: the areas and lengths of the offsets of convex polygons. *)
From Coq Require Import Reals List.
From Verif Require Import Num RNum Res ModelMath ModelSeg ModelPline ModelIndex ModelOffset.
From Verif Require Import Spec SpecGeom SpecOffset SpecOffsetJoin SpecIndex SpecBoolean SpecPolyOff SpecJordan SpecConvex SpecRound ProofIndex2 ProofSteiner3.
Import ListNotations.
Local Open Scope R_scope.

(** To the outer side by [e]: the polygon with the area [A] and the length [L] gets the length [L + 2 pi e], and its
    area grows (in the sign of its direction) by [e L + pi e^2]. *)
Theorem C74_outward mk s ps e m o idx A L : makes_index mk -> s = 1 \/ s = -1 -> roomy s e m ps -> coarse (oo_pos_equal_eps o) e m ->
  (forall a b, In (a, b) (spec_segs ps true) -> clear_direction a b) ->
  0 < oo_slice_join_eps o -> 0 < oo_offset_dist_eps o < 2 * e -> oo_handle_self_intersects o = false -> pline_index (polygon ps) idx ->
  no_tiny (polygon ps) -> area (polygon ps) = Ret A -> path_length (polygon ps) = Ret L ->
  exists r, parallel_offset mk (polygon ps) idx (- s * e) o = Ret [r]
  /\ area r = Ret (A + s * (e * L + PI * (e * e))) /\ path_length r = Ret (L + 2 * PI * e).
Proof. exact (outward_measures mk s ps e m o idx A L). Qed.
Print Assumptions C74_outward.

(** To the inner side by [e], when the result is a polygon with as many corners: its area is less by the area of strips
    of the width [e] and the mean of both lengths. *)
Theorem C74_inward mk s ps qs e o idx A L L' : makes_index mk -> s = 1 \/ s = -1 -> 0 < e ->
  0 < oo_pos_equal_eps o -> 0 < oo_slice_join_eps o -> 0 < oo_offset_dist_eps o < 2 * e -> oo_handle_self_intersects o = false ->
  convex s ps -> passes_once (polygon ps) -> pline_index (polygon ps) idx ->
  inner_corners (polygon ps) (s * e) (oo_pos_equal_eps o) qs -> lone_polygon (oo_pos_equal_eps o) qs -> (forall q, In q qs -> within_by s e ps q) ->
  no_tiny (polygon ps) -> no_tiny (polygon qs) -> area (polygon ps) = Ret A -> path_length (polygon ps) = Ret L -> path_length (polygon qs) = Ret L' ->
  exists r, parallel_offset mk (polygon ps) idx (s * e) o = Ret [r] /\ path_length r = Ret L' /\ area r = Ret (A - s * (e * (L + L') / 2)).
Proof. exact (inward_measures mk s ps qs e o idx A L L'). Qed.
Print Assumptions C74_inward.

(** The triangle with sides 8, 10 and 6, area and length 24, by 1 to both sides. *)
Example C74_example : let p := polygon [V2 0 0; V2 8 0; V2 0 6] in let o := OO (1 / 100000) (1 / 10000) (1 / 10000) false in
  (area p = Ret 24 /\ path_length p = Ret 24)
  /\ (exists r, parallel_offset_constructed (@list_index R _) p (-1) o = Ret [r] /\ area r = Ret (48 + PI) /\ path_length r = Ret (24 + 2 * PI))
  /\ exists r, parallel_offset_constructed (@list_index R _) p 1 o = Ret [r] /\ area r = Ret 6 /\ path_length r = Ret 12.
Proof. exact (conj tri_measures tri_steiner). Qed.
Print Assumptions C74_example.
