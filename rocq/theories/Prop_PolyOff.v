(** Property C60: a raw offset that does not meet itself is returned whole or not at all; the offset of polygons. *)
From Coq Require Import Reals List.
From Verif Require Import Num RNum Res ModelMath ModelSeg ModelPline ModelIndex ModelOffset.
From Verif Require Import Spec SpecGeom SpecIndex SpecCuts SpecOffset SpecOffNear SpecCircle SpecPolyOff ProofWhole ProofPolyOff2 ProofPolyOff3.
Import ListNotations.
Local Open Scope R_scope.

(** If the raw offset of a closed polyline is nowhere cut, its first vertex decides. *)
Theorem C60_uncut mk p idx d o raw v : makes_index mk -> pline_index p idx -> (2 <= vertex_count p)%nat -> is_closed p = true ->
  create_raw_offset_polyline p d (oo_pos_equal_eps o) = Ret raw -> (2 <= vertex_count raw)%nat -> (forall cuts, offset_cuts p d o raw cuts -> cuts = []) ->
  hd_error (vtx raw) = Some v ->
  (0 < oo_slice_join_eps o -> (forall a b, In (a, b) (spec_segs (vtx raw) true) -> v2fuzzy_eq_eps (pos a) (pos b) (oo_pos_equal_eps o) = false) ->
     clear_point p d o (pos v) -> parallel_offset mk p idx d o = Ret [raw])
  /\ (~ clear_point p d o (pos v) -> parallel_offset mk p idx d o = Ret []).
Proof. exact (uncut_either mk p idx d o raw v). Qed.
Print Assumptions C60_uncut.

(** A closed polygon, the offset lines of neighbouring sides of which meet in the corners of a polygon that clearly
    does not meet itself: the offset is that polygon if its first corner is as far away as it should be. *)
Theorem C60_polygon mk p idx d o qs q : makes_index mk -> pline_index p idx -> is_polygon p -> 0 < oo_pos_equal_eps o -> oo_handle_self_intersects o = false ->
  inner_corners p d (oo_pos_equal_eps o) qs -> lone_polygon (oo_pos_equal_eps o) qs -> hd_error qs = Some q ->
  0 < oo_slice_join_eps o -> lies_clear p (Rabs (Rabs d - oo_offset_dist_eps o)) q ->
  parallel_offset mk p idx d o = Ret [polygon qs].
Proof. exact (poly_whole mk p idx d o qs q). Qed.
Print Assumptions C60_polygon.

(** And nothing if a point of the polygon is clearly too near to that corner. *)
Theorem C60_nothing mk p idx d o qs q v1 v2 x : makes_index mk -> pline_index p idx -> is_polygon p -> 0 < oo_pos_equal_eps o -> oo_handle_self_intersects o = false ->
  inner_corners p d (oo_pos_equal_eps o) qs -> lone_polygon (oo_pos_equal_eps o) qs -> hd_error qs = Some q ->
  oo_offset_dist_eps o <= Rabs d -> In (v1, v2) (spec_segs (vtx p) true) -> on_seg v1 v2 x ->
  (dist q x + 3 * oo_pos_equal_eps o) * (dist q x + 3 * oo_pos_equal_eps o) + 1 / 50000000 <= (Rabs d - oo_offset_dist_eps o) * (Rabs d - oo_offset_dist_eps o) ->
  parallel_offset mk p idx d o = Ret [].
Proof. exact (poly_none' mk p idx d o qs q v1 v2 x). Qed.
Print Assumptions C60_nothing.

(** A rectangle by [e] to its inner side: the rectangle with the same directions, [e] inside on every side. *)
Theorem C60_rectangle mk s c u w h e o idx : makes_index mk -> s = 1 \/ s = -1 -> unit_vec u ->
  0 < oo_pos_equal_eps o -> 0 < oo_slice_join_eps o -> 0 < oo_offset_dist_eps o < 2 * e -> oo_handle_self_intersects o = false ->
  0 < e -> 2 * oo_pos_equal_eps o <= w - 2 * e -> 2 * oo_pos_equal_eps o <= h - 2 * e -> oo_pos_equal_eps o <= (w - 2 * e) * (h - 2 * e) ->
  pline_index (polygon (rect_corners s c u w h)) idx ->
  parallel_offset mk (polygon (rect_corners s c u w h)) idx (s * e) o
  = Ret [polygon (rect_corners s (moved (moved c u e) (turned s u) e) u (w - 2 * e) (h - 2 * e))].
Proof. exact (rect_offset' mk s c u w h e o idx). Qed.
Print Assumptions C60_rectangle.

(** With the index built by the operation: a slanted counterclockwise rectangle by 1 to the left. *)
Example C60_example : let p := polygon (rect_corners 1 (V2 1 2) (V2 (3/5) (4/5)) 10 5) in
  p = PL [Vtx 1 2 0; Vtx 7 10 0; Vtx 3 13 0; Vtx (-3) 5 0] true
  /\ parallel_offset_constructed (@list_index R _) p 1 rect_ex_opts = Ret [PL [Vtx (4/5) (17/5) 0; Vtx (28/5) (49/5) 0; Vtx (16/5) (58/5) 0; Vtx (-8/5) (26/5) 0] true].
Proof. exact rect_ex_all. Qed.
