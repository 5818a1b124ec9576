(** C81: an offset whose cuts are all too near to the polyline is empty. *)
From Coq Require Import Reals List.
From Verif Require Import Num RNum Res ModelMath ModelSeg ModelPline ModelIndex ModelOffset.
From Verif Require Import Spec SpecGeom SpecIndex SpecCuts SpecOffset SpecOffNear SpecPolyOff SpecCircle SpecNothing.
From Verif Require Import ProofPolyOff3 ProofNothing ProofNothing2.
Import ListNotations.
Local Open Scope R_scope.

(** For any polyline and numbers: no piece of the raw offset is kept if the test of the distance fails at every place
    where it is cut, at its first vertex, and at its last vertex if the polyline is open. *)
Theorem C81_nothing {T} {N : Num T} mk (p : pline T) idx offset o raw : makes_index mk -> pline_index p idx -> (2 <= vertex_count p)%nat ->
  create_raw_offset_polyline p offset (oo_pos_equal_eps o) = Ret raw ->
  (forall v, hd_error (vtx raw) = Some v \/ (is_closed p = false /\ hd_error (rev (vtx raw)) = Some v) -> ~ clear_point p offset o (pos v)) ->
  (forall cuts i q, offset_cuts p offset o raw cuts -> In (i, q) cuts -> ~ clear_point p offset o q) ->
  parallel_offset mk p idx offset o = Ret [].
Proof. exact (cut_nothing mk p idx offset o raw). Qed.
Print Assumptions C81_nothing.

(** In the plane: if all these points are clearly nearer to the polyline than the offset. *)
Theorem C81_near mk (p : pline R) idx d o raw : makes_index mk -> pline_index p idx -> (2 <= vertex_count p)%nat -> 0 < oo_pos_equal_eps o ->
  create_raw_offset_polyline p d (oo_pos_equal_eps o) = Ret raw ->
  (forall v, hd_error (vtx raw) = Some v \/ (is_closed p = false /\ hd_error (rev (vtx raw)) = Some v) -> too_near p d o (pos v)) ->
  (forall cuts i q, offset_cuts p d o raw cuts -> In (i, q) cuts -> too_near p d o q) ->
  parallel_offset mk p idx d o = Ret [].
Proof. exact (near_nothing mk p idx d o raw). Qed.
Print Assumptions C81_near.

(** A rectangle to its inner side by clearly more than half of its width or of its height, but not by more than
    either. *)
Theorem C81_rectangle mk s c u w h e o idx : makes_index mk -> s = 1 \/ s = -1 -> unit_vec u -> 0 < oo_pos_equal_eps o -> oo_handle_self_intersects o = false ->
  0 < e -> e + 2 * oo_pos_equal_eps o <= w -> e + 2 * oo_pos_equal_eps o <= h ->
  2 * oo_pos_equal_eps o <= Rabs (w - 2 * e) -> 2 * oo_pos_equal_eps o <= Rabs (h - 2 * e) -> oo_pos_equal_eps o <= Rabs ((w - 2 * e) * (h - 2 * e)) ->
  h + 3 * oo_pos_equal_eps o + oo_offset_dist_eps o + 1 / 5000 <= 2 * e \/ w + 3 * oo_pos_equal_eps o + oo_offset_dist_eps o + 1 / 5000 <= 2 * e ->
  pline_index (polygon (rect_corners s c u w h)) idx ->
  parallel_offset mk (polygon (rect_corners s c u w h)) idx (s * e) o = Ret [].
Proof. exact (gone_offset' mk s c u w h e o idx). Qed.
Print Assumptions C81_rectangle.

(** The slanted rectangle of C60, which is 10 by 5, by 3. *)
Example C81_example : let p := polygon (rect_corners 1 (V2 1 2) (V2 (3/5) (4/5)) 10 5) in
  p = PL [Vtx 1 2 0; Vtx 7 10 0; Vtx 3 13 0; Vtx (-3) 5 0] true
  /\ parallel_offset_constructed (@list_index R _) p 3 rect_ex_opts = Ret [].
Proof. exact gone_ex. Qed.
Print Assumptions C81_example.
