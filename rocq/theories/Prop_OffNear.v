(** Property C54: offset results are made of pieces of the raw offset and stay near the input. *)
From Coq Require Import Reals List.
From Verif Require Import Num RNum Res ModelMath ModelSeg ModelPline ModelIndex ModelOffset.
From Verif Require Import Spec SpecGeom SpecIndex SpecBox SpecRawNear SpecOffNear ProofOffNear4 ProofLineOff2.
Import ListNotations.
Local Open Scope R_scope.

(** If the raw offset is clean, the offset is computed, and every segment of every result is a piece of a segment of
    the raw offset, up to moving its end by at most five join tolerances and two position tolerances. *)
Theorem C54_pieces mk (p : pline R) idx offset o : makes_index mk -> pline_index p idx -> (2 <= vertex_count p)%nat ->
  0 < oo_pos_equal_eps o -> 0 <= oo_slice_join_eps o ->
  (forall raw, create_raw_offset_polyline p offset (oo_pos_equal_eps o) = Ret raw ->
     clean_offset (oo_pos_equal_eps o + 2 * oo_slice_join_eps o) p offset o raw) ->
  exists raw rs, create_raw_offset_polyline p offset (oo_pos_equal_eps o) = Ret raw /\ parallel_offset mk p idx offset o = Ret rs
  /\ forall r a b, In r rs -> In (a, b) (spec_segs (vtx r) (is_closed r)) ->
       from_raw raw (5 * oo_slice_join_eps o + 2 * oo_pos_equal_eps o) a b.
Proof. exact (offset_pieces mk p idx offset o). Qed.
Print Assumptions C54_pieces.

(** So every point of every result is that near to the raw offset. *)
Theorem C54_near_raw mk (p : pline R) idx offset o : makes_index mk -> pline_index p idx -> (2 <= vertex_count p)%nat ->
  0 < oo_pos_equal_eps o -> 0 <= oo_slice_join_eps o ->
  (forall raw, create_raw_offset_polyline p offset (oo_pos_equal_eps o) = Ret raw ->
     clean_offset (oo_pos_equal_eps o + 2 * oo_slice_join_eps o) p offset o raw) ->
  exists raw rs, create_raw_offset_polyline p offset (oo_pos_equal_eps o) = Ret raw /\ parallel_offset mk p idx offset o = Ret rs
  /\ forall r q, In r rs -> on_path r q -> near_path raw (5 * oo_slice_join_eps o + 2 * oo_pos_equal_eps o) q.
Proof. exact (offset_near_raw mk p idx offset o). Qed.
Print Assumptions C54_near_raw.

(** For a polyline of lines with clear corners, no point of a result is farther from the polyline than the offset
    and a few tolerances. *)
Theorem C54_near mk (p : pline R) idx offset o : makes_index mk -> pline_index p idx -> (2 <= vertex_count p)%nat ->
  0 < oo_pos_equal_eps o -> 0 <= oo_slice_join_eps o -> offset <> 0 -> all_lines p -> clear_corners p offset (oo_pos_equal_eps o) ->
  (forall raw, create_raw_offset_polyline p offset (oo_pos_equal_eps o) = Ret raw ->
     clean_offset (oo_pos_equal_eps o + 2 * oo_slice_join_eps o) p offset o raw) ->
  exists rs, parallel_offset mk p idx offset o = Ret rs
  /\ forall r q, In r rs -> on_path r q -> near_path p (Rabs offset + 8 * oo_pos_equal_eps o + 5 * oo_slice_join_eps o) q.
Proof. exact (offset_near mk p idx offset o). Qed.
Print Assumptions C54_near.

(** A line to which they apply, with its offset. *)
Example C54_example : makes_index (@list_index R _) /\ all_lines line_ex /\ clear_corners line_ex 5 (oo_pos_equal_eps line_ex_opts)
  /\ (forall raw, create_raw_offset_polyline line_ex 5 (oo_pos_equal_eps line_ex_opts) = Ret raw ->
       clean_offset (oo_pos_equal_eps line_ex_opts + 2 * oo_slice_join_eps line_ex_opts) line_ex 5 line_ex_opts raw)
  /\ parallel_offset_constructed (@list_index R _) line_ex 5 line_ex_opts = Ret [PL [Vtx (-4) 3 0; Vtx (-1) 7 0] false].
Proof. exact line_ex_all. Qed.
