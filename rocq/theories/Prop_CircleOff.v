(** Property C59: the offset of a circle is the concentric circle, or nothing. *)
From Coq Require Import Reals List.
From Verif Require Import Num RNum Res ModelMath ModelSeg ModelPline ModelIndex ModelOffset.
From Verif Require Import Spec SpecGeom SpecIndex SpecOffset SpecOffsetJoin SpecCircle ProofCircleOff ProofCircleOff2.
Import ListNotations.
Local Open Scope R_scope.

(** An offset to the left makes a counterclockwise circle smaller and a clockwise one larger; the centre, the
    direction in which it begins and the sense stay. *)
Theorem C59_circle mk c u r b d o idx : makes_index mk -> unit_vec u -> b = 1 \/ b = -1 -> 0 < r ->
  0 < oo_pos_equal_eps o -> 0 < oo_slice_join_eps o -> 0 < oo_offset_dist_eps o < 2 * Rabs d -> oo_handle_self_intersects o = false ->
  2 * oo_pos_equal_eps o <= r - b * d -> 1 / 100000000 <= r - b * d -> pline_index (circle c u r b) idx ->
  parallel_offset mk (circle c u r b) idx d o = Ret [circle c u (r - b * d) b].
Proof. exact (circle_offset' mk c u r b d o idx). Qed.
Print Assumptions C59_circle.

(** If the offset is larger than the radius nothing is left. *)
Theorem C59_gone mk c u r b d o idx : makes_index mk -> unit_vec u -> b = 1 \/ b = -1 -> 0 < r ->
  0 < oo_pos_equal_eps o -> 0 < oo_offset_dist_eps o <= 2 * r -> oo_handle_self_intersects o = false ->
  2 * oo_pos_equal_eps o <= b * d - r -> oo_offset_dist_eps o <= 2 * (b * d - r) -> pline_index (circle c u r b) idx ->
  parallel_offset mk (circle c u r b) idx d o = Ret [].
Proof. exact (circle_gone' mk c u r b d o idx). Qed.
Print Assumptions C59_gone.

(** With the index built by the operation: a counterclockwise circle with radius 5, by 2 and by 6 to the left,
    and by 2 to the right. *)
Example C59_example : let p := circle (V2 1 2) (V2 (3/5) (4/5)) 5 1 in
  p = PL [Vtx 4 6 1; Vtx (-2) (-2) 1] true
  /\ parallel_offset_constructed (@list_index R _) p 2 circle_ex_opts = Ret [PL [Vtx (14/5) (22/5) 1; Vtx (-4/5) (-2/5) 1] true]
  /\ parallel_offset_constructed (@list_index R _) p 6 circle_ex_opts = Ret []
  /\ parallel_offset_constructed (@list_index R _) p (-2) circle_ex_opts = Ret [PL [Vtx (26/5) (38/5) 1; Vtx (-16/5) (-18/5) 1] true].
Proof. exact circle_ex_all. Qed.
