(** Property C55: the offset of a single line is the parallel line. *)
From Coq Require Import Reals List.
From Verif Require Import Num RNum Res ModelMath ModelSeg ModelPline ModelIndex ModelOffset.
From Verif Require Import Spec SpecGeom SpecIntr SpecIndex SpecBox SpecOffset SpecOffsetJoin ProofLineOff2.
Import ListNotations.
Local Open Scope R_scope.

(** The only result is the line moved to its left by the offset, with the same direction, whether the index is
    given or built. *)
Theorem C55_line mk (v1 v2 : vertex R) n d o : makes_index mk ->
  0 < oo_pos_equal_eps o -> 0 < oo_offset_dist_eps o < 2 * Rabs d -> d <> 0 ->
  pbulge v1 = 0 -> ~ is_point (pos v1) (pos v2) (oo_pos_equal_eps o) -> clear_direction (pos v1) (pos v2) ->
  oo_pos_equal_eps o <= Rabs d * dist (pos v1) (pos v2) -> left_normal (pos v1) (pos v2) n ->
  let p := PL [v1; v2] false in
  let r := PL [vertex_at (moved (pos v1) n d) 0; vertex_at (moved (pos v2) n d) 0] false in
  (forall idx, pline_index p idx -> parallel_offset mk p idx d o = Ret [r]) /\ parallel_offset_constructed mk p d o = Ret [r].
Proof. exact (line_offset_both mk v1 v2 n d o). Qed.
Print Assumptions C55_line.

(** A line from (0,0) to (3,4), five to its left. *)
Example C55_example : (let o := line_ex_opts in
  0 < oo_pos_equal_eps o /\ ~ is_point (V2 0 0) (V2 3 4) (oo_pos_equal_eps o) /\ clear_direction (V2 0 0) (V2 3 4)
  /\ left_normal (V2 0 0) (V2 3 4) (V2 (-4/5) (3/5)) /\ oo_pos_equal_eps o <= Rabs 5 * dist (V2 0 0) (V2 3 4) /\ 0 < oo_offset_dist_eps o < 2 * Rabs 5)
  /\ parallel_offset_constructed (@list_index R _) line_ex 5 line_ex_opts = Ret [PL [Vtx (-4) 3 0; Vtx (-1) 7 0] false].
Proof. exact (conj line_ex_ok (proj2 (proj2 (proj2 (proj2 line_ex_all))))). Qed.
