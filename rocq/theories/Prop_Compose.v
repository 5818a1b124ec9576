(** C82: two inward offsets of a convex polygon one after the other are the offset by the sum. *)
From Coq Require Import Reals List.
From Verif Require Import Num RNum Res ModelMath ModelSeg ModelPline ModelIndex ModelOffset.
From Verif Require Import Spec SpecGeom SpecIndex SpecPolyOff SpecJordan SpecConvex.
From Verif Require Import ProofPolyOff3 ProofCompose.
Import ListNotations.
Local Open Scope R_scope.

(** Let [qs] and [rs] be the corners of the offsets of [ps] and of [qs], in the sense of C69. Then offsetting [ps] by
    [e1] and the result by [e2] gives what offsetting [ps] by [e1 + e2] gives, vertex by vertex. *)
Theorem C82_convex mk s ps qs rs e1 e2 o idx idx' : makes_index mk -> s = 1 \/ s = -1 -> 0 < e1 -> 0 < e2 ->
  0 < oo_pos_equal_eps o -> 0 < oo_slice_join_eps o -> 0 < oo_offset_dist_eps o -> oo_offset_dist_eps o < 2 * e1 -> oo_offset_dist_eps o < 2 * e2 -> oo_handle_self_intersects o = false ->
  convex s ps -> passes_once (polygon ps) -> pline_index (polygon ps) idx -> pline_index (polygon qs) idx' ->
  inner_corners (polygon ps) (s * e1) (oo_pos_equal_eps o) qs -> lone_polygon (oo_pos_equal_eps o) qs -> (forall q, In q qs -> within_by s e1 ps q) ->
  inner_corners (polygon qs) (s * e2) (oo_pos_equal_eps o) rs -> lone_polygon (oo_pos_equal_eps o) rs -> (forall r, In r rs -> within_by s e2 qs r) ->
  parallel_offset mk (polygon ps) idx (s * e1) o = Ret [polygon qs]
  /\ parallel_offset mk (polygon qs) idx' (s * e2) o = Ret [polygon rs]
  /\ parallel_offset mk (polygon ps) idx (s * (e1 + e2)) o = Ret [polygon rs].
Proof. exact (convex_compose mk s ps qs rs e1 e2 o idx idx'). Qed.
Print Assumptions C82_convex.

(** The triangle of C69 by 1, the result by 1/2, and the triangle by 3/2. *)
Example C82_example : let p := polygon [V2 0 0; V2 8 0; V2 0 6] in let q := polygon [V2 1 1; V2 5 1; V2 1 4] in
  let r := polygon [V2 (3 / 2) (3 / 2); V2 (7 / 2) (3 / 2); V2 (3 / 2) 3] in let o := OO (1 / 100000) (1 / 10000) (1 / 10000) false in
  parallel_offset_constructed (@list_index R _) p 1 o = Ret [q]
  /\ parallel_offset_constructed (@list_index R _) q (1 / 2) o = Ret [r]
  /\ parallel_offset_constructed (@list_index R _) p (3 / 2) o = Ret [r].
Proof. exact tri_compose. Qed.
Print Assumptions C82_example.
