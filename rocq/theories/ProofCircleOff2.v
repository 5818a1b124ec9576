(** The offset of a circle (C59): the statements and an example. *)
From Coq Require Import Reals ZArith Bool List Arith Lra Lia.
From Verif Require Import Num RNum Res ModelMath ModelSeg ModelPline ModelIndex ModelOffset.
From Verif Require Import Spec SpecGeom SpecIndex SpecOffset SpecOffsetJoin SpecCircle ProofR ProofIndex2 ProofCircleOff.
Import ListNotations.
Local Open Scope R_scope.

Lemma circle_offset' mk c u r b d o idx : makes_index mk -> unit_vec u -> b = 1 \/ b = -1 -> 0 < r ->
  0 < oo_pos_equal_eps o -> 0 < oo_slice_join_eps o -> 0 < oo_offset_dist_eps o < 2 * Rabs d -> oo_handle_self_intersects o = false ->
  2 * oo_pos_equal_eps o <= r - b * d -> 1 / 100000000 <= r - b * d -> pline_index (circle c u r b) idx ->
  parallel_offset mk (circle c u r b) idx d o = Ret [circle c u (r - b * d) b].
Proof. intros MK Hu Hb Hr He Hj Ho HS H1 H2 IDX. now apply circle_offset. Qed.

Lemma circle_gone' mk c u r b d o idx : makes_index mk -> unit_vec u -> b = 1 \/ b = -1 -> 0 < r ->
  0 < oo_pos_equal_eps o -> 0 < oo_offset_dist_eps o <= 2 * r -> oo_handle_self_intersects o = false ->
  2 * oo_pos_equal_eps o <= b * d - r -> oo_offset_dist_eps o <= 2 * (b * d - r) -> pline_index (circle c u r b) idx ->
  parallel_offset mk (circle c u r b) idx d o = Ret [].
Proof. intros MK Hu Hb Hr He Ho HS H1 H2 IDX. apply circle_gone; auto; lra. Qed.

Definition circle_ex_opts : offset_options R := OO (1 / 100000) (1 / 10000) (1 / 10000) false.

Lemma circle_ex_all : let p := circle (V2 1 2) (V2 (3/5) (4/5)) 5 1 in
  p = PL [Vtx 4 6 1; Vtx (-2) (-2) 1] true
  /\ parallel_offset_constructed (@list_index R _) p 2 circle_ex_opts = Ret [PL [Vtx (14/5) (22/5) 1; Vtx (-4/5) (-2/5) 1] true]
  /\ parallel_offset_constructed (@list_index R _) p 6 circle_ex_opts = Ret []
  /\ parallel_offset_constructed (@list_index R _) p (-2) circle_ex_opts = Ret [PL [Vtx (26/5) (38/5) 1; Vtx (-16/5) (-18/5) 1] true].
Proof.
  cbv zeta. assert (U : unit_vec (V2 (3/5) (4/5))) by (unfold unit_vec; cbn; lra).
  assert (C : forall d l, (forall idx, pline_index (circle (V2 1 2) (V2 (3/5) (4/5)) 5 1) idx -> parallel_offset (@list_index R _) (circle (V2 1 2) (V2 (3/5) (4/5)) 5 1) idx d circle_ex_opts = Ret l) ->
    parallel_offset_constructed (@list_index R _) (circle (V2 1 2) (V2 (3/5) (4/5)) 5 1) d circle_ex_opts = Ret l).
  { intros d l H. apply (offsets_to_intro (@list_index R _) _ d circle_ex_opts l list_index_ok); [cbn; lia|exact H]. }
  split; [|split; [|split]].
  - unfold circle, vertex_at, moved. cbn [vx vy]. f_equal. f_equal; [|f_equal]; f_equal; field.
  - apply C. intros idx IDX. rewrite (circle_offset' (@list_index R _) (V2 1 2) (V2 (3/5) (4/5)) 5 1 2); try exact IDX; try exact U; try exact list_index_ok; try reflexivity; try (left; reflexivity); cbn [circle_ex_opts oo_pos_equal_eps oo_slice_join_eps oo_offset_dist_eps]; try lra.
    + unfold circle, vertex_at, moved. cbn [vx vy]. f_equal. f_equal. f_equal. f_equal; [|f_equal]; f_equal; field.
    + rewrite Rabs_pos_eq; lra.
  - apply C. intros idx IDX. apply circle_gone'; try exact IDX; try exact U; try exact list_index_ok; try reflexivity; try (left; reflexivity); cbn [circle_ex_opts oo_pos_equal_eps oo_slice_join_eps oo_offset_dist_eps]; lra.
  - apply C. intros idx IDX. rewrite (circle_offset' (@list_index R _) (V2 1 2) (V2 (3/5) (4/5)) 5 1 (-2)); try exact IDX; try exact U; try exact list_index_ok; try reflexivity; try (left; reflexivity); cbn [circle_ex_opts oo_pos_equal_eps oo_slice_join_eps oo_offset_dist_eps]; try lra.
    + unfold circle, vertex_at, moved. cbn [vx vy]. f_equal. f_equal. f_equal. f_equal; [|f_equal]; f_equal; field.
    + rewrite Rabs_left; lra.
Qed.
