(** A triangle offset to its outer side (C70). *)
From Coq Require Import Reals ZArith Bool List Arith Lra Lia.
From Verif Require Import Num RNum Res ModelMath ModelSeg ModelPline ModelIndex ModelOffset.
From Verif Require Import Spec SpecGeom SpecIntr SpecBox SpecBoolean SpecView SpecPrune SpecIndex SpecCuts SpecOffset SpecOffNear SpecPolyOff SpecOffsetJoin SpecJordan SpecConvex SpecRound.
From Verif Require Import ProofR ProofBase ProofIter ProofArc ProofIntr ProofIndex2 ProofPolyOff ProofPolyOff2 ProofPolyOff3 ProofCircleOff ProofConvex ProofConvexOff ProofConvexEx ProofRound4.
Import ListNotations.
Local Open Scope R_scope.

Lemma tri_roomy : roomy 1 1 1 tri.
Proof.
  assert (D1 : dist (V2 0 0) (V2 8 0) = 8) by (unfold dist; cbn [vx vy]; replace (_ + _) with (8 * 8) by ring; apply sqrt_square; lra).
  assert (D2 : dist (V2 8 0) (V2 0 6) = 10) by (unfold dist; cbn [vx vy]; replace (_ + _) with (10 * 10) by ring; apply sqrt_square; lra).
  assert (D3 : dist (V2 0 6) (V2 0 0) = 6) by (unfold dist; cbn [vx vy]; replace (_ + _) with (6 * 6) by ring; apply sqrt_square; lra).
  split; [cbn; lia|]. split; [|split].
  - repeat constructor; cbn; intros I; repeat destruct I as [I|I]; try contradiction; pose proof (f_equal vx I); pose proof (f_equal vy I); cbn [vx vy] in *; lra.
  - intros a b c I J. cbn in I, J. destruct I as [I|[I|[I|[]]]]; injection I as <- <-; rewrite ?D1, ?D2, ?D3; destruct J as [<-|[<-|[<-|[]]]]; intros N1 N2; try (now destruct N1); try (now destruct N2); unfold cross, vec; cbn [vx vy]; lra.
  - intros i j a b c f. do 3 (destruct i as [|i]; [cbn [tri spec_segs tl app combine nth_error]; intros [= <- <-]; do 3 (destruct j as [|j]; [cbn [tri spec_segs tl app combine nth_error]; intros [= <- <-] N; try (now destruct N); rewrite ?D1, ?D2, ?D3; unfold vec; cbn [vx vy]; lra|]); cbn; destruct j; discriminate|]). cbn. destruct i; discriminate.
Qed.

Lemma tri_round : exists r,
  parallel_offset_constructed (@list_index R _) (polygon tri) (-1) rect_ex_opts = Ret [r]
  /\ (forall x, on_path r x -> exists q, on_path (polygon tri) q /\ dist x q = 1)
  /\ (forall x, ~ on_path r x -> (inside r x = true <-> inside (polygon tri) x = true \/ exists q, on_path (polygon tri) q /\ dist x q < 1))
  /\ inside r (V2 (-1 / 2) (-1 / 2)) = true /\ inside r (V2 (-9 / 10) (-9 / 10)) = false.
Proof.
  assert (Co : coarse (oo_pos_equal_eps rect_ex_opts) 1 1) by (cbn; repeat split; lra).
  assert (CD : forall a b, In (a, b) (spec_segs tri true) -> clear_direction a b).
  { intros a b I. cbn in I. destruct I as [I|[I|[I|[]]]]; injection I as <- <-; unfold clear_direction; cbn [vx vy]; [right; rewrite Rabs_pos_eq|right; rewrite Rabs_left|left]; lra. }
  destruct (round_exists 1 1 (oo_pos_equal_eps rect_ex_opts) 1 tri (or_introl eq_refl) tri_roomy Co) as (vws & RC).
  pose proof (fun idx PI => round_offset (@list_index R _) 1 tri 1 1 rect_ex_opts idx vws list_index_ok (or_introl eq_refl) tri_roomy Co CD ltac:(cbn; lra) ltac:(cbn; lra) eq_refl PI RC) as H.
  assert (Neg : - (1) * 1 = -1) by ring. 
  assert (E : parallel_offset_constructed (@list_index R _) (polygon tri) (-1) rect_ex_opts = Ret [round_path vws]).
  { apply (offsets_to_intro (@list_index R _) _ (-1) rect_ex_opts _ list_index_ok); [cbn; lia|]. intros idx PI. rewrite <- Neg. now apply H. }
  exists (round_path vws). split; [exact E|].
  assert (K : (forall x, on_path (round_path vws) x -> (forall q, on_path (polygon tri) q -> 1 <= dist x q) /\ exists q, on_path (polygon tri) q /\ dist x q = 1)
    /\ forall x, ~ on_path (round_path vws) x -> (inside (round_path vws) x = true <-> inside (polygon tri) x = true \/ exists q, on_path (polygon tri) q /\ dist x q < 1)).
  { split; [exact (rd_distance 1 1 (oo_pos_equal_eps rect_ex_opts) 1 tri vws (or_introl eq_refl) ltac:(lra) ltac:(lra) tri_roomy Co CD RC)|exact (rd_region 1 1 (oo_pos_equal_eps rect_ex_opts) 1 tri vws (or_introl eq_refl) ltac:(lra) ltac:(lra) tri_roomy Co CD RC)]. }
  destruct K as (K1 & K2). split; [intros x O; apply K1, O|]. split; [exact K2|].
  assert (C0 : on_path (polygon tri) (V2 0 0)).
  { apply polygon_path. exists (V2 0 0), (V2 8 0), 0. split; [cbn; auto|]. split; [lra|]. unfold line_pt. apply vec2_eq; cbn [vx vy]; lra. }
  split.
  - assert (D : dist (V2 (-1 / 2) (-1 / 2)) (V2 0 0) < 1). { unfold dist. cbn [vx vy]. apply Rlt_le_trans with (sqrt 1); [|rewrite sqrt_1; lra]. apply sqrt_lt_1_alt. lra. }
    apply K2; [|right; now exists (V2 0 0)]. intros O. destruct (K1 _ O) as (Q & _). specialize (Q _ C0). lra.
  - assert (F : forall q, on_path (polygon tri) q -> 1 < dist (V2 (-9 / 10) (-9 / 10)) q).
    { intros q O. assert (P : 0 <= vx q /\ 0 <= vy q).
      { apply polygon_path in O as (a & b & t & I & Ht & ->). cbn in I. destruct I as [I|[I|[I|[]]]]; injection I as <- <-; unfold line_pt; cbn [vx vy]; lra. }
      unfold dist. cbn [vx vy]. rewrite <- sqrt_1 at 1. apply sqrt_lt_1_alt. split; [lra|]. nra. }
    apply not_true_is_false. intros I. apply K2 in I as [I|(q & Oq & D)].
    + assert (N : ~ on_path (polygon tri) (V2 (-9 / 10) (-9 / 10))) by (intros O; apply F in O; replace (dist _ _) with 0 in O; [lra|]; symmetry; apply dist_eq_sqr; [lra|ring]).
      assert (V : valid_loop (polygon tri)) by (split; [cbn; lia|reflexivity]).
      pose proof (proj1 (convex_inside 1 tri (or_introl eq_refl) tri_convex V tri_once _ N) I (V2 0 0) (V2 8 0)) as Q. cbn in Q. specialize (Q (or_introl eq_refl)). unfold cross, vec in Q. cbn [vx vy] in Q. lra.
    + specialize (F q Oq). lra.
    + intros O. destruct (K1 _ O) as (_ & q & Oq & D). specialize (F q Oq). lra.
Qed.
