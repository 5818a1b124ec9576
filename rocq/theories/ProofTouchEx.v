(** A line that touches an arc, and an arc that touches a line (C47). *)
From Coq Require Import Reals ZArith Bool List Arith Lra Lia Psatz.
From Verif Require Import Num RNum Res ModelMath ModelIntr ModelSeg ModelPline ModelOffset.
From Verif Require Import Spec SpecGeom SpecIntr SpecOffset SpecSegIntr SpecOffsetJoin.
From Verif Require Import ProofR ProofBase ProofIntr ProofArc ProofMeasure ProofOffsetJoin ProofOffsetJoin2.
Import ListNotations.
Local Open Scope R_scope.

Lemma dome : is_arc (V2 1 0) (V2 (-1) 0) 1 (V2 0 0) 1 0.
Proof.
  unfold is_arc. rewrite atan_1_val, Rplus_0_l. unfold circle_pt. cbn [vx vy]. rewrite cos_0, sin_0, cos_PI, sin_PI.
  split; [lra|]. split; f_equal; ring.
Qed.

Lemma dome_top : seg_at (Vtx 1 0 1) (Vtx (-1) 0 0) (1 / 2) (V2 0 1).
Proof.
  right. cbn [pbulge]. split; [lra|]. exists (V2 0 0), 1, 0. split; [exact dome|]. rewrite atan_1_val. unfold circle_pt. cbn [vx vy].
  replace (0 + 1 / 2 * PI) with (PI / 2) by field. rewrite cos_PI2, sin_PI2. f_equal; ring.
Qed.

Lemma dome_ok : seg_ok (Vtx 1 0 1) (Vtx (-1) 0 0).
Proof.
  split; [right; cbn; rewrite Rabs_R1; lra|]. intros _ E. injection E. lra.
Qed.

Lemma roof_above a b k : line_pt (V2 a 1) (V2 b 1) k <> V2 0 1 -> 1 < dist (line_pt (V2 a 1) (V2 b 1) k) (V2 0 0).
Proof.
  unfold line_pt. cbn [vx vy]. intros N. set (x := a + k * (b - a)) in *. replace (1 + k * (1 - 1)) with 1 in * by ring.
  assert (X : x <> 0) by (intros E; apply N; rewrite E; reflexivity).
  unfold dist. cbn [vx vy]. rewrite <- sqrt_1 at 1. apply sqrt_lt_1; nra.
Qed.

Lemma touch_case_line : exists b,
  join_seg_pair false (1 / 1000) (PL [Vtx (-2) 1 0] false)
    (RS (Vtx (-2) 1 0) (Vtx 2 1 0) (V2 2 0) false, RS (Vtx 1 0 1) (Vtx (-1) 0 0) (V2 (-2) 0) false)
  = Ret (PL [Vtx (-2) 1 0; Vtx 0 1 b] false) /\ sweep b = PI / 2.
Proof.
  destruct (line_arc_touch (RS (Vtx (-2) 1 0) (Vtx 2 1 0) (V2 2 0) false) (RS (Vtx 1 0 1) (Vtx (-1) 0 0) (V2 (-2) 0) false) false (1 / 1000) [] (Vtx (-2) 1 0) false
    0 (1 / 2) (1 / 2) (V2 0 1) (V2 0 0) 1) as (vs & E & w & x & -> & W & X & (_ & _ & SW) & (_ & _ & SX)); cbn [rs_v1 rs_v2 pbulge] in *; try lra.
  - intros (A & _). unfold pos in A. cbn [vx px] in A. apply Rabs_def2 in A. lra.
  - right. unfold pos. cbn [vx px]. rewrite Rabs_pos_eq; lra.
  - exact dome_ok.
  - exists 0. exact dome.
  - apply drawn_line; [reflexivity|reflexivity| |]; apply seg_at_line; try reflexivity; unfold pos, line_pt; cbn; f_equal; lra.
  - apply seg_at_line; [reflexivity|]. unfold pos, line_pt; cbn; f_equal; lra.
  - exact dome_top.
  - intros (A & _). unfold pos in A. cbn [vx px] in A. apply Rabs_def2 in A. lra.
  - intros k. apply roof_above.
  - cbn [app] in E. rewrite E. destruct w as [wx wy wb], x as [xx xy xb]. unfold pos in W, X. cbn [px py pbulge] in *. injection W as -> ->. injection X as -> ->.
    exists xb. split; [|rewrite SX, atan_1_val; field]. do 4 f_equal.
    apply sweep_zero_iff. rewrite SW. replace (sweep 0) with 0; [ring|]. symmetry. now apply sweep_zero_iff.
Qed.

Lemma touch_case_arc : exists b,
  join_seg_pair false (1 / 1000) (PL [Vtx 1 0 1] false)
    (RS (Vtx 1 0 1) (Vtx (-1) 0 0) (V2 (-2) 0) false, RS (Vtx 2 1 0) (Vtx (-4) 1 0) (V2 (-4) 0) false)
  = Ret (PL [Vtx 1 0 b; Vtx 0 1 0] false) /\ sweep b = PI / 2.
Proof.
  destruct (arc_line_touch (RS (Vtx 1 0 1) (Vtx (-1) 0 0) (V2 (-2) 0) false) (RS (Vtx 2 1 0) (Vtx (-4) 1 0) (V2 (-4) 0) false) false (1 / 1000) [] (Vtx 1 0 1) false
    0 (1 / 2) (1 / 3) (V2 0 1) (V2 0 0) 1) as (vs & E & w & x & -> & W & X & (_ & _ & SW) & (_ & _ & SX)); cbn [rs_v1 rs_v2 pbulge] in *; try lra.
  - intros (A & _). unfold pos in A. cbn [vx px] in A. apply Rabs_def2 in A. lra.
  - right. unfold pos. cbn [vx px]. rewrite Rabs_left; lra.
  - exact dome_ok.
  - exists 0. exact dome.
  - split; [|split; [|cbn [pbulge]; ring]].
    + right. cbn [pbulge]. split; [lra|]. exists (V2 0 0), 1, 0. split; [exact dome|]. rewrite Rmult_0_l, Rplus_0_r. apply dome.
    + right. cbn [pbulge]. split; [lra|]. exists (V2 0 0), 1, 0. split; [exact dome|]. rewrite Rmult_1_l. apply dome.
  - exact dome_top.
  - apply seg_at_line; [reflexivity|]. unfold pos, line_pt; cbn; f_equal; lra.
  - intros (A & _). unfold pos in A. cbn [vx px] in A. apply Rabs_def2 in A. lra.
  - rewrite Rabs_R1. lra.
  - intros (A & _). unfold pos in A. cbn [vx px] in A. apply Rabs_def2 in A. lra.
  - intros k. apply roof_above.
  - cbn [app] in E. rewrite E. destruct w as [wx wy wb], x as [xx xy xb]. unfold pos in W, X. cbn [px py pbulge] in *. injection W as -> ->. injection X as -> ->.
    exists wb. split; [|rewrite SW, atan_1_val; field]. do 6 f_equal.
    apply sweep_zero_iff. rewrite SX. replace (sweep 0) with 0; [ring|]. symmetry. now apply sweep_zero_iff.
Qed.
