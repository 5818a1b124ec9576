(** An angle offset to its inner side, where one corner is rounded (C78). *)
From Coq Require Import Reals ZArith Bool List Arith Lra Lia Psatz.
From Verif Require Import Num RNum Res ModelMath ModelSeg ModelPline ModelIndex ModelOffset.
From Verif Require Import Spec SpecGeom SpecIntr SpecBox SpecBoolean SpecView SpecPrune SpecIndex SpecCuts SpecOffset SpecOffNear SpecPolyOff SpecOffsetJoin SpecJordan SpecConvex SpecRound SpecSegIntr SpecCurve SpecSimple.
From Verif Require Import ProofR ProofBase ProofIter ProofArc ProofIntr ProofIndex2 ProofPolyOff ProofPolyOff2 ProofPolyOff3 ProofCircleOff ProofArea6 ProofSteiner2 ProofPolyBool2 ProofOff7.
From Verif Require ProofConvex ProofJordan.
Import ListNotations.
Local Open Scope R_scope.

Lemma eighth : 2 / 5 <= tan (PI / 8) <= 1 /\ 4 * atan (tan (PI / 8)) = PI / 2.
Proof.
  pose proof PI_RGT_0 as P. split.
  - assert (C8 : cos (PI / 8) <> 0) by (apply Rgt_not_eq, cos_gt_0; lra). assert (C4 : cos (PI / 8 + PI / 8) <> 0) by (apply Rgt_not_eq, cos_gt_0; lra).
    assert (T0 : 0 < tan (PI / 8)) by (apply tan_gt_0; lra).
    assert (T1 : tan (PI / 8) < 1) by (rewrite <- tan_PI4; apply tan_increasing; lra).
    set (x := tan (PI / 8)) in *. assert (N : 1 - x * x <> 0) by (assert (x * x < 1 * 1) by (apply Rmult_gt_0_lt_compat; lra); lra).
    pose proof (tan_plus (PI / 8) (PI / 8) C8 C8 C4) as Q. fold x in Q. specialize (Q N). replace (PI / 8 + PI / 8) with (PI / 4) in Q by field. rewrite tan_PI4 in Q.
    pose proof (f_equal (fun w => w * (1 - x * x)) Q) as E. cbn beta in E. replace ((x + x) / (1 - x * x) * (1 - x * x)) with (x + x) in E by (field; exact N). split; [|lra]. apply Rnot_lt_le. intros L. assert (x * x < 2 / 5 * (2 / 5)) by (apply Rmult_gt_0_lt_compat; lra). lra.
  - rewrite atan_tan by lra. field.
Qed.

Section Angle.
Variable b : R.
Hypothesis B : 2 / 5 <= b <= 1.
Hypothesis Sb : 4 * atan b = PI / 2.
Let A1 := Vtx (3 / 2) 2 b.
Let A2 := Vtx 2 (3 / 2) 0.
Definition angle_corners : list (list (vertex R)) :=
  [[Vtx (1 / 2) (1 / 2) 0]; [Vtx (1 / 2) (7 / 2) 0]; [Vtx (3 / 2) (7 / 2) 0]; [Vtx (3 / 2) 2 b; Vtx 2 (3 / 2) 0]; [Vtx (7 / 2) (3 / 2) 0]; [Vtx (7 / 2) (1 / 2) 0]].
Definition angle_raw : pline R := PL [Vtx (1 / 2) (1 / 2) 0; Vtx (1 / 2) (7 / 2) 0; Vtx (3 / 2) (7 / 2) 0; Vtx (3 / 2) 2 b; Vtx 2 (3 / 2) 0; Vtx (7 / 2) (3 / 2) 0; Vtx (7 / 2) (1 / 2) 0] true.
Lemma angle_round : PL (going_round angle_corners) true = angle_raw. Proof. reflexivity. Qed.

Lemma angle_arc : is_arc (V2 (3 / 2) 2) (V2 2 (3 / 2)) b (V2 2 2) (1 / 2) PI.
Proof.
  split; [lra|]. unfold circle_pt, sweep. rewrite Sb. cbn [vx vy]. split; apply vec2_eq; cbn [vx vy]; rewrite ?cos_PI, ?sin_PI; try lra.
  - rewrite (Rplus_comm PI), neg_cos, cos_PI2. lra.
  - rewrite (Rplus_comm PI), neg_sin, sin_PI2. lra.
Qed.

Lemma angle_arc_at t q : 0 <= t <= 1 -> seg_at A1 A2 t q -> 3 / 2 <= vx q <= 2 /\ 3 / 2 <= vy q <= 2 /\ (vx q - 2) * (vx q - 2) + (vy q - 2) * (vy q - 2) = 1 / 4.
Proof.
  intros Ht [(Z & _)|(Nz & c & r & a & A & ->)]; [cbn in Z; lra|].
  destruct (arc_unique _ _ _ _ _ _ Nz A) as (Ec & Er). destruct (arc_unique _ _ _ _ _ _ Nz angle_arc) as (Ec' & Er'). unfold A1, A2, pos in Ec, Er. cbn [px py pbulge] in Ec, Er. cbn [pbulge A1] in Ec', Er'. rewrite <- Ec' in Ec. rewrite <- Er' in Er. subst c r.
  destruct A as (_ & X1 & _). cbn [pos A1 px py pbulge]. unfold sweep. rewrite Sb. unfold circle_pt in X1. cbn [pos A1 px py vx vy] in X1. pose proof (f_equal vx X1) as C. pose proof (f_equal vy X1) as S. cbn [pos A1 px py vx vy] in C, S.
  set (h := t * (PI / 2)). pose proof PI_RGT_0 as P. assert (H0 : 0 <= h) by (apply Rmult_le_pos; lra). assert (H1 : h <= PI / 2) by (unfold h; rewrite <- (Rmult_1_l (PI / 2)) at 2; apply Rmult_le_compat_r; lra).
  pose proof (cos_ge_0 h ltac:(lra) H1) as Ch. pose proof (sin_ge_0 h H0 ltac:(lra)) as Sh. pose proof (sin2_cos2 h) as SC. unfold Rsqr in SC. pose proof (COS_bound h). pose proof (SIN_bound h).
  unfold circle_pt. cbn [vx vy]. rewrite cos_plus, sin_plus. replace (cos a) with (-1) by lra. replace (sin a) with 0 by lra.
  split; [lra|]. split; [lra|]. lra.
Qed.

Lemma angle_arc_on q : on_seg A1 A2 q -> 3 / 2 <= vx q <= 2 /\ 3 / 2 <= vy q <= 2 /\ (vx q - 2) * (vx q - 2) + (vy q - 2) * (vy q - 2) = 1 / 4.
Proof. intros (t & Ht & H). now apply (angle_arc_at t). Qed.

Lemma line_on x1 y1 x2 y2 q : on_seg (Vtx x1 y1 0) (Vtx x2 y2 0) q -> exists t, 0 <= t <= 1 /\ vx q = x1 + t * (x2 - x1) /\ vy q = y1 + t * (y2 - y1).
Proof. intros (t & Ht & H). apply seg_at_line in H; [|reflexivity]. exists t. rewrite H. unfold line_pt, pos. cbn [vx vy px py]. auto. Qed.
Lemma line_on' x1 y1 x2 y2 b' q : on_seg (Vtx x1 y1 0) (Vtx x2 y2 b') q -> exists t, 0 <= t <= 1 /\ vx q = x1 + t * (x2 - x1) /\ vy q = y1 + t * (y2 - y1).
Proof. intros (t & Ht & H). apply seg_at_line in H; [|reflexivity]. exists t. rewrite H. unfold line_pt, pos. cbn [vx vy px py]. auto. Qed.

Lemma angle_circle c r : arc_circle A1 A2 c r -> c = V2 2 2 /\ r = 1 / 2.
Proof.
  intros (a & A). assert (Nz : pbulge A1 <> 0) by (cbn; lra). destruct (arc_unique _ _ _ _ _ _ Nz A) as (Ec & Er). destruct (arc_unique _ _ _ _ _ _ Nz angle_arc) as (Ec' & Er').
  unfold A1, A2, pos in Ec, Er. cbn [px py pbulge] in Ec, Er. cbn [pbulge A1] in Ec', Er'. rewrite <- Ec' in Ec. rewrite <- Er' in Er. auto.
Qed.

Lemma miss_arc x1 y1 x2 y2 b' : ~ is_point (V2 x1 y1) (V2 x2 y2) (1 / 100000) -> clear_direction (V2 x1 y1) (V2 x2 y2) ->
  (forall k, 1 <= Rabs (x1 + k * (x2 - x1) - 2) \/ 1 <= Rabs (y1 + k * (y2 - y1) - 2)) -> line_arc_clear (1 / 100000) (Vtx x1 y1 0) (Vtx x2 y2 b') A1 A2.
Proof.
  intros P C H. split; [exact P|]. split; [exact C|]. intros c r A. destruct (angle_circle c r A) as (-> & ->). left. exists 1. split; [lra|]. intros k.
  pose proof (ProofJordan.coord_dist (V2 2 2) (line_pt (pos (Vtx x1 y1 0)) (pos (Vtx x2 y2 b')) k)) as (D1 & D2). rewrite ProofJordan2.dist_sym in D1, D2. unfold line_pt, pos in *. cbn [vx vy px py] in *. destruct (H k); lra.
Qed.

Ltac on_facts := repeat match goal with
  | O : on_seg (Vtx (3 / 2) 2 b) (Vtx 2 (3 / 2) 0) _ |- _ => apply angle_arc_on in O; destruct O as (? & ? & ?)
  | O : on_seg _ _ _ |- _ => apply line_on' in O; destruct O as (? & ? & ? & ?) end.

Lemma angle_lone : lone_path (1 / 100000) angle_raw.
Proof.
  unfold lone_path, angle_raw. cbn [vtx is_closed length]. split; [reflexivity|]. split; [lia|]. split; [|split].
  - intros v1 v2 H. cbn in H. repeat (destruct H as [H|H]; [injection H as <- <-; split; [split; [cbn [pbulge]; first [left; reflexivity|right; rewrite Rabs_pos_eq by lra; lra]|cbn [pbulge]; intros E; first [now destruct E|unfold pos; cbn [px py]; intros Q; injection Q as Q1 Q2; lra]]|cbn [px py]; first [left; rabs_lra|right; rabs_lra]]|]). destruct H.
  - intros i v1 v2 v3. destruct i as [|[|[|[|[|[|[|i]]]]]]]; cbn; intros E1 E2; try discriminate; try (injection E1 as <- <-; injection E2 as <-).
    all: try (left; split; [reflexivity|]; split; [reflexivity|]; unfold cross, vec, pos; cbn [vx vy px py]; rabs_lra).
    + right. left. cbn [pbulge]. split; [reflexivity|]. split; [lra|]. split; [left; unfold pos; cbn [vx px py]; lra|]. exists (V2 2 2), (1 / 2). split; [exists PI; exact angle_arc|]. split; [unfold at_right_angles, vec, pos; cbn [vx vy px py]; lra|].
      pose proof (ProofJordan.coord_dist (V2 2 2) (pos (Vtx (3 / 2) (7 / 2) 0))) as (_ & D2). rewrite ProofJordan2.dist_sym in D2. unfold pos in *. cbn [vx vy px py] in *. eapply Rle_trans; [|exact D2]. rabs_lra.
    + right. right. cbn [pbulge]. split; [lra|]. split; [reflexivity|]. split; [right; unfold pos; cbn [vx px py]; rabs_lra|]. exists (V2 2 2), (1 / 2). split; [exists PI; exact angle_arc|]. unfold at_right_angles, vec, pos; cbn [vx vy px py]; lra.
    + destruct i; discriminate.
  - intros i j v1 v2 u1 u2.
    destruct i as [|[|[|[|[|[|[|i]]]]]]]; cbn -[Nat.modulo]; intros E1; [..|destruct i; discriminate]; destruct j as [|[|[|[|[|[|[|j]]]]]]]; cbn -[Nat.modulo]; intros E2; try (destruct j; discriminate); injection E1 as <- <-; injection E2 as <- <-; intros N1 N2 N3;
      try (exfalso; (now apply N1) || (now apply N2) || (now apply N3)); (split; [|intros q O1 O2; on_facts; lra]).
    all: unfold sides_clear; cbn [pbulge]; split; [|split; [|split]]; intros Z1 Z2; try (exfalso; lra).
    all: try (unfold lines_clear, pos; cbn [px py]; first [left; beside_with 1|left; beside_with (-1)|right; left; beside_with 1|right; left; beside_with (-1)]).
    all: apply miss_arc; [intros (P1 & P2); cbn [vx vy] in P1, P2; revert P1 P2; rabs_lra|unfold clear_direction; cbn [vx vy]; first [left; lra|right; rabs_lra]|intros k; first [left; rabs_lra|right; rabs_lra]].
Qed.
Lemma angle_made : made_corners (polygon ex_angle) (-1 / 2) (1 / 100000) angle_corners.
Proof.
  assert (LN : forall x1 y1 x2 y2 nx ny, nx * nx + ny * ny = 1 -> (x2 - x1) * nx + (y2 - y1) * ny = 0 -> 0 < (x2 - x1) * ny - (y2 - y1) * nx -> left_normal (V2 x1 y1) (V2 x2 y2) (V2 nx ny)).
  { intros. split; [assumption|]. split; assumption. }
  assert (MET : forall x1 y1 x2 y2 x3 y3 nx ny mx my t u qx qy, nx * nx + ny * ny = 1 -> (x2 - x1) * nx + (y2 - y1) * ny = 0 -> 0 < (x2 - x1) * ny - (y2 - y1) * nx ->
     mx * mx + my * my = 1 -> (x3 - x2) * mx + (y3 - y2) * my = 0 -> 0 < (x3 - x2) * my - (y3 - y2) * mx -> 0 <= t <= 1 -> 0 <= u <= 1 ->
     qx = x1 + -1 / 2 * nx + t * (x2 - x1) -> qy = y1 + -1 / 2 * ny + t * (y2 - y1) -> qx = x2 + -1 / 2 * mx + u * (x3 - x2) -> qy = y2 + -1 / 2 * my + u * (y3 - y2) ->
     1 / 100000 <= Rabs ((x2 - x1) * (y3 - y2) - (y2 - y1) * (x3 - x2)) -> corner_made (-1 / 2) (1 / 100000) (V2 x1 y1) (V2 x2 y2) (V2 x3 y3) [Vtx qx qy 0]).
  { intros. left. exists (V2 qx qy). split; [|reflexivity]. exists (V2 nx ny), (V2 mx my), t, u. split; [now apply LN|]. split; [now apply LN|]. split; [assumption|]. split; [assumption|].
    split; [unfold line_pt, moved; apply vec2_eq; cbn [vx vy]; lra|]. split; [unfold line_pt, moved; apply vec2_eq; cbn [vx vy]; lra|]. assumption. }
  split; [|split].
  - unfold polygon, ex_angle, angle_corners. cbn [vtx map spec_segs tl app combine with_previous last fst snd vertex_at pos px py vx vy]. unfold pos. cbn [px py vertex_at vx vy].
    constructor; [cbn; apply (MET 4 0 0 0 0 4 0 (-1) (-1) 0 (7 / 8) (1 / 8)); lra || rabs_lra|].
    constructor; [cbn; apply (MET 0 0 0 4 2 4 (-1) 0 0 1 (7 / 8) (1 / 4)); lra || rabs_lra|].
    constructor; [cbn; apply (MET 0 4 2 4 2 2 0 1 1 0 (3 / 4) (1 / 4)); lra || rabs_lra|].
    constructor.
    { cbn. right. eexists _, _. split; [|reflexivity]. exists (V2 1 0), (V2 0 1), PI. split; [apply LN; lra|]. split; [apply LN; lra|]. unfold cross, vec. cbn [vx vy]. split; [lra|]. split; [rabs_lra|]. split.
      - intros x ((s & Es) & (t & Et)). pose proof (f_equal vx Es) as X1. pose proof (f_equal vy Et) as Y1. unfold line_pt, moved in X1, Y1. cbn [vx vy] in X1, Y1.
        pose proof (ProofJordan.coord_dist (moved (V2 2 2) (V2 1 0) (-1 / 2)) x) as (_ & D). eapply Rle_trans; [|exact D]. unfold moved. cbn [vx vy]. rewrite Y1. rabs_lra.
      - unfold pos. cbn [px py]. split; [unfold moved; apply vec2_eq; cbn [vx vy]; lra|]. split; [unfold vertex_at, moved; cbn [vx vy]; f_equal; lra|]. replace (Rabs (-1 / 2)) with (1 / 2) by rabs_lra. split; [exact angle_arc|cbn [pbulge]; rewrite Rabs_pos_eq; lra]. }
    constructor; [cbn; apply (MET 2 2 4 2 4 0 0 1 1 0 (3 / 4) (1 / 4)); lra || rabs_lra|].
    constructor; [cbn; apply (MET 4 2 4 0 0 0 1 0 0 (-1) (3 / 4) (1 / 8)); lra || rabs_lra|]. constructor.
  - cbn. unfold pos. cbn [px py]. repeat (constructor; [cbn [fst snd px py]; intros (P1 & P2); cbn [vx vy] in P1, P2; revert P1 P2; rabs_lra|]). constructor.
  - cbn. intros a c n v [= <- <-] N [= <-]. unfold pos in *. cbn [px py vx vy vertex_at] in *. assert (N0 : n = V2 (-1) 0).
    { apply (ProofConvexOff.normal_unique (V2 0 0) (V2 0 4)); [exact N|]. apply LN; lra. }
    subst n. intros (P1 & P2). unfold moved in P1, P2. cbn [vx vy] in P1, P2. revert P1 P2. rabs_lra.
Qed.

Lemma angle_keeps q y : on_path angle_raw q -> on_path (polygon ex_angle) y -> 1 / 2 <= dist q y.
Proof.
  intros (v1 & v2 & I & O) Oy. apply ProofConvex.polygon_path in Oy as (c & e & t & J & Ht & ->). cbn [is_closed vtx angle_raw] in I.
  assert (CD : forall w z, 1 / 2 <= Rabs (vx z - vx w) \/ 1 / 2 <= Rabs (vy z - vy w) -> 1 / 2 <= dist w z) by (intros w z H; destruct (ProofJordan.coord_dist w z); lra).
  cbn in I, J. repeat (destruct I as [I|I]; [injection I as <- <-; on_facts|]); [..|destruct I].
  all: repeat (destruct J as [J|J]; [injection J as <- <-|]); try contradiction J.
  all: try (apply CD; unfold line_pt; cbn [vx vy]; first [left; rabs_lra|right; rabs_lra]).
  all: apply Rsqr_incr_0_var; [|apply sqrt_pos]; unfold Rsqr; rewrite dist_sqr; unfold line_pt; cbn [vx vy]; idtac.
  - assert (0 <= (2 - vy q) * (2 - 2 * t)) by (apply Rmult_le_pos; lra). assert (0 <= (2 - 2 * t) * (2 - 2 * t)) by (apply Rmult_le_pos; lra). lra.
  - assert (0 <= (2 - vx q) * (2 * t)) by (apply Rmult_le_pos; lra). assert (0 <= (2 * t) * (2 * t)) by (apply Rmult_le_pos; lra). lra.
Qed.

Lemma angle_area : area (polygon ex_angle) = Ret (-12).
Proof. rewrite polygon_area. f_equal. unfold ex_angle, cross. cbn. lra. Qed.

Lemma angle_whole idx : pline_index (polygon ex_angle) idx ->
  parallel_offset (@list_index R _) (polygon ex_angle) idx (-1 / 2) rect_ex_opts = Ret [angle_raw] /\ passes_once angle_raw
  /\ forall x, ~ on_path angle_raw x -> (inside angle_raw x = true <-> ~ on_path (polygon ex_angle) x /\ inside (polygon ex_angle) x = true /\ forall y, on_path (polygon ex_angle) y -> 1 / 2 < dist x y).
Proof.
  intros PI. assert (Ab : Rabs (-1 / 2) = 1 / 2) by rabs_lra.
  pose proof (simple_offset (@list_index R _) ex_angle idx (-1 / 2) rect_ex_opts angle_corners (-12) list_index_ok PI ltac:(cbn; lra) eq_refl ltac:(cbn; lra)) as H. cbv zeta in H. rewrite Ab in H. rewrite angle_round in H.
  destruct H as (H1 & H2 & H3 & _); [cbn; lra|apply (lone_once (1 / 100000)); [lra|exact ex_angle_lone]|exact angle_area|exact angle_made|exact angle_lone|exact angle_keeps|].
  split; [exact H1|]. split; [exact H2|]. apply H3. lra.
Qed.
End Angle.

Lemma angle_example : let r := angle_raw (tan (PI / 8)) in
  parallel_offset_constructed (@list_index R _) (polygon ex_angle) (-1 / 2) rect_ex_opts = Ret [r] /\ passes_once r
  /\ (forall x, ~ on_path r x -> (inside r x = true <-> ~ on_path (polygon ex_angle) x /\ inside (polygon ex_angle) x = true /\ forall y, on_path (polygon ex_angle) y -> 1 / 2 < dist x y)).
Proof.
  intros r. destruct eighth as (B & S). split.
  - apply (offsets_to_intro (@list_index R _) _ (-1 / 2) rect_ex_opts _ list_index_ok); [cbn; lia|]. intros idx PI. exact (proj1 (angle_whole _ B S idx PI)).
  - destruct (angle_whole _ B S (list_index (boxes_of (polygon ex_angle)))) as (_ & H); [apply list_index_ok|]. exact H.
Qed.
