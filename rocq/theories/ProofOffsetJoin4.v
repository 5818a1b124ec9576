(** Corners of two lines in a raw offset (C47). *)
From Coq Require Import Reals ZArith Bool List Arith Lra Lia Psatz.
From Verif Require Import Num RNum Res ModelMath ModelIntr ModelSeg ModelPline ModelView ModelSegIntr ModelIndex ModelIntersects ModelBoolean ModelOffset.
From Verif Require Import Spec SpecGeom SpecIntr SpecOffset SpecSegIntr SpecOffsetJoin.
From Verif Require Import ProofR ProofBase ProofIter ProofArc ProofArc2 ProofSlice ProofIntr ProofRepeat ProofMeasure ProofClosest ProofRedundantR ProofSegIntr ProofSegIntr2 ProofSegIntr5 ProofOffset1 ProofOffsetJoin ProofOffsetJoin2 ProofOffsetJoin3.
Import ListNotations.
Local Open Scope R_scope.

Lemma left_normal_exists p q : p <> q -> left_normal p q (V2 (- (vy q - vy p) / dist p q) ((vx q - vx p) / dist p q)).
Proof.
  intros H. pose proof (vec2_neq _ _ H) as N.
  assert (D : dist p q * dist p q = (vx q - vx p) * (vx q - vx p) + (vy q - vy p) * (vy q - vy p)) by (rewrite dist_sqr; ring).
  assert (P : 0 < dist p q).
  { destruct (Rle_lt_or_eq_dec _ _ (dist_pos p q)) as [L|E]; [exact L|]. exfalso. assert (D' : (vx q - vx p) * (vx q - vx p) + (vy q - vy p) * (vy q - vy p) = 0) by (rewrite <- D; rewrite <- E; ring).
    pose proof (Rle_0_sqr (vx q - vx p)) as X. pose proof (Rle_0_sqr (vy q - vy p)) as Y. unfold Rsqr in X, Y.
    assert (X0 : (vx q - vx p) * (vx q - vx p) = 0) by lra. assert (Y0 : (vy q - vy p) * (vy q - vy p) = 0) by lra.
    destruct N as [N|N]; apply N; [apply Rmult_integral in X0|apply Rmult_integral in Y0]; lra. }
  unfold left_normal, cross, vec. cbn [vx vy]. repeat split.
  - apply Rmult_eq_reg_r with (dist p q * dist p q); [|nra]. rewrite Rmult_1_l. transitivity ((vx q - vx p) * (vx q - vx p) + (vy q - vy p) * (vy q - vy p)); [field; lra|lra].
  - field. lra.
  - replace ((vx q - vx p) * ((vx q - vx p) / dist p q) - (vy q - vy p) * (- (vy q - vy p) / dist p q)) with (dist p q); [exact P|].
    apply Rmult_eq_reg_r with (dist p q); [|lra]. transitivity ((vx q - vx p) * (vx q - vx p) + (vy q - vy p) * (vy q - vy p)); [lra|field; lra].
Qed.

Lemma raw_line_val d v1 v2 n : pos v1 <> pos v2 -> left_normal (pos v1) (pos v2) n ->
  raw_line_seg d v1 v2 = RS (vertex_at (moved (pos v1) n d) 0) (vertex_at (moved (pos v2) n d) 0) (pos v2) false.
Proof.
  intros H Hn. destruct (raw_line_ok d v1 v2 H) as ((B & M) & O & C). destruct (M n Hn) as [M1 M2].
  destruct (raw_line_seg d v1 v2) as [w1 w2 o c] eqn:E. cbn [rs_v1 rs_v2 rs_orig_v2_pos rs_collapsed_arc] in *.
  assert (B2 : pbulge w2 = 0). { unfold raw_line_seg, from_vector2 in E. injection E. intros _ _ <- _. reflexivity. }
  rewrite <- M1, <- M2, O, C. f_equal.
  - destruct w1. unfold vertex_at, pos. cbn in *. congruence.
  - destruct w2. unfold vertex_at, pos. cbn in *. congruence.
Qed.

Lemma corner_bulge_le c left p q b : corner_bulge c left p q b -> Rabs b <= 1.
Proof.
  intros (r & a & th & _ & _ & _ & B & E). pose proof PI_pos.
  assert (Q : - PI <= sweep b <= PI).
  { rewrite E. destruct left; unfold Rabs; destruct (Rcase_abs th); lra. }
  unfold sweep in Q. apply Rabs_le.
  assert (A1 : atan 1 = PI / 4) by apply atan_1.
  split; apply Rnot_lt_le; intros L; apply atan_increasing in L; [rewrite atan_opp in L|]; lra.
Qed.

(** Two directions [e1] and [e2] of unit length, a corner [P] with sides of lengths [L1] and [L2]. *)
Section Corner.
Variables (e1 e2 P : vec2 R) (L1 L2 d : R).
Hypotheses (U1 : vx e1 * vx e1 + vy e1 * vy e1 = 1) (U2 : vx e2 * vx e2 + vy e2 * vy e2 = 1) (HL1 : 0 < L1) (HL2 : 0 < L2).
Let S := cross e1 e2.
Let C := vx e1 * vx e2 + vy e1 * vy e2.
Hypothesis HS : S <> 0.
Let A := V2 (vx P - L1 * vx e1) (vy P - L1 * vy e1).
Let B := V2 (vx P + L2 * vx e2) (vy P + L2 * vy e2).
Let n1 := V2 (- vy e1) (vx e1).
Let n2 := V2 (- vy e2) (vx e2).
Let g := d * S / (1 + C).
Let x := V2 (vx P + d * (vx n1 + vx n2) / (1 + C)) (vy P + d * (vy n1 + vy n2) / (1 + C)).

Lemma corner_SC : S * S + C * C = 1.
Proof.
  unfold S, C, cross. transitivity ((vx e1 * vx e1 + vy e1 * vy e1) * (vx e2 * vx e2 + vy e2 * vy e2)); [ring|]. rewrite U1, U2. ring.
Qed.

Lemma corner_C : 0 < 1 + C.
Proof. pose proof corner_SC. assert (0 < S * S) by nra. nra. Qed.

Lemma corner_ne : vx n2 * vx e1 + vy n2 * vy e1 = - S /\ vx n1 * vx e2 + vy n1 * vy e2 = S.
Proof. unfold n1, n2, S, cross. cbn [vx vy]. split; ring. Qed.

(** [x - v2 = - g e1] and [x - u1 = g e2]. *)
Lemma mitre1 : x = V2 (vx P + d * vx n1 - g * vx e1) (vy P + d * vy n1 - g * vy e1).
Proof.
  pose proof corner_C as HC. unfold x, g. apply vec2_eq; cbn [vx vy].
  - apply Rmult_eq_reg_r with (1 + C); [|lra].
    replace ((vx P + d * (vx n1 + vx n2) / (1 + C)) * (1 + C)) with (vx P * (1 + C) + d * (vx n1 + vx n2)) by (field; lra).
    replace ((vx P + d * vx n1 - d * S / (1 + C) * vx e1) * (1 + C)) with (vx P * (1 + C) + d * (vx n1 * (1 + C) - S * vx e1)) by (field; lra).
    f_equal. f_equal. unfold n1, n2, S, C, cross. cbn [vx vy].
    transitivity (- vy e1 - vy e2 * (vx e1 * vx e1 + vy e1 * vy e1)); [rewrite U1; ring|ring].
  - apply Rmult_eq_reg_r with (1 + C); [|lra].
    replace ((vy P + d * (vy n1 + vy n2) / (1 + C)) * (1 + C)) with (vy P * (1 + C) + d * (vy n1 + vy n2)) by (field; lra).
    replace ((vy P + d * vy n1 - d * S / (1 + C) * vy e1) * (1 + C)) with (vy P * (1 + C) + d * (vy n1 * (1 + C) - S * vy e1)) by (field; lra).
    f_equal. f_equal. unfold n1, n2, S, C, cross. cbn [vx vy].
    transitivity (vx e1 + vx e2 * (vx e1 * vx e1 + vy e1 * vy e1)); [rewrite U1; ring|ring].
Qed.

Lemma mitre2 : x = V2 (vx P + d * vx n2 + g * vx e2) (vy P + d * vy n2 + g * vy e2).
Proof.
  pose proof corner_C as HC. unfold x, g. apply vec2_eq; cbn [vx vy].
  - apply Rmult_eq_reg_r with (1 + C); [|lra].
    replace ((vx P + d * (vx n1 + vx n2) / (1 + C)) * (1 + C)) with (vx P * (1 + C) + d * (vx n1 + vx n2)) by (field; lra).
    replace ((vx P + d * vx n2 + d * S / (1 + C) * vx e2) * (1 + C)) with (vx P * (1 + C) + d * (vx n2 * (1 + C) + S * vx e2)) by (field; lra).
    f_equal. f_equal. unfold n1, n2, S, C, cross. cbn [vx vy].
    transitivity (- vy e2 - vy e1 * (vx e2 * vx e2 + vy e2 * vy e2)); [rewrite U2; ring|ring].
  - apply Rmult_eq_reg_r with (1 + C); [|lra].
    replace ((vy P + d * (vy n1 + vy n2) / (1 + C)) * (1 + C)) with (vy P * (1 + C) + d * (vy n1 + vy n2)) by (field; lra).
    replace ((vy P + d * vy n2 + d * S / (1 + C) * vy e2) * (1 + C)) with (vy P * (1 + C) + d * (vy n2 * (1 + C) + S * vy e2)) by (field; lra).
    f_equal. f_equal. unfold n1, n2, S, C, cross. cbn [vx vy].
    transitivity (vx e2 + vx e1 * (vx e2 * vx e2 + vy e2 * vy e2)); [rewrite U2; ring|ring].
Qed.

Lemma mitre_on1 : x = line_pt (moved A n1 d) (moved P n1 d) (1 - g / L1).
Proof.
  rewrite mitre1. unfold line_pt, moved, A. cbn [vx vy]. apply vec2_eq; cbn [vx vy]; field; lra.
Qed.

Lemma mitre_on2 : x = line_pt (moved P n2 d) (moved B n2 d) (g / L2).
Proof.
  rewrite mitre2. unfold line_pt, moved, B. cbn [vx vy]. apply vec2_eq; cbn [vx vy]; field; lra.
Qed.

Lemma mitre_dist : dist x (moved P n1 d) = Rabs g /\ dist x (moved P n2 d) = Rabs g.
Proof.
  assert (AA : Rabs g * Rabs g = g * g) by (rewrite <- Rabs_mult; apply Rabs_pos_eq; nra).
  split; apply dist_eq_sqr; try apply Rabs_pos; rewrite AA.
  - rewrite mitre1. unfold moved. cbn [vx vy]. transitivity (g * g * (vx e1 * vx e1 + vy e1 * vy e1)); [ring|rewrite U1; ring].
  - rewrite mitre2. unfold moved. cbn [vx vy]. transitivity (g * g * (vx e2 * vx e2 + vy e2 * vy e2)); [ring|rewrite U2; ring].
Qed.

Lemma corner_lengths : dist (moved A n1 d) (moved P n1 d) = L1 /\ dist (moved P n2 d) (moved B n2 d) = L2.
Proof.
  split; apply dist_eq_sqr; try lra; unfold moved, A, B; cbn [vx vy].
  - transitivity (L1 * L1 * (vx e1 * vx e1 + vy e1 * vy e1)); [ring|rewrite U1; ring].
  - transitivity (L2 * L2 * (vx e2 * vx e2 + vy e2 * vy e2)); [ring|rewrite U2; ring].
Qed.

Lemma corner_normals : left_normal A P n1 /\ left_normal P B n2.
Proof.
  unfold left_normal, cross, vec, A, B, n1, n2. cbn [vx vy]. repeat split; try lra; try nra; try ring.
Qed.

(** The arc of a corner turned away from the offset. *)
Lemma corner_arc (ccw : bool) : d <> 0 -> d * S < 0 -> (ccw = true <-> d < 0) ->
  exists a, is_arc (moved P n1 d) (moved P n2 d) (bulge_for_connection P (moved P n1 d) (moved P n2 d) ccw) P (Rabs d) a
    /\ Rabs (bulge_for_connection P (moved P n1 d) (moved P n2 d) ccw) <= 1.
Proof.
  intros Hd Ht Hc. pose proof corner_SC as SC. pose proof PI_pos as HPI.
  assert (Hr : 0 < Rabs d) by now apply Rabs_pos_lt.
  assert (Hp : moved P n1 d <> P).
  { intros E. pose proof (f_equal vx E) as E1. pose proof (f_equal vy E) as E2. unfold moved, n1 in E1, E2. cbn [vx vy] in E1, E2.
    assert (Z1 : vx e1 = 0) by (apply Rmult_eq_reg_l with d; [lra|exact Hd]).
    assert (Z2 : vy e1 = 0) by (apply Rmult_eq_reg_l with d; [lra|exact Hd]). rewrite Z1, Z2 in U1. lra. }
  destruct (on_circle P (moved P n1 d) Hp) as (a & Ea & _ & _).
  assert (DD : dist (moved P n1 d) P = Rabs d).
  { apply dist_eq_sqr; [lra|]. unfold moved, n1. cbn [vx vy]. rewrite <- Rabs_mult, (Rabs_pos_eq (d * d)) by nra.
    transitivity (d * d * (vx e1 * vx e1 + vy e1 * vy e1)); [ring|rewrite U1; ring]. }
  rewrite DD in Ea.
  assert (HCS : V2 C S <> V2 0 0). { intros E. pose proof (f_equal vy E) as E1. cbn [vx vy] in E1. lra. }
  destruct (on_circle (V2 0 0) (V2 C S) HCS) as (th & Eth & Ath & _).
  assert (D1 : dist (V2 C S) (V2 0 0) = 1) by (apply dist_eq_sqr; [lra|]; cbn [vx vy]; lra). rewrite D1 in Eth.
  unfold circle_pt in Eth. cbn [vx vy] in Eth. pose proof (f_equal vx Eth) as Ec. pose proof (f_equal vy Eth) as Es. cbn [vx vy] in Ec, Es.
  rewrite Rplus_0_l, Rmult_1_l in Ec, Es.
  assert (Bth : - PI < th <= PI). { rewrite Ath. destruct (angle_spec (V2 0 0) (V2 C S) HCS) as (_ & _ & _ & _ & B'). exact B'. }
  assert (E2 : moved P n2 d = circle_pt P (Rabs d) (a + th)).
  { unfold circle_pt in Ea |- *. pose proof (f_equal vx Ea) as X. pose proof (f_equal vy Ea) as Y. unfold moved in X, Y |- *. cbn [vx vy] in X, Y.
    rewrite cos_plus, sin_plus, <- Ec, <- Es.
    apply vec2_eq; cbn [vx vy].
    - transitivity (vx P + ((Rabs d * cos a) * C - (Rabs d * sin a) * S)); [|ring].
      assert (X' : Rabs d * cos a = d * vx n1) by lra. assert (Y' : Rabs d * sin a = d * vy n1) by lra. rewrite X', Y'.
      unfold n1, n2, S, C, cross. cbn [vx vy]. f_equal.
      transitivity (d * - vy e2 * (vx e1 * vx e1 + vy e1 * vy e1)); [rewrite U1; ring|ring].
    - transitivity (vy P + ((Rabs d * sin a) * C + (Rabs d * cos a) * S)); [|ring].
      assert (X' : Rabs d * cos a = d * vx n1) by lra. assert (Y' : Rabs d * sin a = d * vy n1) by lra. rewrite X', Y'.
      unfold n1, n2, S, C, cross. cbn [vx vy]. f_equal.
      transitivity (d * vx e2 * (vx e1 * vx e1 + vy e1 * vy e1)); [rewrite U1; ring|ring]. }
  exists a. split.
  2:{ apply (corner_bulge_le P ccw (moved P n1 d) (moved P n2 d)). apply connection_bulge; [exact Hp|]. rewrite DD. apply dist_eq_sqr; [lra|]. unfold moved, n2. cbn [vx vy].
    rewrite <- Rabs_mult, (Rabs_pos_eq (d * d)) by nra. transitivity (d * d * (vx e2 * vx e2 + vy e2 * vy e2)); [ring|rewrite U2; ring]. }
  rewrite Ea at 1 2. rewrite E2. apply corner_ok; [exact Hr|lra|].
  destruct ccw.
  - assert (d < 0) by now apply Hc. assert (0 < S) by nra. destruct (Rle_dec 0 th) as [|N]; [assumption|]. exfalso.
    assert (sin th < 0) by (apply sin_lt_0_var; lra). lra.
  - assert (0 < d). { destruct (Rtotal_order d 0) as [L|[L|L]]; [|contradiction|exact L]. assert (false = true) by now apply Hc. discriminate. }
    assert (S < 0) by nra. destruct (Rlt_dec th 0) as [|N]; [assumption|]. exfalso.
    assert (0 <= sin th) by (apply sin_ge_0; lra). lra.
Qed.
End Corner.

Lemma unit_of p q : p <> q -> exists e L, 0 < L /\ vx e * vx e + vy e * vy e = 1
  /\ q = V2 (vx p + L * vx e) (vy p + L * vy e) /\ p = V2 (vx q - L * vx e) (vy q - L * vy e) /\ L = dist p q
  /\ forall n, left_normal p q n -> n = V2 (- vy e) (vx e).
Proof.
  intros H. destruct (left_normal_exists p q H) as (A1 & A2 & A3). cbn [vx vy] in A1, A2, A3.
  assert (P : 0 < dist p q).
  { destruct (Rle_lt_or_eq_dec _ _ (dist_pos p q)) as [L|E]; [exact L|]. exfalso. unfold cross in A3. cbn [vx vy] in A3.
    rewrite <- E in A3. unfold Rdiv in A3. rewrite Rinv_0, !Rmult_0_r in A3. lra. }
  exists (V2 ((vx q - vx p) / dist p q) ((vy q - vy p) / dist p q)), (dist p q). cbn [vx vy].
  split; [exact P|]. split. { rewrite <- A1. field. lra. }
  split. { apply vec2_eq; cbn [vx vy]; field; lra. }
  split. { apply vec2_eq; cbn [vx vy]; field; lra. }
  split; [reflexivity|]. intros n Hn.
  rewrite (left_normal_val _ _ _ H Hn). apply vec2_eq; cbn [vx vy]; field; lra.
Qed.

Lemma join_lines s1 s2 p q r n1 n2 d ccw eps pl : line_raw s1 p q n1 d -> line_raw s2 q r n2 d ->
  join_seg_pair ccw eps pl (s1, s2) = Ret (line_line_join s1 s2 ccw eps pl).
Proof.
  intros H1 H2. unfold join_seg_pair.
  destruct H1 as (_ & E1 & _). destruct H2 as (_ & E2 & _).
  rewrite (is_zero_line (rs_v1 s1)) by (rewrite E1; reflexivity). rewrite (is_zero_line (rs_v1 s2)) by (rewrite E2; reflexivity). reflexivity.
Qed.

Lemma line_corner s1 s2 p q r n1 n2 d ccw eps pl : 0 < eps -> d <> 0 -> (ccw = true <-> d < 0) ->
  eps <= Rabs (cross (vec p q) (vec q r)) -> line_raw s1 p q n1 d -> line_raw s2 q r n2 d ->
  exists x pl', join_seg_pair ccw eps pl (s1, s2) = Ret pl' /\ is_closed pl' = is_closed pl
  /\ mitre p q r n1 n2 d x /\ corner_join p q r n1 n2 d eps x (vtx pl) (vtx pl').
Proof.
  intros He Hd Hccw Hc R1 R2. rewrite (join_lines _ _ _ _ _ _ _ _ ccw eps pl R1 R2).
  assert (Npq : p <> q). { intros ->. revert Hc. unfold cross, vec. cbn [vx vy]. replace (_ - _) with 0 by ring. rewrite Rabs_R0. lra. }
  assert (Nqr : q <> r). { intros ->. revert Hc. unfold cross, vec. cbn [vx vy]. replace (_ - _) with 0 by ring. rewrite Rabs_R0. lra. }
  destruct R1 as (N1 & V1 & V2' & O1 & C1). destruct R2 as (N2 & W1 & W2 & O2 & C2).
  destruct (unit_of p q Npq) as (e1 & L1 & HL1 & U1 & Eq & Ep & D1 & M1). destruct (unit_of q r Nqr) as (e2 & L2 & HL2 & U2 & Er & _ & D2 & M2).
  pose proof (M1 n1 N1) as Z1. pose proof (M2 n2 N2) as Z2. clear M1 M2.
  assert (EC : cross (vec p q) (vec q r) = L1 * L2 * cross e1 e2).
  { rewrite Ep, Er. unfold cross, vec. cbn [vx vy]. ring. }
  rewrite EC in Hc.
  assert (HLL : 0 < L1 * L2) by nra.
  assert (HS : cross e1 e2 <> 0). { intros E. rewrite E, Rmult_0_r, Rabs_R0 in Hc. lra. }
  set (C := vx e1 * vx e2 + vy e1 * vy e2). set (g := d * cross e1 e2 / (1 + C)).
  set (x := V2 (vx q + d * (vx n1 + vx n2) / (1 + C)) (vy q + d * (vy n1 + vy n2) / (1 + C))).
  assert (HC : 0 < 1 + C) by (apply (corner_C e1 e2); assumption).
  assert (X1 : x = line_pt (moved p n1 d) (moved q n1 d) (1 - g / L1)).
  { unfold x. rewrite Z1, Z2, Ep. exact (mitre_on1 e1 e2 q L1 d U1 U2 HL1 HS). }
  assert (X2 : x = line_pt (moved q n2 d) (moved r n2 d) (g / L2)).
  { unfold x. rewrite Z1, Z2, Er. exact (mitre_on2 e1 e2 q L2 d U1 U2 HL2 HS). }
  destruct (mitre_dist e1 e2 q d U1 U2 HS) as [DX1 DX2].
  assert (DY1 : dist (moved q n1 d) x = Rabs g) by (rewrite dist_sym; unfold x; rewrite Z1, Z2; exact DX1).
  assert (DY2 : dist (moved q n2 d) x = Rabs g) by (rewrite dist_sym; unfold x; rewrite Z1, Z2; exact DX2).
  clear DX1 DX2.
  destruct (corner_lengths e1 e2 q L1 L2 d U1 U2 HL1 HL2) as [DL1 DL2].
  assert (DM1 : dist (moved p n1 d) (moved q n1 d) = L1) by (rewrite Z1, Ep; exact DL1).
  assert (DM2 : dist (moved q n2 d) (moved r n2 d) = L2) by (rewrite Z2, Er; exact DL2). clear DL1 DL2.
  assert (Hc' : eps <= Rabs (cross (vec (moved p n1 d) (moved q n1 d)) (vec (moved q n2 d) (moved r n2 d)))).
  { replace (cross _ _) with (L1 * L2 * cross e1 e2); [exact Hc|]. rewrite <- EC. unfold cross, vec, moved. cbn [vx vy]. ring. }
  destruct (line_line_nonparallel _ _ _ _ eps He Hc') as (s & t & Est & Ust & K).
  destruct (Ust (1 - g / L1) (g / L2)) as [Es Et]; [rewrite <- X1; exact X2|]. rewrite <- Es, <- Et in K. clear s t Est Ust Es Et.
  rewrite DM1, DM2 in K.
  assert (R1 : in_range (1 - g / L1) L1 eps <-> - eps < g < L1 + eps).
  { unfold in_range. replace ((1 - g / L1) * L1) with (L1 - g) by (field; lra). split; intros; lra. }
  assert (R2 : in_range (g / L2) L2 eps <-> - eps < g < L2 + eps).
  { unfold in_range. replace (g / L2 * L2) with g by (field; lra). split; intros; lra. }
  rewrite R1, R2 in K. clear R1 R2.
  exists x. eexists. split; [reflexivity|]. split.
  { unfold line_line_join. rewrite C1, C2. cbn [orb]. clear K. destruct (line_line_intr _ _ _ _ _); try destruct (_ && _);
    unfold connect_using_arc, add_or_replace; rewrite ?put_closed; reflexivity. }
  split. { split; eexists; [exact X1|exact X2]. }
  assert (EJ : line_line_join s1 s2 ccw eps pl =
    match line_line_intr (moved p n1 d) (moved q n1 d) (moved q n2 d) (moved r n2 d) eps with
    | LLNoIntersect => add_or_replace (add_or_replace pl (vx (moved q n1 d)) (vy (moved q n1 d)) (if ccw then 1 else - 1) eps) (vx (moved q n2 d)) (vy (moved q n2 d)) 0 eps
    | LLTrueIntersect u _ => add_or_replace pl (vx (line_pt (moved p n1 d) (moved q n1 d) u)) (vy (line_pt (moved p n1 d) (moved q n1 d) u)) 0 eps
    | LLOverlapping _ _ => add_or_replace pl (vx (moved q n1 d)) (vy (moved q n1 d)) 0 eps
    | LLFalseIntersect u w =>
      if rltb 1 u && is_false_intersect w
      then add_or_replace (add_or_replace pl (vx (moved q n1 d)) (vy (moved q n1 d)) (bulge_for_connection q (moved q n1 d) (moved q n2 d) ccw) eps) (vx (moved q n2 d)) (vy (moved q n2 d)) 0 eps
      else add_or_replace (add_or_replace pl (vx (moved q n1 d)) (vy (moved q n1 d)) 0 eps) (vx (moved q n2 d)) (vy (moved q n2 d)) 0 eps
    end).
  { unfold line_line_join, connect_using_arc. rewrite C1, C2, V1, V2', W1, W2, O1. reflexivity. }
  rewrite EJ. clear EJ. unfold corner_join. rewrite EC, <- D1, <- D2, DY1, DY2.
  assert (SG : forall k, (d * (L1 * L2 * cross e1 e2) < 0 -> g < 0) /\ (0 < d * (L1 * L2 * cross e1 e2) -> k = 0 -> 0 < g)).
  { intros k. assert (EG : d * (L1 * L2 * cross e1 e2) = (L1 * L2 * (1 + C)) * g) by (unfold g; field; lra).
    assert (0 < L1 * L2 * (1 + C)) by nra. rewrite EG. split; intros; nra. }
  destruct (SG 0) as [SN SP]. clear SG. split; intros HT.
  - specialize (SN HT). rewrite Rabs_left by exact SN.
    destruct K as [[K ->]|[K ->]].
    + left. split; [lra|]. rewrite <- X1. apply put_ok.
    + right. split. { apply Rnot_lt_le. intros Q. apply K. lra. }
      assert (T1 : rltb 1 (1 - g / L1) = true). { apply rltb_true. assert (0 < - g / L1) by (apply Rdiv_lt_0_compat; lra). unfold Rdiv in *. lra. }
      assert (T2 : is_false_intersect (g / L2) = true).
      { apply false_intr. left. assert (0 < - g / L2) by (apply Rdiv_lt_0_compat; lra). unfold Rdiv in *. lra. }
      rewrite T1, T2. cbn [andb].
      destruct (corner_arc e1 e2 q d U1 U2 HS ccw Hd) as (a & Ha & Hb1); [|exact Hccw|].
      { assert (0 < L1 * L2 * (1 + C)) by nra. assert (EG : d * cross e1 e2 = (1 + C) * g) by (unfold g; field; lra). rewrite EG. nra. }
      rewrite <- Z1, <- Z2 in Ha, Hb1. eexists. exists a. split; [exact Ha|]. split; [exact Hb1|]. eexists. split; apply put_ok.
  - specialize (SP HT eq_refl). rewrite Rabs_right by lra.
    destruct K as [[K ->]|[K ->]].
    + left. split; [lra|]. split; [lra|]. rewrite <- X1. apply put_ok.
    + right. split. { intros Q. apply K. lra. }
      assert (T1 : rltb 1 (1 - g / L1) = false). { apply rltb_false. assert (0 < g / L1) by (apply Rdiv_lt_0_compat; lra). lra. }
      rewrite T1. cbn [andb]. eexists. split; apply put_ok.
Qed.

Lemma ahead_units p q r n1 n2 : ahead p q r -> left_normal p q n1 -> left_normal q r n2 -> n2 = n1.
Proof.
  intros [H1 H2] N1 N2.
  assert (Npq : p <> q). { intros ->. unfold vec in H2. cbn [vx vy] in H2. nra. }
  assert (Nqr : q <> r). { intros ->. unfold vec in H2. cbn [vx vy] in H2. nra. }
  destruct (unit_of p q Npq) as (e1 & L1 & HL1 & U1 & Eq & Ep & D1 & M1). destruct (unit_of q r Nqr) as (e2 & L2 & HL2 & U2 & Er & _ & D2 & M2).
  rewrite (M1 n1 N1), (M2 n2 N2). rewrite Ep, Er in H1, H2. unfold cross, vec in H1, H2. cbn [vx vy] in H1, H2.
  assert (HLL : 0 < L1 * L2) by nra.
  assert (HS : vx e1 * vy e2 - vy e1 * vx e2 = 0).
  { apply Rmult_eq_reg_l with (L1 * L2); [|lra]. rewrite Rmult_0_r. etransitivity; [|exact H1]. ring. }
  assert (HC : 0 < vx e1 * vx e2 + vy e1 * vy e2).
  { apply Rmult_lt_reg_l with (L1 * L2); [lra|]. rewrite Rmult_0_r. eapply Rlt_le_trans; [exact H2|]. right. ring. }
  assert (HC1 : vx e1 * vx e2 + vy e1 * vy e2 = 1).
  { assert ((vx e1 * vy e2 - vy e1 * vx e2) * (vx e1 * vy e2 - vy e1 * vx e2) + (vx e1 * vx e2 + vy e1 * vy e2) * (vx e1 * vx e2 + vy e1 * vy e2) = 1).
    { transitivity ((vx e1 * vx e1 + vy e1 * vy e1) * (vx e2 * vx e2 + vy e2 * vy e2)); [ring|rewrite U1, U2; ring]. }
    rewrite HS in H. nra. }
  assert (EX : vx e2 = vx e1).
  { transitivity (vx e2 * (vx e1 * vx e1 + vy e1 * vy e1)); [rewrite U1; ring|].
    transitivity (vx e1 * (vx e1 * vx e2 + vy e1 * vy e2) - vy e1 * (vx e1 * vy e2 - vy e1 * vx e2)); [ring|rewrite HC1, HS; ring]. }
  assert (EY : vy e2 = vy e1).
  { transitivity (vy e2 * (vx e1 * vx e1 + vy e1 * vy e1)); [rewrite U1; ring|].
    transitivity (vy e1 * (vx e1 * vx e2 + vy e1 * vy e2) + vx e1 * (vx e1 * vy e2 - vy e1 * vx e2)); [ring|rewrite HC1, HS; ring]. }
  rewrite EX, EY. reflexivity.
Qed.

Lemma back_units p q r n1 n2 : back p q r -> left_normal p q n1 -> left_normal q r n2 -> n2 = V2 (- vx n1) (- vy n1).
Proof.
  intros [H1 H2] N1 N2.
  set (n3 := V2 (- vx n1) (- vy n1)). set (p' := V2 (2 * vx q - vx p) (2 * vy q - vy p)).
  apply (ahead_units p' q r n3 n2); [| |exact N2].
  - unfold ahead, cross, vec, p' in *. cbn [vx vy] in *. split; [|lra].
    replace (_ - _) with (- ((vx q - vx p) * (vy r - vy q) - (vy q - vy p) * (vx r - vx q))) by ring. rewrite H1. ring.
  - destruct N1 as (A1 & A2 & A3). unfold left_normal, cross, vec, p', n3 in *. cbn [vx vy] in *. repeat split; lra.
Qed.

Lemma line_straight s1 s2 p q r n1 n2 d ccw eps pl : 0 < eps -> 4 * eps < dist p q -> ~ is_point q r eps -> ~ is_point p q eps ->
  ahead p q r -> line_raw s1 p q n1 d -> line_raw s2 q r n2 d ->
  n2 = n1 /\ exists pl', join_seg_pair ccw eps pl (s1, s2) = Ret pl' /\ is_closed pl' = is_closed pl
  /\ put eps (vtx pl) (vertex_at (moved q n1 d) 0) (vtx pl').
Proof.
  intros He HL Nq Np Ha R1 R2. rewrite (join_lines _ _ _ _ _ _ _ _ ccw eps pl R1 R2).
  destruct R1 as (N1 & V1 & V2' & O1 & C1). destruct R2 as (N2 & W1 & W2 & O2 & C2).
  pose proof (ahead_units _ _ _ _ _ Ha N1 N2) as E. subst n2. split; [reflexivity|].
  eexists. split; [reflexivity|].
  set (p' := moved p n1 d) in *. set (q' := moved q n1 d) in *. set (r' := moved r n1 d) in *.
  destruct Ha as [Hc Hp].
  assert (M : match line_line_intr p' q' q' r' eps with LLOverlapping _ _ => True | LLTrueIntersect s _ => s = 1 | _ => False end).
  { assert (K1 : cross (vec q' r') (vec q' p') = 0).
    { etransitivity; [|exact Hc]. unfold cross, vec, p', q', r', moved. cbn [vx vy]. ring. }
    assert (K2 : cross (vec q' r') (vec q' q') = 0) by (unfold cross, vec; cbn [vx vy]; ring).
    assert (K3 : ~ is_point p' q' eps).
    { intros Q. apply Np. unfold is_point, p', q', moved in *. cbn [vx vy] in *.
      replace (vx q + d * vx n1 - (vx p + d * vx n1)) with (vx q - vx p) in Q by ring. replace (vy q + d * vy n1 - (vy p + d * vy n1)) with (vy q - vy p) in Q by ring. exact Q. }
    assert (K4 : ~ is_point q' r' eps).
    { intros Q. apply Nq. unfold is_point, r', q', moved in *. cbn [vx vy] in *.
      replace (vx r + d * vx n1 - (vx q + d * vx n1)) with (vx r - vx q) in Q by ring. replace (vy r + d * vy n1 - (vy q + d * vy n1)) with (vy r - vy q) in Q by ring. exact Q. }
    pose proof (line_line_collinear_main p' q' q' r' eps He K1 K2 K3 K4) as M.
    destruct (line_line_intr p' q' q' r' eps) as [|s t|t0 t1|s t].
    - apply (M 1 0); try lra. rewrite line_pt_1, line_pt_0. reflexivity.
    - destruct M as (M1 & [->| ->] & M2); [exfalso|reflexivity].
      rewrite line_pt_0 in M1.
      assert (Npq : p <> q). { intros ->. unfold vec in Hp. cbn [vx vy] in Hp. nra. }
      assert (Nqr : q <> r). { intros ->. unfold vec in Hp. cbn [vx vy] in Hp. nra. }
      destruct (unit_of p q Npq) as (e1 & L1 & HL1 & U1 & _ & Ep & D1 & Q1). destruct (unit_of q r Nqr) as (e2 & L2 & HL2 & U2 & Er & _ & D2 & Q2).
      pose proof (Q1 n1 N1) as Z1. pose proof (Q2 n1 N2) as Z2.
      assert (EX : vx e2 = vx e1) by (transitivity (vy n1); [rewrite Z2|rewrite Z1]; reflexivity).
      assert (EY : vy e2 = vy e1) by (assert (- vy e2 = - vy e1) by (transitivity (vx n1); [rewrite Z2|rewrite Z1]; reflexivity); lra).
      assert (DD : dist q' r' = L2).
      { rewrite D2. unfold dist, r', q', moved. cbn [vx vy]. f_equal. ring. }
      assert (DX : dist p' (line_pt q' r' t) = L1 + t * L2).
      { unfold in_range in M2. rewrite DD in M2. apply dist_eq_sqr; [lra|].
        transitivity ((L1 + t * L2) * (L1 + t * L2) * (vx e1 * vx e1 + vy e1 * vy e1)); [|rewrite U1; ring].
        assert (F1 : vx p = vx q - L1 * vx e1) by (rewrite Ep at 1; reflexivity). assert (F2 : vy p = vy q - L1 * vy e1) by (rewrite Ep at 1; reflexivity).
        assert (F3 : vx r = vx q + L2 * vx e1) by (rewrite Er; cbn [vx]; rewrite EX; reflexivity). assert (F4 : vy r = vy q + L2 * vy e1) by (rewrite Er; cbn [vy]; rewrite EY; reflexivity).
        unfold line_pt, p', q', r', moved. cbn [vx vy]. rewrite F1, F2, F3, F4. ring. }
      unfold in_range in M2. rewrite DD in M2. rewrite DX in M1. lra.
    - exact I.
    - destruct M. }
  assert (EJ : line_line_join s1 s2 ccw eps pl = add_or_replace pl (vx q') (vy q') 0 eps).
  { unfold line_line_join. rewrite C1, C2, V1, V2', W1, W2. cbn [orb]. unfold vertex_at, pos. cbn [px py].
    change (V2 (vx p') (vy p')) with p'. change (V2 (vx q') (vy q')) with q'. change (V2 (vx r') (vy r')) with r'.
    destruct (line_line_intr p' q' q' r' eps) as [|s t|t0 t1|s t]; try contradiction.
    - rewrite M, from_parametric_R, line_pt_1. reflexivity.
    - reflexivity. }
  rewrite EJ. unfold add_or_replace. split; [apply put_closed|apply put_ok].
Qed.

Lemma line_back s1 s2 p q r n1 n2 d ccw eps pl : 0 < eps -> d <> 0 -> (ccw = true <-> d < 0) ->
  eps <= 2 * Rabs d * Rmax (dist p q) (dist q r) ->
  back p q r -> line_raw s1 p q n1 d -> line_raw s2 q r n2 d ->
  exists b a pl', join_seg_pair ccw eps pl (s1, s2) = Ret pl' /\ is_closed pl' = is_closed pl
  /\ is_arc (moved q n1 d) (moved q n2 d) b q (Rabs d) a
  /\ Rabs b = 1 /\ circle_pt q (Rabs d) (a + sweep b / 2) = V2 (vx q + Rabs d * vy n1) (vy q - Rabs d * vx n1)
  /\ put2 eps (vtx pl) (vertex_at (moved q n1 d) b) (vertex_at (moved q n2 d) 0) (vtx pl').
Proof.
  intros He Hd Hccw HL Hb R1 R2. rewrite (join_lines _ _ _ _ _ _ _ _ ccw eps pl R1 R2).
  destruct R1 as (N1 & V1 & V2' & O1 & C1). destruct R2 as (N2 & W1 & W2 & O2 & C2).
  pose proof (back_units _ _ _ _ _ Hb N1 N2) as E. destruct Hb as [Hc Hp].
  assert (Npq : p <> q). { intros ->. unfold vec in Hp. cbn [vx vy] in Hp. nra. }
  assert (Nqr : q <> r). { intros ->. unfold vec in Hp. cbn [vx vy] in Hp. nra. }
  destruct (unit_of p q Npq) as (e1 & L1 & HL1 & U1 & _ & Ep & D1 & Q1). destruct (unit_of q r Nqr) as (e2 & L2 & HL2 & U2 & Er & _ & D2 & Q2).
  pose proof (Q1 n1 N1) as Z1. pose proof (Q2 n2 N2) as Z2.
  assert (EX : vx e2 = - vx e1) by (transitivity (vy n2); [rewrite Z2|rewrite E, Z1]; reflexivity).
  assert (EY : vy e2 = - vy e1) by (assert (- vy e2 = - - vy e1) by (transitivity (vx n2); [rewrite Z2|rewrite E, Z1]; reflexivity); lra).
  set (p' := moved p n1 d) in *. set (q' := moved q n1 d) in *. set (q'' := moved q n2 d) in *. set (r' := moved r n2 d) in *.
  assert (F1 : vx p = vx q - L1 * vx e1) by (rewrite Ep at 1; reflexivity). assert (F2 : vy p = vy q - L1 * vy e1) by (rewrite Ep at 1; reflexivity).
  assert (F3 : vx r = vx q - L2 * vx e1) by (rewrite Er; cbn [vx]; rewrite EX; ring). assert (F4 : vy r = vy q - L2 * vy e1) by (rewrite Er; cbn [vy]; rewrite EY; ring).
  assert (M : line_line_intr p' q' q'' r' eps = LLNoIntersect).
  { unfold line_line_intr.
    assert (E0 : v2perp_dot (v2sub q' p') (v2sub r' q'') = 0).
    { etransitivity; [|exact Hc]. unfold v2perp_dot, v2sub, cross, vec, p', q', q'', r', moved. rnum. cbn [vx vy]. ring. }
    assert (Ev : v2perp_dot (v2sub q' p') (v2sub p' q'') = 2 * d * L1).
    { transitivity (2 * d * L1 * (vx e1 * vx e1 + vy e1 * vy e1)); [|rewrite U1; ring].
      unfold v2perp_dot, v2sub, p', q', q'', moved. rnum. cbn [vx vy]. rewrite F1, F2, E, Z1. cbn [vx vy]. ring. }
    assert (Eu : v2perp_dot (v2sub r' q'') (v2sub p' q'') = - 2 * d * L2).
    { transitivity (- 2 * d * L2 * (vx e1 * vx e1 + vy e1 * vy e1)); [|rewrite U1; ring].
      unfold v2perp_dot, v2sub, p', q'', r', moved. rnum. cbn [vx vy]. rewrite F1, F2, F3, F4, E, Z1. cbn [vx vy]. ring. }
    rewrite E0, Ev, Eu. unfold fuzzy_eq_zero_eps. rnum.
    assert (B0 : rltb (Rabs 0) eps = true) by (apply rltb_true; rewrite Rabs_R0; lra). rewrite B0. cbn [negb].
    assert (Bv : Rabs (2 * d * L1) = 2 * Rabs d * L1) by (rewrite !Rabs_mult, (Rabs_right 2), (Rabs_right L1) by lra; reflexivity).
    assert (Bu : Rabs (- 2 * d * L2) = 2 * Rabs d * L2).
    { replace (- 2 * d * L2) with (- (2 * d * L2)) by ring. rewrite Rabs_Ropp, !Rabs_mult, (Rabs_right 2), (Rabs_right L2) by lra. reflexivity. }
    rewrite Bv, Bu. rewrite <- D1, <- D2 in HL. unfold Rmax in HL.
    destruct (Rle_dec L1 L2).
    - assert (B2 : rltb (2 * Rabs d * L2) eps = false) by (apply rltb_false; lra). rewrite B2. cbn [negb]. rewrite orb_true_r. reflexivity.
    - assert (B2 : rltb (2 * Rabs d * L1) eps = false) by (apply rltb_false; lra). rewrite B2. reflexivity. }
  assert (EJ : line_line_join s1 s2 ccw eps pl = add_or_replace (add_or_replace pl (vx q') (vy q') (if ccw then 1 else - 1) eps) (vx q'') (vy q'') 0 eps).
  { unfold line_line_join. rewrite C1, C2, V1, V2', W1, W2. cbn [orb]. unfold vertex_at, pos. cbn [px py pbulge].
    change (V2 (vx p') (vy p')) with p'. change (V2 (vx q') (vy q')) with q'. change (V2 (vx r') (vy r')) with r'. change (V2 (vx q'') (vy q'')) with q''.
    rewrite M. reflexivity. }
  rewrite EJ. unfold add_or_replace.
  assert (Hq : q' <> q).
  { intros Q. pose proof (f_equal vx Q) as X. pose proof (f_equal vy Q) as Y. unfold q', moved in X, Y. cbn [vx vy] in X, Y. rewrite Z1 in X, Y. cbn [vx vy] in X, Y.
    assert (Y1 : vx e1 = 0) by (apply Rmult_eq_reg_l with d; [lra|exact Hd]). assert (Y2 : vy e1 = 0) by (apply Rmult_eq_reg_l with d; [lra|exact Hd]).
    rewrite Y1, Y2 in U1. lra. }
  destruct (on_circle q q' Hq) as (a & Ea & _ & _).
  assert (Hr : 0 < Rabs d) by now apply Rabs_pos_lt.
  assert (DD : dist q' q = Rabs d).
  { apply dist_eq_sqr; [lra|]. rewrite <- Rabs_mult, (Rabs_pos_eq (d * d)) by nra. unfold q', moved. rewrite Z1. cbn [vx vy].
    transitivity (d * d * (vx e1 * vx e1 + vy e1 * vy e1)); [ring|rewrite U1; ring]. }
  rewrite DD in Ea. pose proof (f_equal vx Ea) as X. pose proof (f_equal vy Ea) as Y. unfold q', moved, circle_pt in X, Y. cbn [vx vy] in X, Y.
  assert (X' : Rabs d * cos a = d * vx n1) by lra. assert (Y' : Rabs d * sin a = d * vy n1) by lra.
  assert (Sb : sweep (if ccw then 1 else - 1) = if ccw then PI else - PI).
  { unfold sweep. destruct ccw; [|replace (- 1) with (- (1)) by lra; rewrite atan_opp]; rewrite atan_1; lra. }
  exists (if ccw then 1 else - 1), a. eexists. split; [reflexivity|]. split; [rewrite !put_closed; reflexivity|]. split.
  - split; [lra|]. split; [exact Ea|]. rewrite Sb. unfold q'', moved. rewrite E. cbn [vx vy].
    assert (G : cos (a + (if ccw then PI else - PI)) = - cos a /\ sin (a + (if ccw then PI else - PI)) = - sin a).
    { destruct ccw; [rewrite neg_cos, neg_sin; split; reflexivity|]. rewrite cos_plus, sin_plus, cos_neg, sin_neg, cos_PI, sin_PI. split; lra. }
    destruct G as [G1 G2]. unfold circle_pt. rewrite G1, G2. apply vec2_eq; cbn [vx vy]; lra.
  - split; [destruct ccw; rabs_lra|]. split; [|eexists; split; apply put_ok].
    rewrite Sb. unfold circle_pt.
    assert (G : forall x, x = PI / 2 \/ x = - (PI / 2) -> cos x = 0) by (intros x [->| ->]; [|rewrite cos_neg]; apply cos_PI2).
    rewrite cos_plus, sin_plus. destruct ccw.
    + rewrite cos_PI2, sin_PI2. assert (d < 0) by now apply Hccw. rewrite (Rabs_left d) in * by lra.
      apply vec2_eq; cbn [vx vy]; lra.
    + replace (- PI / 2) with (- (PI / 2)) by lra. rewrite cos_neg, sin_neg, cos_PI2, sin_PI2.
      assert (0 < d). { destruct (Rtotal_order d 0) as [L|[L|L]]; [|contradiction|exact L]. assert (false = true) by now apply Hccw. discriminate. }
      rewrite (Rabs_right d) in * by lra. apply vec2_eq; cbn [vx vy]; lra.
Qed.

(** Every point of what is drawn is a point of the segment it is a part of. *)
Lemma drawn_within v1 v2 t u w x s y : seg_ok v1 v2 -> 0 <= t -> t < u -> u <= 1 -> drawn v1 v2 t u w x ->
  seg_at w x s y -> seg_at v1 v2 (t + s * (u - t)) y.
Proof.
  intros Hok H0 H1 H2 Hd Hy. destruct (Req_dec (pbulge v1) 0) as [Z|Z].
  - pose proof (drawn_line_bulge _ _ _ _ _ _ Z Hd) as B. apply seg_at_line in Hy; [|exact B]. destruct Hd as (A1 & A2 & _).
    apply seg_at_line in A1; [|exact Z]. apply seg_at_line in A2; [|exact Z]. left. split; [exact Z|].
    rewrite Hy, A1, A2. unfold line_pt. cbn [vx vy]. apply vec2_eq; cbn [vx vy]; ring.
  - destruct (drawn_bulge v1 v2 t u w x Z H1 Hd) as [B _]. pose proof (drawn_ok v1 v2 t u w x Hok Z Hd) as HA.
    destruct Hy as [[Q _]|(_ & c & r & a & HA' & Ey)]; [contradiction|].
    right. split; [exact Z|]. set (c0 := centre_of (pos v1) (pos v2) (pbulge v1)) in *. set (r0 := radius_of (pos v1) (pos v2) (pbulge v1)) in *.
    exists c0, r0, (angle c0 (pos v1)). split.
    { exact (computed_is_arc (pos v1) (pos v2) (pbulge v1) (proj2 Hok Z) Z). }
    assert (Ey' : y = circle_pt c0 r0 (angle c0 (pos v1) + t * sweep (pbulge v1) + s * sweep (pbulge w))).
    { assert (K : seg_at w x s (circle_pt c0 r0 (angle c0 (pos v1) + t * sweep (pbulge v1) + s * sweep (pbulge w)))) by (right; split; [exact B|]; eauto).
      assert (K' : seg_at w x s y) by (right; split; [exact B|]; eauto).
      pose proof (drawn_distinct v1 v2 t u w x Hok Z H0 H1 H2 Hd) as D.
      apply seg_at_arc in K; [|auto|auto]. apply seg_at_arc in K'; [|auto|auto]. congruence. }
    rewrite Ey'. f_equal. destruct Hd as (_ & _ & E). rewrite E. ring.
Qed.

Lemma collapsed_corner s1 s2 ccw eps p : pbulge (rs_v1 s1) = 0 -> pbulge (rs_v1 s2) = 0 -> rs_collapsed_arc s1 = true \/ rs_collapsed_arc s2 = true ->
  pos (rs_v2 s1) <> rs_orig_v2_pos s1 -> dist (pos (rs_v1 s2)) (rs_orig_v2_pos s1) = dist (pos (rs_v2 s1)) (rs_orig_v2_pos s1) ->
  exists p', join_seg_pair ccw eps p (s1, s2) = Ret p' /\ connected s1 s2 ccw eps (vtx p) (vtx p').
Proof.
  intros Z1 Z2 C HP HD. unfold join_seg_pair. rewrite (is_zero_line _ Z1), (is_zero_line _ Z2).
  unfold line_line_join. assert (rs_collapsed_arc s1 || rs_collapsed_arc s2 = true) as ->.
  { destruct C as [-> | ->]; [reflexivity|apply orb_true_r]. }
  eexists. split; [reflexivity|now apply connect_ok].
Qed.
