(** A square with an L-shaped hole, offset outwards (C79). *)
From Coq Require Import Reals ZArith Bool List Arith Lra Lia Psatz.
From Verif Require Import Num RNum Res ModelMath ModelSeg ModelPline ModelIndex ModelOffset ModelShape.
From Verif Require Import Spec SpecGeom SpecIntr SpecBox SpecBoolean SpecView SpecPrune SpecIndex SpecCuts SpecOffset SpecOffNear SpecPolyOff SpecOffsetJoin SpecJordan SpecConvex SpecRound SpecSegIntr SpecCurve SpecSimple SpecShape SpecRing SpecPieces.
From Verif Require Import ProofR ProofBase ProofIter ProofArc ProofIntr ProofIndex2 ProofPolyOff ProofPolyOff2 ProofPolyOff3 ProofCircleOff ProofArea6 ProofPolyBool2 ProofOff7 ProofOff9 ProofOffEx ProofOffEx2 ProofPieces ProofPieces2 ProofNest ProofWinding6.
From Verif Require ProofConvex ProofConvexEx ProofConvexOff ProofJordan ProofJordan2.
Import ListNotations.
Local Open Scope R_scope.

Definition ex_slate : list (vec2 R) := [V2 (-4) (-4); V2 8 (-4); V2 8 8; V2 (-4) 8].

Section Slate.
Variable b : R.
Hypothesis B : 2 / 5 <= b <= 1.
Hypothesis Sb : 4 * atan b = PI / 2.

Definition slate_corners : list (list (vertex R)) :=
  [[Vtx (-9 / 2) (-4) b; Vtx (-4) (-9 / 2) 0]; [Vtx 8 (-9 / 2) b; Vtx (17 / 2) (-4) 0]; [Vtx (17 / 2) 8 b; Vtx 8 (17 / 2) 0]; [Vtx (-4) (17 / 2) b; Vtx (-9 / 2) 8 0]].
Definition slate_raw : pline R :=
  PL [Vtx (-4) (-9 / 2) 0; Vtx 8 (-9 / 2) b; Vtx (17 / 2) (-4) 0; Vtx (17 / 2) 8 b; Vtx 8 (17 / 2) 0; Vtx (-4) (17 / 2) b; Vtx (-9 / 2) 8 0; Vtx (-9 / 2) (-4) b] true.
Lemma slate_round : PL (going_round slate_corners) true = slate_raw. Proof. reflexivity. Qed.

(** The arc is on the circle of radius 1/2 about [(cx, cy)], in the box. *)
Definition quarter (v1 v2 : vertex R) (cx cy x1 x2 y1 y2 : R) : Prop :=
  pbulge v1 = b /\ (exists al, is_arc (pos v1) (pos v2) b (V2 cx cy) (1 / 2) al) /\ (forall c r, arc_circle v1 v2 c r -> c = V2 cx cy /\ r = 1 / 2)
  /\ forall q, on_seg v1 v2 q -> x1 <= vx q <= x2 /\ y1 <= vy q <= y2 /\ (vx q - cx) * (vx q - cx) + (vy q - cy) * (vy q - cy) = 1 / 4.

Lemma quarter_of cx cy ca sa a b' v1 v2 x1 x2 y1 y2 : cos a = ca -> sin a = sa -> v1 = Vtx (cx + ca / 2) (cy + sa / 2) b -> v2 = Vtx (cx - sa / 2) (cy + ca / 2) b' ->
  (forall k l, 0 <= k <= 1 -> 0 <= l <= 1 -> x1 <= cx + (ca * k - sa * l) / 2 <= x2 /\ y1 <= cy + (sa * k + ca * l) / 2 <= y2) -> quarter v1 v2 cx cy x1 x2 y1 y2.
Proof.
  intros Ca Sa -> -> H. split; [reflexivity|]. split; [exists a; exact (quarter_arc b Sb cx cy ca sa a b' Ca Sa)|]. split; [intros c r (al & A); exact (quarter_circle b B Sb cx cy ca sa a b' Ca Sa c r al A)|].
  intros q O. destruct (quarter_on b B Sb cx cy ca sa a b' Ca Sa q O) as (k & l & Hk & Hl & X & Y). rewrite X, Y. destruct (H k l Hk Hl) as (H1 & H2). split; [exact H1|]. split; [exact H2|]. rewrite <- X, <- Y. clear k l Hk Hl X Y H1 H2.
  destruct O as (t & _ & [(Z & _)|(Nz & c & r & a' & A & ->)]); [cbn in Z; lra|]. destruct (quarter_circle b B Sb cx cy ca sa a b' Ca Sa _ _ _ A) as (-> & ->).
  unfold circle_pt. cbn [vx vy]. match goal with |- context [cos ?h] => pose proof (sin2_cos2 h) as SC end. unfold Rsqr in SC. lra.
Qed.

Lemma slate_1 b' : quarter (Vtx 8 (-9 / 2) b) (Vtx (17 / 2) (-4) b') 8 (-4) 8 (17 / 2) (-9 / 2) (-4).
Proof. apply (quarter_of 8 (-4) 0 (-1) (- (PI / 2)) b'); [rewrite cos_neg; apply cos_PI2|rewrite sin_neg, sin_PI2; lra|f_equal; lra|f_equal; lra|intros; lra]. Qed.
Lemma slate_2 b' : quarter (Vtx (17 / 2) 8 b) (Vtx 8 (17 / 2) b') 8 8 8 (17 / 2) 8 (17 / 2).
Proof. apply (quarter_of 8 8 1 0 0 b'); [apply cos_0|apply sin_0|f_equal; lra|f_equal; lra|intros; lra]. Qed.
Lemma slate_3 b' : quarter (Vtx (-4) (17 / 2) b) (Vtx (-9 / 2) 8 b') (-4) 8 (-9 / 2) (-4) 8 (17 / 2).
Proof. apply (quarter_of (-4) 8 0 1 (PI / 2) b'); [apply cos_PI2|apply sin_PI2|f_equal; lra|f_equal; lra|intros; lra]. Qed.
Lemma slate_4 b' : quarter (Vtx (-9 / 2) (-4) b) (Vtx (-4) (-9 / 2) b') (-4) (-4) (-9 / 2) (-4) (-9 / 2) (-4).
Proof. apply (quarter_of (-4) (-4) (-1) 0 PI b'); [apply cos_PI|apply sin_PI|f_equal; lra|f_equal; lra|intros; lra]. Qed.
Lemma slate_5 b' : quarter (Vtx (3 / 2) 2 b) (Vtx 2 (3 / 2) b') 2 2 (3 / 2) 2 (3 / 2) 2.
Proof. apply (quarter_of 2 2 (-1) 0 PI b'); [apply cos_PI|apply sin_PI|f_equal; lra|f_equal; lra|intros; lra]. Qed.

Lemma quarter_pass v1 v2 cx cy X1 X2 Y1 Y2 x1 y1 x2 y2 b' : quarter v1 v2 cx cy X1 X2 Y1 Y2 -> ~ is_point (V2 x1 y1) (V2 x2 y2) (1 / 100000) -> clear_direction (V2 x1 y1) (V2 x2 y2) ->
  (forall k, 1 <= Rabs (x1 + k * (x2 - x1) - cx) \/ 1 <= Rabs (y1 + k * (y2 - y1) - cy)) -> line_arc_clear (1 / 100000) (Vtx x1 y1 0) (Vtx x2 y2 b') v1 v2.
Proof.
  intros (_ & _ & U & _) P C H. split; [exact P|]. split; [exact C|]. intros c r A. destruct (U c r A) as (-> & ->). left. exists 1. split; [lra|]. intros k.
  pose proof (ProofJordan.coord_dist (V2 cx cy) (line_pt (pos (Vtx x1 y1 0)) (pos (Vtx x2 y2 b')) k)) as (D1 & D2). rewrite ProofJordan2.dist_sym in D1, D2. unfold line_pt, pos in *. cbn [vx vy px py] in *. destruct (H k); lra.
Qed.
Lemma quarters_apart v1 v2 cx cy X1 X2 Y1 Y2 u1 u2 ex ey Z1 Z2 W1 W2 : quarter v1 v2 cx cy X1 X2 Y1 Y2 -> quarter u1 u2 ex ey Z1 Z2 W1 W2 ->
  2 <= Rabs (ex - cx) \/ 2 <= Rabs (ey - cy) -> arcs_clear (1 / 100000) v1 v2 u1 u2.
Proof.
  intros (_ & _ & U & _) (_ & _ & U' & _) H c1 r1 c2 r2 A1 A2. destruct (U _ _ A1) as (-> & ->). destruct (U' _ _ A2) as (-> & ->). left.
  pose proof (ProofJordan.coord_dist (V2 cx cy) (V2 ex ey)) as (D1 & D2). cbn [vx vy] in D1, D2. destruct H; lra.
Qed.

Ltac quart := first [apply slate_1|apply slate_2|apply slate_3|apply slate_4|apply slate_5].
Ltac facts := repeat match goal with
  | O : on_seg (Vtx 8 (-9 / 2) b) (Vtx (17 / 2) (-4) ?b') _ |- _ => apply (proj2 (proj2 (proj2 (slate_1 b')))) in O; destruct O as (? & ? & ?)
  | O : on_seg (Vtx (17 / 2) 8 b) (Vtx 8 (17 / 2) ?b') _ |- _ => apply (proj2 (proj2 (proj2 (slate_2 b')))) in O; destruct O as (? & ? & ?)
  | O : on_seg (Vtx (-4) (17 / 2) b) (Vtx (-9 / 2) 8 ?b') _ |- _ => apply (proj2 (proj2 (proj2 (slate_3 b')))) in O; destruct O as (? & ? & ?)
  | O : on_seg (Vtx (-9 / 2) (-4) b) (Vtx (-4) (-9 / 2) ?b') _ |- _ => apply (proj2 (proj2 (proj2 (slate_4 b')))) in O; destruct O as (? & ? & ?)
  | O : on_seg (Vtx (3 / 2) 2 b) (Vtx 2 (3 / 2) ?b') _ |- _ => apply (proj2 (proj2 (proj2 (slate_5 b')))) in O; destruct O as (? & ? & ?)
  | O : on_seg _ _ _ |- _ => apply line_on' in O; destruct O as (? & ? & ? & ?) end.
Ltac one_side := unfold sides_clear; cbn [pbulge]; split; [|split; [|split]]; intros ? ?; first [exfalso; lra
  |unfold lines_clear, pos; cbn [px py]; first [left; beside_with 1|left; beside_with (-1)|right; left; beside_with 1|right; left; beside_with (-1)]
  |eapply quarter_pass; [quart|intros (P1 & P2); cbn [vx vy] in P1, P2; revert P1 P2; rabs_lra|unfold clear_direction; cbn [vx vy]; first [left; lra|right; rabs_lra]|intros k; first [left; rabs_lra|right; rabs_lra]]
  |eapply quarters_apart; [quart|quart|first [left; rabs_lra|right; rabs_lra]]].

Lemma slate_lone : lone_path (1 / 100000) slate_raw.
Proof.
  unfold lone_path, slate_raw. cbn [vtx is_closed length]. split; [reflexivity|]. split; [lia|]. split; [|split].
  - intros v1 v2 H. cbn in H. repeat (destruct H as [H|H]; [injection H as <- <-; split; [split; [cbn [pbulge]; first [left; reflexivity|right; rewrite Rabs_pos_eq by lra; lra]|cbn [pbulge]; intros E; first [now destruct E|unfold pos; cbn [px py]; intros Q; injection Q as Q1 Q2; lra]]|cbn [px py]; first [left; rabs_lra|right; rabs_lra]]|]). destruct H.
  - assert (LA : forall x1 y1 x2 y2 v3 cx cy X1 X2 Y1 Y2, quarter (Vtx x2 y2 b) v3 cx cy X1 X2 Y1 Y2 -> clear_direction (V2 x1 y1) (V2 x2 y2) ->
       (x2 - x1) * (x2 - cx) + (y2 - y1) * (y2 - cy) = 0 -> 1 <= Rabs (cx - x1) \/ 1 <= Rabs (cy - y1) -> joined_clear (1 / 100000) (Vtx x1 y1 0) (Vtx x2 y2 b) v3).
    { intros x1 y1 x2 y2 v3 cx cy X1 X2 Y1 Y2 (_ & (al & A) & _) C H D. right. left. cbn [pbulge]. split; [reflexivity|]. split; [lra|]. split; [exact C|]. exists (V2 cx cy), (1 / 2). split; [exists al; exact A|]. split; [unfold at_right_angles, vec, pos; cbn [vx vy px py]; lra|].
      pose proof (ProofJordan.coord_dist (pos (Vtx x1 y1 0)) (V2 cx cy)) as (D1 & D2). unfold pos in *. cbn [vx vy px py] in *. destruct D; lra. }
    assert (AL : forall v1 x2 y2 x3 y3 b' cx cy X1 X2 Y1 Y2, quarter v1 (Vtx x2 y2 0) cx cy X1 X2 Y1 Y2 -> clear_direction (V2 x2 y2) (V2 x3 y3) ->
       (x2 - x3) * (x2 - cx) + (y2 - y3) * (y2 - cy) = 0 -> joined_clear (1 / 100000) v1 (Vtx x2 y2 0) (Vtx x3 y3 b')).
    { intros v1 x2 y2 x3 y3 b' cx cy X1 X2 Y1 Y2 (Eb & (al & A) & _) C H. right. right. cbn [pbulge]. split; [rewrite Eb; lra|]. split; [reflexivity|]. split; [exact C|]. exists (V2 cx cy), (1 / 2). split; [exists al; rewrite Eb; exact A|]. unfold at_right_angles, vec, pos; cbn [vx vy px py]; lra. }
    intros i v1 v2 v3. destruct i as [|[|[|[|[|[|[|[|i]]]]]]]]; cbn; intros E1 E2; try (destruct i; discriminate); injection E1 as <- <-; injection E2 as <-.
    all: first [eapply LA; [quart|unfold clear_direction; cbn [vx vy]; first [left; lra|right; rabs_lra]|lra|first [left; rabs_lra|right; rabs_lra]]|eapply AL; [quart|unfold clear_direction; cbn [vx vy]; first [left; lra|right; rabs_lra]|lra]].
  - intros i j v1 v2 u1 u2.
    destruct i as [|[|[|[|[|[|[|[|i]]]]]]]]; cbn -[Nat.modulo]; intros E1; [..|destruct i; discriminate]; destruct j as [|[|[|[|[|[|[|[|j]]]]]]]]; cbn -[Nat.modulo]; intros E2; try (destruct j; discriminate); injection E1 as <- <-; injection E2 as <- <-; intros N1 N2 N3;
      try (exfalso; (now apply N1) || (now apply N2) || (now apply N3)); (split; [|intros q O1 O2; facts; lra]).
    all: one_side.
Qed.

Lemma slate_miss : clearly_miss (1 / 100000) slate_raw (angle_raw b) /\ clearly_miss (1 / 100000) (angle_raw b) slate_raw.
Proof.
  split; intros v1 v2 u1 u2 I1 I2; cbn in I1, I2.
  all: repeat (destruct I1 as [I1|I1]; [injection I1 as <- <-|]); [..|destruct I1].
  all: repeat (destruct I2 as [I2|I2]; [injection I2 as <- <-|]); [..|destruct I2].
  all: left; split; [one_side|intros q O1 O2; facts; lra].
Qed.
End Slate.
