(** A square offset to its inner side with self-intersection handling (C78). *)
From Coq Require Import Reals ZArith Bool List Arith Lra Lia Psatz.
From Verif Require Import Num RNum Res ModelMath ModelSeg ModelPline ModelIndex ModelOffset.
From Verif Require Import Spec SpecGeom SpecIntr SpecBox SpecBoolean SpecView SpecPrune SpecIndex SpecCuts SpecOffset SpecOffNear SpecPolyOff SpecOffsetJoin SpecJordan SpecConvex SpecRound SpecSegIntr SpecCurve SpecSimple.
From Verif Require Import ProofR ProofBase ProofIter ProofArc ProofIntr ProofIndex2 ProofPolyOff ProofPolyOff2 ProofPolyOff3 ProofCircleOff ProofArea6 ProofPolyBool2 ProofOff7 ProofOff9 ProofOffEx.
From Verif Require ProofConvex ProofJordan.
Import ListNotations.
Local Open Scope R_scope.

Definition ex_box : list (vec2 R) := [V2 0 0; V2 4 0; V2 4 4; V2 0 4].
Definition box_corners : list (list (vertex R)) := [[Vtx (1 / 2) (1 / 2) 0]; [Vtx (7 / 2) (1 / 2) 0]; [Vtx (7 / 2) (7 / 2) 0]; [Vtx (1 / 2) (7 / 2) 0]].
Definition box_raw : pline R := PL [Vtx (1 / 2) (1 / 2) 0; Vtx (7 / 2) (1 / 2) 0; Vtx (7 / 2) (7 / 2) 0; Vtx (1 / 2) (7 / 2) 0] true.

Section Box.
Variable b : R.
Hypothesis B : 2 / 5 <= b <= 1.
Hypothesis Sb : 4 * atan b = PI / 2.

(** A quarter circle about [(cx, cy)]. *)
Section Quarter.
Variables (cx cy ca sa a b' : R).
Hypothesis Ca : cos a = ca.
Hypothesis Sa : sin a = sa.
Let Q1 := Vtx (cx + ca / 2) (cy + sa / 2) b.
Let Q2 := Vtx (cx - sa / 2) (cy + ca / 2) b'.
Lemma quarter_arc : is_arc (pos Q1) (pos Q2) b (V2 cx cy) (1 / 2) a.
Proof.
  split; [lra|]. unfold circle_pt, sweep. rewrite Sb, cos_plus, sin_plus, cos_PI2, sin_PI2, Ca, Sa. unfold pos. cbn [vx vy px py Q1 Q2]. split; apply vec2_eq; cbn [vx vy]; lra.
Qed.
Lemma quarter_circle c r al : is_arc (pos Q1) (pos Q2) b c r al -> c = V2 cx cy /\ r = 1 / 2.
Proof.
  intros A. assert (Nz : b <> 0) by lra. destruct (arc_unique _ _ _ _ _ _ Nz A) as (Ec & Er). destruct (arc_unique _ _ _ _ _ _ Nz quarter_arc) as (Ec' & Er').
  rewrite <- Ec' in Ec. rewrite <- Er' in Er. auto.
Qed.
Lemma quarter_on q : on_seg Q1 Q2 q -> exists k l, 0 <= k <= 1 /\ 0 <= l <= 1 /\ vx q = cx + (ca * k - sa * l) / 2 /\ vy q = cy + (sa * k + ca * l) / 2.
Proof.
  intros (t & Ht & [(Z & _)|(Nz & c & r & a' & A & ->)]); [cbn in Z; lra|].
  change (pbulge Q1) with b in *. destruct (quarter_circle _ _ _ A) as (-> & ->).
  destruct A as (_ & X1 & _). unfold sweep. rewrite Sb. unfold circle_pt, pos in X1. cbn [Q1 px py vx vy] in X1. pose proof (f_equal vx X1) as C. pose proof (f_equal vy X1) as S. cbn [vx vy] in C, S.
  set (h := t * (PI / 2)). pose proof PI_RGT_0 as P. assert (H0 : 0 <= h) by (apply Rmult_le_pos; lra). assert (H1 : h <= PI / 2) by (unfold h; rewrite <- (Rmult_1_l (PI / 2)) at 2; apply Rmult_le_compat_r; lra).
  pose proof (cos_ge_0 h ltac:(lra) H1) as Ch. pose proof (sin_ge_0 h H0 ltac:(lra)) as Sh. pose proof (COS_bound h). pose proof (SIN_bound h).
  exists (cos h), (sin h). split; [lra|]. split; [lra|]. unfold circle_pt. cbn [vx vy]. rewrite cos_plus, sin_plus. replace (cos a') with ca by lra. replace (sin a') with sa by lra. split; field.
Qed.
Hypothesis Unit : (Rabs ca = 1 /\ sa = 0) \/ (ca = 0 /\ Rabs sa = 1).
Lemma quarter_wide : wide Q1 Q2 (1 / 100000).
Proof.
  intros _ c r al A. change (pbulge Q1) with b in A. destruct (quarter_circle _ _ _ A) as (-> & ->). split; [lra|].
  pose proof (ProofJordan.coord_dist (pos Q1) (pos Q2)) as (D & _). unfold pos in *. cbn [vx px py Q1 Q2] in *.
  assert (1 / 2 <= Rabs (cx - sa / 2 - (cx + ca / 2))); [|lra]. destruct Unit as [(U & ->)|(-> & U)]; revert U; rabs_lra.
Qed.
Lemma quarter_far x y : (forall k l, 0 <= k <= 1 -> 0 <= l <= 1 -> 1 / 10 <= Rabs (cx + (ca * k - sa * l) / 2 - x) \/ 1 / 10 <= Rabs (cy + (sa * k + ca * l) / 2 - y)) -> ~ near_seg Q1 Q2 (1 / 100000) (V2 x y).
Proof.
  intros H (q & O & [(Z & _)|(_ & c & r & al & A & D)]); [cbn in Z; lra|]. change (pbulge Q1) with b in A. destruct (quarter_circle _ _ _ A) as (-> & ->).
  destruct (quarter_on q O) as (k & l & Hk & Hl & X & Y). specialize (H k l Hk Hl). rewrite <- X, <- Y in H. pose proof (ProofJordan.coord_dist (V2 x y) q) as (D1 & D2). cbn [vx vy] in D1, D2. destruct H; lra.
Qed.
Lemma quarter_miss x1 y1 x2 y2 : ~ is_point (V2 x1 y1) (V2 x2 y2) (1 / 100000) -> clear_direction (V2 x1 y1) (V2 x2 y2) ->
  (forall k, 1 <= Rabs (x1 + k * (x2 - x1) - cx) \/ 1 <= Rabs (y1 + k * (y2 - y1) - cy)) -> sides_clear (1 / 100000) (Vtx x1 y1 0) (Vtx x2 y2 0) Q1 Q2.
Proof.
  intros P C H. split; [intros _ Z; cbn in Z; lra|]. split; [|split; intros Z; cbn in Z; lra]. intros _ _. split; [exact P|]. split; [exact C|]. intros c r (al & A). destruct (quarter_circle c r al A) as (-> & ->). left. exists 1. split; [lra|]. intros k.
  pose proof (ProofJordan.coord_dist (V2 cx cy) (line_pt (pos (Vtx x1 y1 0)) (pos (Vtx x2 y2 0)) k)) as (D1 & D2). rewrite ProofJordan2.dist_sym in D1, D2. unfold line_pt, pos in *. cbn [vx vy px py] in *. destruct (H k); lra.
Qed.
(** Lines along an axis at the distance of the radius. *)
Lemma quarter_touch x1 y1 x2 y2 t : ~ is_point (V2 x1 y1) (V2 x2 y2) (1 / 100000) -> clear_direction (V2 x1 y1) (V2 x2 y2) ->
  ~ near_seg Q1 Q2 (1 / 100000) (V2 x1 y1) -> ~ near_seg Q1 Q2 (1 / 100000) (V2 x2 y2) ->
  (x1 = x2 /\ Rabs (x1 - cx) = 1 / 2 /\ y1 + t * (y2 - y1) = cy /\ (y1 - cy) * (y2 - cy) >= 1 /\ Rabs (y1 - cy) >= 1 / 2 /\ Rabs (y2 - cy) >= 1 / 2)
  \/ (y1 = y2 /\ Rabs (y1 - cy) = 1 / 2 /\ x1 + t * (x2 - x1) = cx /\ (x1 - cx) * (x2 - cx) >= 1 /\ Rabs (x1 - cx) >= 1 / 2 /\ Rabs (x2 - cx) >= 1 / 2) -> touches_elsewhere (1 / 100000) (Vtx x1 y1 0) (Vtx x2 y2 0) Q1 Q2.
Proof.
  intros P C N1 N2 H. split; [reflexivity|]. split; [cbn; lra|]. split; [exact P|]. split; [exact C|]. split; [exact quarter_wide|]. split; [exact N1|]. split; [exact N2|]. exists (V2 cx cy), (1 / 2), t.
  split; [exists a; exact quarter_arc|].
  assert (K : forall k, 1 / 2 <= dist (line_pt (pos (Vtx x1 y1 0)) (pos (Vtx x2 y2 0)) k) (V2 cx cy)).
  { intros k. pose proof (ProofJordan.coord_dist (V2 cx cy) (line_pt (pos (Vtx x1 y1 0)) (pos (Vtx x2 y2 0)) k)) as (D1 & D2). rewrite ProofJordan2.dist_sym in D1, D2. unfold line_pt, pos in *. cbn [vx vy px py] in *.
    destruct H as [(-> & R & _)|(-> & R & _)]; [replace (x2 + k * (x2 - x2) - cx) with (x2 - cx) in D1 by ring|replace (y2 + k * (y2 - y2) - cy) with (y2 - cy) in D2 by ring]; lra. }
  split; [|split; [exact K|left]].
  - rewrite <- (Rabs_pos_eq (dist _ _)), <- (Rabs_pos_eq (1 / 2)) by (try lra; apply ProofIntr.dist_pos). apply Rsqr_eq_abs_0. unfold Rsqr. rewrite dist_sqr. unfold line_pt, pos. cbn [vx vy px py].
    destruct H as [(-> & R & E & _)|(-> & R & E & _)]; rewrite E; [assert (S : (x2 - cx) * (x2 - cx) = 1 / 2 * (1 / 2)) by (rewrite <- R; exact (Rsqr_abs (x2 - cx)))|assert (S : (y2 - cy) * (y2 - cy) = 1 / 2 * (1 / 2)) by (rewrite <- R; exact (Rsqr_abs (y2 - cy)))]; lra.
  - intros (q & O & [(_ & D)|(Z & _)]); [|now apply Z]. apply line_on in O as (k & Hk & X & Y).
    pose proof (ProofJordan.coord_dist (line_pt (pos (Vtx x1 y1 0)) (pos (Vtx x2 y2 0)) t) q) as (D1 & D2). unfold line_pt, pos in D, D1, D2. cbn [vx vy px py] in D, D1, D2. rewrite X in D1. rewrite Y in D2.
    destruct H as [(E0 & R & E & S & S1 & S2)|(E0 & R & E & S & S1 & S2)]; [clear D1; rewrite E in D2, D|clear D2; rewrite E in D1, D].
    + assert (1 / 2 <= Rabs (y1 + k * (y2 - y1) - cy)); [|lra]. clear - Hk S S1 S2. destruct (Rle_lt_dec 0 (y1 - cy)) as [L|L].
      * assert (0 <= y2 - cy) by (apply Rnot_lt_le; intros Q; assert (0 <= (y1 - cy) * - (y2 - cy)) by (apply Rmult_le_pos; lra); lra). rewrite !Rabs_pos_eq in S1, S2 by lra. eapply Rle_trans; [|apply RRle_abs]. assert (0 <= k * (y2 - cy - 1 / 2)) by (apply Rmult_le_pos; lra). assert (0 <= (1 - k) * (y1 - cy - 1 / 2)) by (apply Rmult_le_pos; lra). lra.
      * assert (y2 - cy <= 0) by (apply Rnot_lt_le; intros Q; assert (0 <= - (y1 - cy) * (y2 - cy)) by (apply Rmult_le_pos; lra); lra). rewrite Rabs_left in S1 by lra. rewrite Rabs_left1 in S2 by lra. rewrite <- Rabs_Ropp. eapply Rle_trans; [|apply RRle_abs]. assert (0 <= k * (cy - y2 - 1 / 2)) by (apply Rmult_le_pos; lra). assert (0 <= (1 - k) * (cy - y1 - 1 / 2)) by (apply Rmult_le_pos; lra). lra.
    + assert (1 / 2 <= Rabs (x1 + k * (x2 - x1) - cx)); [|lra]. clear - Hk S S1 S2. destruct (Rle_lt_dec 0 (x1 - cx)) as [L|L].
      * assert (0 <= x2 - cx) by (apply Rnot_lt_le; intros Q; assert (0 <= (x1 - cx) * - (x2 - cx)) by (apply Rmult_le_pos; lra); lra). rewrite !Rabs_pos_eq in S1, S2 by lra. eapply Rle_trans; [|apply RRle_abs]. assert (0 <= k * (x2 - cx - 1 / 2)) by (apply Rmult_le_pos; lra). assert (0 <= (1 - k) * (x1 - cx - 1 / 2)) by (apply Rmult_le_pos; lra). lra.
      * assert (x2 - cx <= 0) by (apply Rnot_lt_le; intros Q; assert (0 <= - (x1 - cx) * (x2 - cx)) by (apply Rmult_le_pos; lra); lra). rewrite Rabs_left in S1 by lra. rewrite Rabs_left1 in S2 by lra. rewrite <- Rabs_Ropp. eapply Rle_trans; [|apply RRle_abs]. assert (0 <= k * (cx - x2 - 1 / 2)) by (apply Rmult_le_pos; lra). assert (0 <= (1 - k) * (cx - x1 - 1 / 2)) by (apply Rmult_le_pos; lra). lra.
Qed.
End Quarter.

Definition box_round : list (list (vertex R)) :=
  [[Vtx (-1 / 2) 0 b; Vtx 0 (-1 / 2) 0]; [Vtx 4 (-1 / 2) b; Vtx (9 / 2) 0 0]; [Vtx (9 / 2) 4 b; Vtx 4 (9 / 2) 0]; [Vtx 0 (9 / 2) b; Vtx (-1 / 2) 4 0]].
Definition box_dual : pline R := PL [Vtx 0 (-1 / 2) 0; Vtx 4 (-1 / 2) b; Vtx (9 / 2) 0 0; Vtx (9 / 2) 4 b; Vtx 4 (9 / 2) 0; Vtx 0 (9 / 2) b; Vtx (-1 / 2) 4 0; Vtx (-1 / 2) 0 b] true.

Lemma box_pick (P : vertex R -> vertex R -> Prop) :
  (forall b', P (Vtx 0 (-1 / 2) 0) (Vtx 4 (-1 / 2) b')) -> (forall b', P (Vtx (9 / 2) 0 0) (Vtx (9 / 2) 4 b')) ->
  (forall b', P (Vtx 4 (9 / 2) 0) (Vtx 0 (9 / 2) b')) -> (forall b', P (Vtx (-1 / 2) 4 0) (Vtx (-1 / 2) 0 b')) ->
  (forall cx cy ca sa a, (cx = 0 /\ cy = 0 /\ ca = -1 /\ sa = 0) \/ (cx = 4 /\ cy = 0 /\ ca = 0 /\ sa = -1) \/ (cx = 4 /\ cy = 4 /\ ca = 1 /\ sa = 0) \/ (cx = 0 /\ cy = 4 /\ ca = 0 /\ sa = 1) ->
     cos a = ca -> sin a = sa -> P (Vtx (cx + ca / 2) (cy + sa / 2) b) (Vtx (cx - sa / 2) (cy + ca / 2) 0)) ->
  forall u1 u2, In (u1, u2) (spec_segs (vtx box_dual) true) -> P u1 u2.
Proof.
  intros H1 H2 H3 H4 HA u1 u2 I. cbn in I. pose proof PI_RGT_0 as PP.
  destruct I as [I|[I|[I|[I|[I|[I|[I|[I|[]]]]]]]]]; injection I as <- <-; auto.
  - replace (Vtx 4 (-1 / 2) b) with (Vtx (4 + 0 / 2) (0 + -1 / 2) b) by (f_equal; lra). replace (Vtx (9 / 2) 0 0) with (Vtx (4 - -1 / 2) (0 + 0 / 2) 0) by (f_equal; lra).
    apply (HA 4 0 0 (-1) (- (PI / 2))); [lra|rewrite cos_neg; apply cos_PI2|rewrite sin_neg, sin_PI2; lra].
  - replace (Vtx (9 / 2) 4 b) with (Vtx (4 + 1 / 2) (4 + 0 / 2) b) by (f_equal; lra). replace (Vtx 4 (9 / 2) 0) with (Vtx (4 - 0 / 2) (4 + 1 / 2) 0) by (f_equal; lra).
    apply (HA 4 4 1 0 0); [lra|apply cos_0|apply sin_0].
  - replace (Vtx 0 (9 / 2) b) with (Vtx (0 + 0 / 2) (4 + 1 / 2) b) by (f_equal; lra). replace (Vtx (-1 / 2) 4 0) with (Vtx (0 - 1 / 2) (4 + 0 / 2) 0) by (f_equal; lra).
    apply (HA 0 4 0 1 (PI / 2)); [lra|apply cos_PI2|apply sin_PI2].
  - replace (Vtx (-1 / 2) 0 b) with (Vtx (0 + -1 / 2) (0 + 0 / 2) b) by (f_equal; lra). replace (Vtx 0 (-1 / 2) 0) with (Vtx (0 - 0 / 2) (0 + -1 / 2) 0) by (f_equal; lra).
    apply (HA 0 0 (-1) 0 PI); [lra|apply cos_PI|apply sin_PI].
Qed.

Ltac box_pt := intros (P1 & P2); cbn [vx vy] in P1, P2; revert P1 P2; rabs_lra.
Ltac box_dir := unfold clear_direction; cbn [vx vy]; first [left; lra|right; rabs_lra].
Ltac box_far Ca Sa := apply (quarter_far _ _ _ _ _ 0 Ca Sa); intros k l Hk Hl; first [left; rabs_lra|right; rabs_lra].

Lemma box_miss : clearly_miss (1 / 100000) box_raw box_dual.
Proof.
  intros v1 v2 u1 u2 I1 I2. cbn [is_closed box_raw box_dual] in I1, I2. cbn [vtx box_raw] in I1. revert u1 u2 I2. cbn in I1. destruct I1 as [I1|[I1|[I1|[I1|[]]]]]; injection I1 as <- <-; match goal with |- forall u1 u2, _ -> @?P u1 u2 => apply (box_pick P) end.
  all: try (intros b'; left; split; [split; [intros _ _|split; [intros _ Z; exfalso; apply Z; reflexivity|split; intros Z; exfalso; apply Z; reflexivity]]; unfold lines_clear, pos; cbn [px py]; first [left; beside_with 1|left; beside_with (-1)|right; left; beside_with 1|right; left; beside_with (-1)]|intros q O1 O2; apply line_on' in O1 as (? & ? & ? & ?); apply line_on' in O2 as (? & ? & ? & ?); lra]).
  all: intros cx cy ca sa a H Ca Sa.
  all: assert (U : (Rabs ca = 1 /\ sa = 0) \/ (ca = 0 /\ Rabs sa = 1)) by (destruct H as [(_ & _ & -> & ->)|[(_ & _ & -> & ->)|[(_ & _ & -> & ->)|(_ & _ & -> & ->)]]]; [left|right|left|right]; split; rabs_lra).
  all: destruct H as [(-> & -> & -> & ->)|[(-> & -> & -> & ->)|[(-> & -> & -> & ->)|(-> & -> & -> & ->)]]].
  all: first [right; left; match goal with |- touches_elsewhere _ (Vtx ?x1 ?y1 _) (Vtx ?x2 ?y2 _) (Vtx (?cx + ?ca / 2) (?cy + ?sa / 2) _) _ =>
      first [apply (quarter_touch cx cy ca sa a 0 Ca Sa U x1 y1 x2 y2 (-1 / 6)); [box_pt|box_dir|box_far Ca Sa|box_far Ca Sa|first [left; repeat split; first [lra|rabs_lra]|right; repeat split; first [lra|rabs_lra]]]
            |apply (quarter_touch cx cy ca sa a 0 Ca Sa U x1 y1 x2 y2 (7 / 6)); [box_pt|box_dir|box_far Ca Sa|box_far Ca Sa|first [left; repeat split; first [lra|rabs_lra]|right; repeat split; first [lra|rabs_lra]]]] end
    |left; split; [eapply quarter_miss; [exact Ca|exact Sa|box_pt|box_dir|intros k; first [left; rabs_lra|right; rabs_lra]]|intros q O1 O2; apply line_on in O1 as (? & ? & ? & ?); apply (quarter_on _ _ _ _ a 0 Ca Sa) in O2 as (? & ? & ? & ? & ? & ?); lra]].
Qed.

Lemma box_clear : clear_pline (1 / 100000) box_dual.
Proof.
  intros v1 v2 H. cbn in H. repeat (destruct H as [H|H]; [injection H as <- <-; split; [split; [cbn [pbulge]; first [left; reflexivity|right; rewrite Rabs_pos_eq by lra; lra]|cbn [pbulge]; intros E; first [now destruct E|unfold pos; cbn [px py]; intros Q; injection Q as Q1 Q2; lra]]|cbn [px py]; first [left; rabs_lra|right; rabs_lra]]|]). destruct H.
Qed.
Lemma box_lone : lone_path (1 / 100000) box_raw.
Proof.
  unfold lone_path, box_raw. cbn [vtx is_closed length]. split; [reflexivity|]. split; [lia|]. split; [|split].
  - intros v1 v2 H. cbn in H. repeat (destruct H as [H|H]; [injection H as <- <-; split; [split; [cbn [pbulge]; first [left; reflexivity|right; rewrite Rabs_pos_eq by lra; lra]|cbn [pbulge]; intros E; first [now destruct E|unfold pos; cbn [px py]; intros Q; injection Q as Q1 Q2; lra]]|cbn [px py]; first [left; rabs_lra|right; rabs_lra]]|]). destruct H.
  - intros i v1 v2 v3. destruct i as [|[|[|[|i]]]]; cbn; intros E1 E2; try discriminate; try (injection E1 as <- <-; injection E2 as <-).
    all: try (left; split; [reflexivity|]; split; [reflexivity|]; unfold cross, vec, pos; cbn [vx vy px py]; rabs_lra). destruct i; discriminate.
  - intros i j v1 v2 u1 u2.
    destruct i as [|[|[|[|i]]]]; cbn -[Nat.modulo]; intros E1; [..|destruct i; discriminate]; destruct j as [|[|[|[|j]]]]; cbn -[Nat.modulo]; intros E2; try (destruct j; discriminate); injection E1 as <- <-; injection E2 as <- <-; intros N1 N2 N3;
      try (exfalso; (now apply N1) || (now apply N2) || (now apply N3)); (split; [|intros q O1 O2; apply line_on' in O1 as (? & ? & ? & ?); apply line_on' in O2 as (? & ? & ? & ?); lra]).
    all: unfold sides_clear; cbn [pbulge]; split; [|split; [|split]]; intros Z1 Z2; try (exfalso; lra).
    all: try (unfold lines_clear, pos; cbn [px py]; first [left; beside_with 1|left; beside_with (-1)|right; left; beside_with 1|right; left; beside_with (-1)]).
Qed.
Lemma ln x1 y1 x2 y2 nx ny : nx * nx + ny * ny = 1 -> (x2 - x1) * nx + (y2 - y1) * ny = 0 -> 0 < (x2 - x1) * ny - (y2 - y1) * nx -> left_normal (V2 x1 y1) (V2 x2 y2) (V2 nx ny).
Proof. intros. split; [assumption|]. split; assumption. Qed.
Lemma box_made : made_corners (polygon ex_box) (1 / 2) (1 / 100000) box_corners.
Proof.
  assert (MET : forall x1 y1 x2 y2 x3 y3 nx ny mx my t u qx qy, nx * nx + ny * ny = 1 -> (x2 - x1) * nx + (y2 - y1) * ny = 0 -> 0 < (x2 - x1) * ny - (y2 - y1) * nx ->
     mx * mx + my * my = 1 -> (x3 - x2) * mx + (y3 - y2) * my = 0 -> 0 < (x3 - x2) * my - (y3 - y2) * mx -> 0 <= t <= 1 -> 0 <= u <= 1 ->
     qx = x1 + 1 / 2 * nx + t * (x2 - x1) -> qy = y1 + 1 / 2 * ny + t * (y2 - y1) -> qx = x2 + 1 / 2 * mx + u * (x3 - x2) -> qy = y2 + 1 / 2 * my + u * (y3 - y2) ->
     1 / 100000 <= Rabs ((x2 - x1) * (y3 - y2) - (y2 - y1) * (x3 - x2)) -> corner_made (1 / 2) (1 / 100000) (V2 x1 y1) (V2 x2 y2) (V2 x3 y3) [Vtx qx qy 0]).
  { intros. left. exists (V2 qx qy). split; [|reflexivity]. exists (V2 nx ny), (V2 mx my), t, u. split; [now apply ln|]. split; [now apply ln|]. split; [assumption|]. split; [assumption|].
    split; [unfold line_pt, moved; apply vec2_eq; cbn [vx vy]; lra|]. split; [unfold line_pt, moved; apply vec2_eq; cbn [vx vy]; lra|]. assumption. }
  split; [|split].
  - unfold polygon, ex_box, box_corners. cbn [vtx map spec_segs tl app combine with_previous last fst snd vertex_at pos px py vx vy]. unfold pos. cbn [px py vertex_at vx vy].
    constructor; [cbn; apply (MET 0 4 0 0 4 0 1 0 0 1 (7 / 8) (1 / 8)); lra || rabs_lra|].
    constructor; [cbn; apply (MET 0 0 4 0 4 4 0 1 (-1) 0 (7 / 8) (1 / 8)); lra || rabs_lra|].
    constructor; [cbn; apply (MET 4 0 4 4 0 4 (-1) 0 0 (-1) (7 / 8) (1 / 8)); lra || rabs_lra|].
    constructor; [cbn; apply (MET 4 4 0 4 0 0 0 (-1) 1 0 (7 / 8) (1 / 8)); lra || rabs_lra|]. constructor.
  - cbn. unfold pos. cbn [px py]. repeat (constructor; [cbn [fst snd px py]; intros (P1 & P2); cbn [vx vy] in P1, P2; revert P1 P2; rabs_lra|]). constructor.
  - cbn. intros a c n v [= <- <-] N [= <-]. unfold pos in *. cbn [px py vx vy vertex_at] in *. assert (N0 : n = V2 0 1).
    { apply (ProofConvexOff.normal_unique (V2 0 0) (V2 4 0)); [exact N|]. apply ln; lra. }
    subst n. intros (P1 & P2). unfold moved in P1, P2. cbn [vx vy] in P1, P2. revert P1 P2. rabs_lra.
Qed.
Lemma box_made_round : made_corners (polygon ex_box) (- (1 / 2)) (1 / 100000) box_round.
Proof.
  assert (RND : forall x1 y1 x2 y2 x3 y3 nx ny mx my al, nx * nx + ny * ny = 1 -> (x2 - x1) * nx + (y2 - y1) * ny = 0 -> 0 < (x2 - x1) * ny - (y2 - y1) * nx ->
     mx * mx + my * my = 1 -> (x3 - x2) * mx + (y3 - y2) * my = 0 -> 0 < (x3 - x2) * my - (y3 - y2) * mx ->
     4 <= (x2 - x1) * (y3 - y2) - (y2 - y1) * (x3 - x2) -> nx * mx + ny * my = 0 -> mx = - ny -> my = nx -> cos al = - nx -> sin al = - ny -> (nx = 0 /\ Rabs ny = 1) \/ (Rabs nx = 1 /\ ny = 0) ->
     corner_made (- (1 / 2)) (1 / 100000) (V2 x1 y1) (V2 x2 y2) (V2 x3 y3) [Vtx (x2 - nx / 2) (y2 - ny / 2) b; Vtx (x2 - mx / 2) (y2 - my / 2) 0]).
  { intros x1 y1 x2 y2 x3 y3 nx ny mx my al H1 H2 H3 H4 H5 H6 H7 H8 H9 H10 H11 H12 H13. right. eexists _, _. split; [|reflexivity]. exists (V2 nx ny), (V2 mx my), al. split; [now apply ln|]. split; [now apply ln|]. unfold cross, vec. cbn [vx vy]. split; [lra|]. split; [rewrite Rabs_pos_eq; lra|]. split.
    - intros x ((s & Es) & (t & Et)). pose proof (f_equal vx Es) as X1. pose proof (f_equal vy Es) as X2. pose proof (f_equal vx Et) as Y1. pose proof (f_equal vy Et) as Y2. unfold line_pt, moved in X1, X2, Y1, Y2. cbn [vx vy] in X1, X2, Y1, Y2.
      pose proof (ProofJordan.coord_dist (moved (V2 x2 y2) (V2 nx ny) (- (1 / 2))) x) as (D1 & D2). unfold moved in *. cbn [vx vy] in *. destruct H13 as [(E1 & E2)|(E1 & E2)].
      + rewrite E1 in *. assert (y1 = y2) by (destruct (Rcase_abs ny); [rewrite Rabs_left in E2 by lra|rewrite Rabs_right in E2 by lra]; assert (ny = 1 \/ ny = -1) as [Q|Q] by lra; rewrite Q in *; lra). assert (x3 = x2) by (rewrite H10, H9 in *; destruct (Rcase_abs ny); [rewrite Rabs_left in E2 by lra|rewrite Rabs_right in E2 by lra]; assert (ny = 1 \/ ny = -1) as [Q|Q] by lra; rewrite Q in *; lra).
        subst y1 x3. eapply Rle_trans; [|exact D1]. rewrite Y1, H9. replace (x2 + - (1 / 2) * - ny + t * (x2 + - (1 / 2) * - ny - (x2 + - (1 / 2) * - ny)) - (x2 + - (1 / 2) * 0)) with (ny / 2) by field. revert E2. rabs_lra.
      + rewrite E2 in *. assert (x1 = x2) by (assert (nx = 1 \/ nx = -1) as [Q|Q] by (revert E1; rabs_lra); rewrite Q in *; lra). assert (y3 = y2) by (rewrite H10, H9 in *; assert (nx = 1 \/ nx = -1) as [Q|Q] by (revert E1; rabs_lra); rewrite Q in *; lra).
        subst x1 y3. eapply Rle_trans; [|exact D2]. rewrite Y2, H10. replace (y2 + - (1 / 2) * nx + t * (y2 + - (1 / 2) * nx - (y2 + - (1 / 2) * nx)) - (y2 + - (1 / 2) * 0)) with (- nx / 2) by field. revert E1. rabs_lra.
    - split; [unfold pos, moved; apply vec2_eq; cbn [px py vx vy]; lra|]. split; [unfold vertex_at, moved; cbn [vx vy]; f_equal; lra|]. replace (Rabs (- (1 / 2))) with (1 / 2) by rabs_lra. cbn [pbulge]. split; [|rewrite Rabs_pos_eq; lra].
      pose proof (quarter_arc x2 y2 (- nx) (- ny) al 0 H11 H12) as Q. unfold pos in *. cbn [px py] in *. rewrite H9, H10. replace (x2 - nx / 2) with (x2 + - nx / 2) by lra. replace (y2 - ny / 2) with (y2 + - ny / 2) by lra. replace (y2 - nx / 2) with (y2 + - nx / 2) by lra. exact Q. }
  pose proof PI_RGT_0 as PP. split; [|split].
  - unfold polygon, ex_box, box_round. cbn [vtx map spec_segs tl app combine with_previous last fst snd vertex_at pos px py vx vy]. unfold pos. cbn [px py vertex_at vx vy].
    constructor; [cbn; pose proof (RND 0 4 0 0 4 0 1 0 0 1 PI) as H; replace (0 - 1 / 2) with (-1 / 2) in H by lra; replace (0 - 0 / 2) with 0 in H by lra; apply H; first [lra|rewrite cos_PI; lra|rewrite sin_PI; lra|right; split; rabs_lra]|].
    constructor; [cbn; pose proof (RND 0 0 4 0 4 4 0 1 (-1) 0 (- (PI / 2))) as H; replace (0 - 1 / 2) with (-1 / 2) in H by lra; replace (4 - 0 / 2) with 4 in H by lra; replace (4 - -1 / 2) with (9 / 2) in H by lra; replace (0 - 0 / 2) with 0 in H by lra; apply H; first [lra|rewrite cos_neg, cos_PI2; lra|rewrite sin_neg, sin_PI2; lra|left; split; rabs_lra]|].
    constructor; [cbn; pose proof (RND 4 0 4 4 0 4 (-1) 0 0 (-1) 0) as H; replace (4 - -1 / 2) with (9 / 2) in H by lra; replace (4 - 0 / 2) with 4 in H by lra; apply H; first [lra|rewrite cos_0; lra|rewrite sin_0; lra|right; split; rabs_lra]|].
    constructor; [cbn; pose proof (RND 4 4 0 4 0 0 0 (-1) 1 0 (PI / 2)) as H; replace (4 - -1 / 2) with (9 / 2) in H by lra; replace (4 - 0 / 2) with 4 in H by lra; replace (0 - 0 / 2) with 0 in H by lra; replace (0 - 1 / 2) with (-1 / 2) in H by lra; apply H; first [lra|rewrite cos_PI2; lra|rewrite sin_PI2; lra|left; split; rabs_lra]|]. constructor.
  - cbn. unfold pos. cbn [px py]. repeat (constructor; [cbn [fst snd px py]; intros (P1 & P2); cbn [vx vy] in P1, P2; revert P1 P2; rabs_lra|]). constructor.
  - cbn. intros a c n v [= <- <-] N [= <-]. unfold pos in *. cbn [px py vx vy vertex_at] in *. assert (N0 : n = V2 0 1).
    { apply (ProofConvexOff.normal_unique (V2 0 0) (V2 4 0)); [exact N|]. apply ln; lra. }
    subst n. intros (P1 & P2). unfold moved in P1, P2. cbn [vx vy] in P1, P2. revert P1 P2. rabs_lra.
Qed.

Lemma box_keeps q y : on_path box_raw q -> on_path (polygon ex_box) y -> 1 / 2 <= dist q y.
Proof.
  intros (v1 & v2 & I & O) Oy. apply ProofConvex.polygon_path in Oy as (c & e & t & J & Ht & ->). cbn [is_closed vtx box_raw] in I.
  assert (CD : forall w z, 1 / 2 <= Rabs (vx z - vx w) \/ 1 / 2 <= Rabs (vy z - vy w) -> 1 / 2 <= dist w z) by (intros w z H; destruct (ProofJordan.coord_dist w z); lra).
  cbn in I, J. repeat (destruct I as [I|I]; [injection I as <- <-; apply line_on' in O as (? & ? & ? & ?)|]); [..|destruct I].
  all: repeat (destruct J as [J|J]; [injection J as <- <-|]); try contradiction J.
  all: apply CD; unfold line_pt; cbn [vx vy]; first [left; rabs_lra|right; rabs_lra].
Qed.
End Box.

Lemma box_polygon : lone_polygon (1 / 100000) ex_box.
Proof.
  unfold lone_polygon, ex_box. cbn [length]. split; [lia|]. split.
  - intros i a b c. do 4 (destruct i as [|i]; [cbn; intros [= <- <-] [= <-]; unfold cross, vec; cbn [vx vy]; rabs_lra|]). cbn. destruct i; discriminate.
  - intros i j a b c e. do 4 (destruct i as [|i]; [cbn -[Nat.modulo]; intros [= <- <-]; do 4 (destruct j as [|j];
      [cbn; intros [= <- <-] N1 N2 N3; try (exfalso; (now apply N1) || (now apply N2) || (now apply N3)); first [left; beside_with 1|left; beside_with (-1)|right; beside_with 1|right; beside_with (-1)]|]);
      cbn; destruct j; discriminate|]).
    cbn. destruct i; discriminate.
Qed.

Lemma box_handled : parallel_offset_constructed (@list_index R _) (polygon ex_box) (1 / 2) (OO (1 / 100000) (1 / 10000) (1 / 10000) true) = Ret [box_raw].
Proof.
  destruct eighth as (B & S). assert (Ab : Rabs (1 / 2) = 1 / 2) by rabs_lra.
  apply (offsets_to_intro (@list_index R _) _ (1 / 2) (OO (1 / 100000) (1 / 10000) (1 / 10000) true) _ list_index_ok); [cbn; lia|]. intros idx IX.
  apply (simple_handled (@list_index R _) ex_box idx (1 / 2) (OO (1 / 100000) (1 / 10000) (1 / 10000) true) box_corners (box_round (tan (PI / 8))) list_index_ok IX); cbn [oo_pos_equal_eps oo_slice_join_eps oo_offset_dist_eps].
  - lra.
  - lra.
  - rewrite Ab. lra.
  - apply (lone_once (1 / 100000)); [lra|exact box_polygon].
  - exact box_made.
  - exact box_lone.
  - rewrite Ab. exact box_keeps.
  - now apply box_made_round.
  - exact (box_clear _ B).
  - exact (box_miss _ B S).
Qed.

Lemma angle_path : let p := polygon ex_angle in let r := angle_raw (tan (PI / 8)) in
  (forall x, on_path r x <-> inside p x = true /\ (forall y, on_path p y -> 1 / 2 <= dist x y) /\ exists y, on_path p y /\ dist x y = 1 / 2)
  /\ orientation r = Ret Clockwise /\ exists B, area r = Ret B /\ -12 <= B < 0.
Proof.
  intros p r. destruct eighth as (B & S). assert (Ab : Rabs (-1 / 2) = 1 / 2) by rabs_lra.
  pose proof (simple_path ex_angle (-1 / 2) rect_ex_opts (angle_corners (tan (PI / 8))) (-12)) as H. cbv zeta in H. rewrite Ab in H. rewrite angle_round in H. fold p r in H.
  destruct H as (H1 & H2 & B' & E & P & I & _); [cbn; lra|lra|apply (lone_once (1 / 100000)); [lra|exact ex_angle_lone]|exact angle_area|now apply angle_made|exact (angle_lone _ B S)|exact (angle_keeps _ B S)|].
  split; [|split].
  - intros x. rewrite (H1 x). assert (G : 0 < -1 / 2 * -12) by lra. split; [intros (Q & F); split; [now apply Q|exact F]|intros (Q & F); split; [now split|exact F]].
  - rewrite H2. exact ex_angle_orientation.
  - exists B'. split; [exact E|]. specialize (I ltac:(lra)). assert (N : B' < 0) by lra. rewrite (Rabs_left B' N), Rabs_left in I by lra. lra.
Qed.
