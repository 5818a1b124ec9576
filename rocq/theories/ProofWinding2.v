(** The winding number of the code counts full turns (C15). *)
From Coq Require Import Reals ZArith Bool List Arith Lra Lia Psatz.
From Verif Require Import Num RNum Res ModelMath ModelSeg ModelPline Spec SpecGeom SpecBox SpecWinding.
From Verif Require Import ProofR ProofBase ProofIter ProofArc ProofArc2 ProofSlice ProofMeasure ProofWalk ProofWinding.
Import ListNotations.
Local Open Scope R_scope.

(** ** The direction of a point, as an angle in (0, 2 pi] *)
Definition br (pt q : vec2 R) : R :=
  if Rlt_dec 0 (angle pt q) then angle pt q else angle pt q + 2 * PI.

Lemma br_spec pt q : q <> pt -> exists r, 0 < r /\ q = circle_pt pt r (br pt q) /\ 0 < br pt q <= 2 * PI.
Proof.
  intros H. destruct (angle_spec pt q H) as (r & _ & Hr & E & B). exists r. split; [exact Hr|].
  pose proof PI_pos. unfold br. destruct (Rlt_dec 0 (angle pt q)) as [L|L].
  - split; [exact E|lra].
  - split; [|lra]. rewrite E at 1. apply circle_pt_congr. exists (-1)%Z. lra.
Qed.

Lemma sin_neg_range x : PI <= x <= 2 * PI -> sin x <= 0.
Proof. intros H. apply sin_le_0; lra. Qed.

Lemma br_above pt q : q <> pt -> vy pt < vy q -> 0 < br pt q < PI.
Proof.
  intros H L. destruct (br_spec pt q H) as (r & Hr & E & B). split; [lra|].
  apply Rnot_le_lt. intros N. pose proof (sin_neg_range (br pt q) ltac:(lra)).
  apply (f_equal vy) in E. cbn [circle_pt vy] in E. assert (r * sin (br pt q) <= 0) by nra. lra.
Qed.

Lemma br_below pt q : q <> pt -> vy q <= vy pt -> PI <= br pt q <= 2 * PI.
Proof.
  intros H L. destruct (br_spec pt q H) as (r & Hr & E & B). split; [|lra].
  apply Rnot_lt_le. intros N. assert (0 < sin (br pt q)) by (apply sin_gt_0; lra).
  apply (f_equal vy) in E. cbn [circle_pt vy] in E. assert (0 < r * sin (br pt q)) by nra. lra.
Qed.

(** ** Sign of the sine *)
Lemma sin_cases x : - (2 * PI) < x < 2 * PI ->
  (x < - PI /\ 0 < sin x) \/ (x = - PI /\ sin x = 0) \/ (- PI < x < 0 /\ sin x < 0) \/ (x = 0 /\ sin x = 0)
  \/ (0 < x < PI /\ 0 < sin x) \/ (x = PI /\ sin x = 0) \/ (PI < x /\ sin x < 0).
Proof.
  intros H. pose proof PI_pos.
  destruct (Rtotal_order x (- PI)) as [L|[->|L]].
  - left. split; [exact L|]. replace x with (- (- x)) by ring. rewrite sin_neg.
    assert (sin (- x) < 0); [|lra]. apply sin_lt_0; lra.
  - right. left. split; [reflexivity|]. rewrite sin_neg, sin_PI. ring.
  - right. right. destruct (Rtotal_order x 0) as [L2|[->|L2]].
    + left. split; [lra|]. apply sin_lt_0_var; lra.
    + right. left. split; [reflexivity|]. apply sin_0.
    + right. right. destruct (Rtotal_order x PI) as [L3|[->|L3]].
      * left. split; [lra|]. apply sin_gt_0; lra.
      * right. left. split; [reflexivity|]. apply sin_PI.
      * right. right. split; [exact L3|]. apply sin_lt_0; lra.
Qed.

Lemma pin (w k : Z) x : x = IZR w * (2 * PI) -> IZR k * (2 * PI) - 2 * PI < x < IZR k * (2 * PI) + 2 * PI -> w = k.
Proof.
  intros E H. pose proof PI_pos.
  assert (IZR w < IZR k + 1) by nra. assert (IZR k - 1 < IZR w) by nra.
  assert (w < k + 1)%Z by (apply lt_IZR; rewrite plus_IZR; lra).
  assert (k - 1 < w)%Z by (apply lt_IZR; rewrite minus_IZR; lra). lia.
Qed.

(** ** What a turn says about the ends *)
Definition perp (v1 v2 : vertex R) (pt : vec2 R) : R :=
  (px v2 - px v1) * (vy pt - py v1) - (py v2 - py v1) * (vx pt - px v1).

Lemma turn_ends v1 v2 pt d : seg_ok v1 v2 -> ~ on_seg v1 v2 pt -> turns_by v1 v2 pt d ->
  pos v1 <> pt /\ pos v2 <> pt
  /\ (exists w, d = br pt (pos v2) - br pt (pos v1) + IZR w * (2 * PI))
  /\ exists k, 0 < k /\ perp v1 v2 pt = k * sin (br pt (pos v2) - br pt (pos v1)).
Proof.
  intros Hok Hoff (phi & rho & _ & Hr & Hq & ->).
  pose proof (seg_at_0 v1 v2 Hok) as S0. pose proof (seg_at_1 v1 v2 Hok) as S1.
  assert (N1 : pos v1 <> pt) by (intros E; apply Hoff; exists 0; split; [lra|rewrite <- E; exact S0]).
  assert (N2 : pos v2 <> pt) by (intros E; apply Hoff; exists 1; split; [lra|rewrite <- E; exact S1]).
  split; [exact N1|]. split; [exact N2|].
  destruct (br_spec pt (pos v1) N1) as (r1 & R1 & E1 & B1). destruct (br_spec pt (pos v2) N2) as (r2 & R2 & E2 & B2).
  pose proof (Hq 0 (pos v1) ltac:(lra) S0) as Q1. pose proof (Hq 1 (pos v2) ltac:(lra) S1) as Q2.
  pose proof (Hr 0 ltac:(lra)) as P1. pose proof (Hr 1 ltac:(lra)) as P2.
  split.
  - pose proof (angle_congr pt (rho 0) (phi 0) P1) as C1. rewrite <- Q1 in C1.
    pose proof (angle_congr pt (rho 1) (phi 1) P2) as C2. rewrite <- Q2 in C2.
    assert (D1 : congr (angle pt (pos v1)) (br pt (pos v1))). { rewrite E1 at 1. now apply angle_congr. }
    assert (D2 : congr (angle pt (pos v2)) (br pt (pos v2))). { rewrite E2 at 1. now apply angle_congr. }
    assert (congr (phi 1 - phi 0) (br pt (pos v2) - br pt (pos v1))).
    { apply congr_minus; eapply congr_trans; [apply congr_sym; exact C2|exact D2|apply congr_sym; exact C1|exact D1]. }
    exact H.
  - exists (r1 * r2). split; [now apply Rmult_lt_0_compat|]. rewrite sin_minus.
    set (a1 := br pt (pos v1)) in *. set (a2 := br pt (pos v2)) in *. clearbody a1 a2.
    unfold circle_pt, pos in E1, E2. injection E1 as X1 Y1. injection E2 as X2 Y2.
    unfold perp. rewrite X1, Y1, X2, Y2. ring.
Qed.

(** ** Integers from ranges *)
Section Turns.
Variables (v1 v2 : vertex R) (pt : vec2 R) (d : R) (w : Z).
Hypothesis N1 : pos v1 <> pt.
Hypothesis N2 : pos v2 <> pt.
Hypothesis Hd : d = br pt (pos v2) - br pt (pos v1) + IZR w * (2 * PI).
Variable k : R.
Hypothesis Hk : 0 < k.
Hypothesis HC : perp v1 v2 pt = k * sin (br pt (pos v2) - br pt (pos v1)).

Lemma perp_sign : (0 < sin (br pt (pos v2) - br pt (pos v1)) <-> 0 < perp v1 v2 pt)
  /\ (sin (br pt (pos v2) - br pt (pos v1)) < 0 <-> perp v1 v2 pt < 0).
Proof. rewrite HC. set (s := sin _). clearbody s. split; split; intros; nra. Qed.

Lemma br_range : - (2 * PI) < br pt (pos v2) - br pt (pos v1) < 2 * PI.
Proof.
  destruct (br_spec pt (pos v1) N1) as (_ & _ & _ & ?). destruct (br_spec pt (pos v2) N2) as (_ & _ & _ & ?). lra.
Qed.

Lemma narrow_winding : - PI < d < PI -> 
  w = process_line_winding v1 v2 pt
  /\ (perp v1 v2 pt = 0 -> (py v1 <= vy pt <-> py v2 <= vy pt)).
Proof.
  intros B. pose proof perp_sign as (S1 & S2). pose proof br_range as BR. pose proof PI_pos as HP.
  pose proof (sin_cases _ BR) as SC.
  assert (EL : is_left (pos v1) (pos v2) pt = rltb 0 (perp v1 v2 pt)) by reflexivity.
  unfold process_line_winding. rewrite EL. rnum.
  assert (EW : d - (br pt (pos v2) - br pt (pos v1)) = IZR w * (2 * PI)) by lra.
  destruct (rleb_spec (py v1) (vy pt)) as [L1|L1], (rltb_spec (vy pt) (py v2)) as [L2|L2];
    destruct (rleb_spec (py v2) (vy pt)) as [L3|L3]; try lra.
  - pose proof (br_below pt (pos v1) N1 L1). pose proof (br_above pt (pos v2) N2 L2).
    destruct (rltb_spec 0 (perp v1 v2 pt)) as [L|L]; cbn [andb].
    + split; [|intros; lra]. apply (pin w 1 _ EW). apply S1 in L. decompose [or and] SC; lra.
    + assert (NE : br pt (pos v2) - br pt (pos v1) <> - PI).
      { intros E. assert (- PI = d \/ d = PI \/ d = -3 * PI \/ True) by auto.
        assert (H3 : d + PI = IZR w * (2 * PI)) by lra.
        assert (W : (0 < w < 1)%Z). { split; apply lt_IZR; nra. } lia. }
      split.
      * apply (pin w 0 _ EW). decompose [or and] SC; lra.
      * intros EZ. exfalso. decompose [or and] SC; lra.
  - pose proof (br_below pt (pos v1) N1 L1). pose proof (br_below pt (pos v2) N2 L3).
    cbn [andb]. split; [|intros; tauto]. apply (pin w 0 _ EW). lra.
  - pose proof (br_above pt (pos v1) N1 ltac:(cbn; lra)). pose proof (br_above pt (pos v2) N2 L2).
    cbn [andb]. split; [|intros; split; intros; exfalso; lra]. apply (pin w 0 _ EW). lra.
  - pose proof (br_above pt (pos v1) N1 ltac:(cbn; lra)). pose proof (br_below pt (pos v2) N2 L3).
    assert (NE : br pt (pos v2) - br pt (pos v1) <> PI).
    { intros E. assert (H3 : d - PI = IZR w * (2 * PI)) by lra.
      assert (W : (-1 < w < 0)%Z). { split; apply lt_IZR; nra. } lia. }
    destruct (rltb_spec 0 (perp v1 v2 pt)) as [L|L]; cbn [andb negb].
    + split; [|intros; lra]. apply (pin w 0 _ EW). apply S1 in L. decompose [or and] SC; lra.
    + split.
      * apply (pin w (-1) _ EW). decompose [or and] SC; lra.
      * intros EZ. exfalso. decompose [or and] SC; lra.
Qed.

(** The point is strictly inside the circle whose diameter is the chord if it is inside the circle of
    the arc and on the arc's side of the chord. *)
Lemma thales b : b <> 0 -> inside_circle (centre_of (pos v1) (pos v2) b) (radius_of (pos v1) (pos v2) b) pt ->
  (vx pt - px v1) * (vx pt - px v2) + (vy pt - py v1) * (vy pt - py v2)
  < 2 * ((1 - b * b) / (4 * b)) * perp v1 v2 pt.
Proof.
  intros Hb Hin. unfold inside_circle in Hin. destruct (radius_sqr (pos v1) (pos v2) b Hb) as [E _]. cbn zeta in E.
  rewrite <- E in Hin. unfold centre_of, pos, perp in *. cbn [vx vy] in *. set (m := (1 - b * b) / (4 * b)) in *. nra.
Qed.

Lemma wide_ccw : 0 < d < 2 * PI ->
  ((vy pt < py v1 /\ vy pt < py v2 \/ py v1 <= vy pt /\ py v2 <= vy pt) -> perp v1 v2 pt <= 0 ->
     (vx pt - px v1) * (vx pt - px v2) + (vy pt - py v1) * (vy pt - py v2) < 0) ->
  w = (if rleb (py v1) (vy pt)
       then if rltb (vy pt) (py v2) then 1%Z
            else if negb (rltb 0 (perp v1 v2 pt)) && rltb (px v2) (vx pt) && rltb (vx pt) (px v1) then 1%Z else 0%Z
       else if rleb (py v2) (vy pt) then 0%Z
            else if negb (rltb 0 (perp v1 v2 pt)) && rltb (px v1) (vx pt) && rltb (vx pt) (px v2) then 1%Z else 0%Z).
Proof.
  intros B HT. pose proof perp_sign as (S1 & S2). pose proof br_range as BR. pose proof PI_pos as HP.
  pose proof (sin_cases _ BR) as SC.
  assert (EW : d - (br pt (pos v2) - br pt (pos v1)) = IZR w * (2 * PI)) by lra.
  assert (NZ : br pt (pos v2) - br pt (pos v1) <> 0).
  { intros E. assert (H3 : d = IZR w * (2 * PI)) by lra.
    assert (W : (0 < w < 1)%Z). { split; apply lt_IZR; nra. } lia. }
  destruct (rleb_spec (py v1) (vy pt)) as [L1|L1], (rltb_spec (vy pt) (py v2)) as [L2|L2];
    destruct (rleb_spec (py v2) (vy pt)) as [L3|L3]; try lra.
  - pose proof (br_below pt (pos v1) N1 L1). pose proof (br_above pt (pos v2) N2 L2).
    apply (pin w 1 _ EW). lra.
  - pose proof (br_below pt (pos v1) N1 L1). pose proof (br_below pt (pos v2) N2 L3).
    destruct (rltb_spec 0 (perp v1 v2 pt)) as [L|L]; cbn [andb negb].
    + apply (pin w 0 _ EW). apply S1 in L. decompose [or and] SC; lra.
    + specialize (HT (or_intror (conj L1 L3)) ltac:(lra)).
      destruct (rltb_spec (px v2) (vx pt)) as [X2|X2], (rltb_spec (vx pt) (px v1)) as [X1|X1]; cbn [andb].
      * apply (pin w 1 _ EW). decompose [or and] SC; try lra; exfalso.
        { destruct (br_spec pt (pos v1) N1) as (r1 & R1 & E1 & B1). destruct (br_spec pt (pos v2) N2) as (r2 & R2 & E2 & B2).
          assert (A1 : br pt (pos v1) = PI) by lra. rewrite A1 in E1. unfold circle_pt, pos in E1. injection E1 as EX _. rewrite cos_PI in EX. lra. }
      * exfalso. unfold perp in L. nra.
      * apply (pin w 0 _ EW). exfalso. unfold perp in L. nra.
      * (* same height, the point between the ends *)
        assert (XX : px v1 <= vx pt /\ vx pt <= px v2) by lra.
        assert (YY : 0 <= (vy pt - py v1) * (vy pt - py v2)) by (apply Rmult_le_pos; lra).
        assert (XS : px v1 < vx pt /\ vx pt < px v2).
        { split; apply Rnot_le_lt; intros NX; [assert (vx pt = px v1) by lra|assert (vx pt = px v2) by lra]; nra. }
        assert (EY : py v1 = vy pt /\ py v2 = vy pt).
        { unfold perp in L. 
          assert (Q1 : (vx pt - px v1) * (py v2 - py v1) <= (vx pt - px v1) * (vy pt - py v1)) by (apply Rmult_le_compat_l; lra).
          assert (Q2 : 0 < (px v2 - vx pt)) by lra.
          assert (E1 : vy pt - py v1 = 0) by nra. assert (E2 : 0 <= (vx pt - px v1) * (py v2 - py v1)) by nra.
          assert (0 <= py v2 - py v1) by nra. lra. }
        destruct (br_spec pt (pos v1) N1) as (r1 & R1 & E1 & B1). destruct (br_spec pt (pos v2) N2) as (r2 & R2 & E2 & B2).
        apply (pin w 0 _ EW). enough (0 <= br pt (pos v2) - br pt (pos v1)) by lra.
        apply (f_equal vx) in E2. apply (f_equal vx) in E1. apply Rnot_lt_le. intros NL.
        assert (SZ : sin (br pt (pos v2) - br pt (pos v1)) = 0).
        { assert (PZ : perp v1 v2 pt = 0) by (unfold perp; destruct EY as [-> ->]; ring).
          rewrite PZ in HC. symmetry in HC. apply Rmult_integral in HC. destruct HC; lra. }
        assert (br pt (pos v1) = 2 * PI) by (decompose [or and] SC; lra).
        rewrite H1 in E1. cbn [circle_pt vx pos] in E1. rewrite cos_2PI in E1. lra.
  - pose proof (br_above pt (pos v1) N1 ltac:(cbn; lra)). pose proof (br_above pt (pos v2) N2 L2).
    destruct (rltb_spec 0 (perp v1 v2 pt)) as [L|L]; cbn [andb negb].
    + apply (pin w 0 _ EW). apply S1 in L. decompose [or and] SC; lra.
    + assert (w = 1%Z) by (apply (pin w 1 _ EW); decompose [or and] SC; lra). rewrite H1.
      specialize (HT ltac:(left; lra) ltac:(lra)).
      assert (YY : 0 < (vy pt - py v1) * (vy pt - py v2)).
      { replace ((vy pt - py v1) * (vy pt - py v2)) with ((py v1 - vy pt) * (py v2 - vy pt)) by ring. apply Rmult_lt_0_compat; lra. }
      assert (XX : (vx pt - px v1) * (vx pt - px v2) < 0) by lra.
      destruct (rltb_spec (px v1) (vx pt)) as [X1|X1], (rltb_spec (vx pt) (px v2)) as [X2|X2]; cbn [andb]; [reflexivity|exfalso|exfalso|exfalso].
      * nra.
      * nra.
      * assert (X1' : vx pt < px v1) by nra. assert (X2' : px v2 < vx pt) by nra.
        unfold perp in L.
        assert (0 < (px v1 - px v2) * (py v1 - vy pt) - (px v1 - vx pt) * (py v1 - py v2)); [|nra].
        destruct (Rle_dec (py v1 - py v2) 0) as [S|S].
        -- assert (0 <= (px v1 - vx pt) * - (py v1 - py v2)) by (apply Rmult_le_pos; lra).
           assert (0 < (px v1 - px v2) * (py v1 - vy pt)) by (apply Rmult_lt_0_compat; lra). lra.
        -- assert ((px v1 - vx pt) * (py v1 - py v2) < (px v1 - px v2) * (py v1 - vy pt)); [|lra].
           apply Rmult_le_0_lt_compat; lra.
  - pose proof (br_above pt (pos v1) N1 ltac:(cbn; lra)). pose proof (br_below pt (pos v2) N2 L3).
    apply (pin w 0 _ EW). lra.
Qed.
End Turns.
