(** Proofs about bounding boxes of segments (C10) and of the whole path (C09). *)
From Coq Require Import Reals ZArith Bool List Arith Lra Lia Psatz.
From Verif Require Import Num RNum Res ModelMath ModelSeg ModelPline Spec SpecGeom SpecBox.
From Verif Require Import ProofR ProofBase ProofIter ProofArc ProofArc2 ProofMeasure ProofSlice.
Import ListNotations.
Local Open Scope R_scope.

Lemma cos_interval_max a x b : 0 <= a -> a <= x -> x <= b -> b <= 2 * PI -> cos x <= Rmax (cos a) (cos b).
Proof.
  intros H1 H2 H3 H4. pose proof PI_pos. destruct (Rle_dec x PI) as [L|L].
  - eapply Rle_trans; [|apply Rmax_l]. apply cos_decr_1; lra.
  - eapply Rle_trans; [|apply Rmax_r]. apply cos_incr_1; lra.
Qed.

Lemma cos_small x : Rabs x <= 1 / 100000000 -> 1 - 1 / 10000000000000000 <= cos x.
Proof.
  intros H. replace x with (2 * (x / 2)) by field. rewrite cos_2a_sin.
  assert (S : Rabs (sin (x / 2)) <= Rabs (x / 2)).
  { destruct (Rle_dec 0 x) as [P|P].
    - destruct (Rle_lt_or_eq_dec _ _ P) as [Q|Q].
      + pose proof (sin_lt_x (x / 2) ltac:(lra)). assert (0 <= sin (x / 2)).
        { apply sin_ge_0; [lra|]. rewrite Rabs_pos_eq in H by lra. pose proof PI2_3_2. unfold PI2 in *. lra. }
        rewrite !Rabs_pos_eq by lra. lra.
      + rewrite <- Q. replace (0 / 2) with 0 by field. rewrite sin_0. lra.
    - assert (Q : 0 < - x) by lra. rewrite <- (Rabs_Ropp (sin _)), <- sin_neg, <- (Rabs_Ropp (x / 2)).
      replace (- (x / 2)) with (- x / 2) by field.
      pose proof (sin_lt_x (- x / 2) ltac:(lra)). assert (0 <= sin (- x / 2)).
      { apply sin_ge_0; [lra|]. rewrite <- Rabs_Ropp in H. rewrite Rabs_pos_eq in H by lra. pose proof PI2_3_2. unfold PI2 in *. lra. }
      rewrite !Rabs_pos_eq by lra. lra. }
  assert (B : Rabs (x / 2) <= 1 / 200000000).
  { unfold Rdiv at 1. rewrite Rabs_mult. rewrite (Rabs_pos_eq (/ 2)) by lra. lra. }
  set (s := sin (x / 2)) in *. assert (B2 : Rabs s <= 1 / 200000000) by lra.
  assert (Q : s * s <= 1 / 200000000 * (1 / 200000000)).
  { rewrite <- (Rabs_pos_eq (s * s)) by nra. rewrite Rabs_mult. apply Rmult_le_compat; try apply Rabs_pos; assumption. }
  lra.
Qed.

(** ** Does the turn of size [w] from [al] pass the direction [e]? *)
Lemma extreme al w e :
  0 <= w <= PI ->
  let cr := angle_is_between_eps e al (al + w) (1 / 100000000) in
  (cr = false -> forall x, 0 <= x <= w -> cos (al + x - e) <= Rmax (cos (al - e)) (cos (al + w - e)))
  /\ (cr = true -> exists x, 0 <= x <= w /\ 1 - 1 / 10000000000000000 <= cos (al + x - e)).
Proof.
  intros Hw. cbv zeta. unfold angle_is_between_eps. rnum. pose proof PI_pos as HPI.
  replace (al + w - al) with w by ring.
  assert (EW : normalize_radians w = w).
  { unfold normalize_radians. rnum. destruct (rleb_spec 0 w); [|lra]. destruct (rleb_spec w (2 * PI)); [|lra]. reflexivity. }
  rewrite EW. destruct (normalize_radians_spec (e - al)) as ((k & Ek) & (B1 & B2) & _).
  set (m := normalize_radians (e - al)) in *.
  assert (Ecos : forall x, cos (al + x - e) = cos (m - x)).
  { intros x. rewrite <- (cos_neg (m - x)). apply congr_cos. exists k. rewrite Ek. ring. }
  split; intros H.
  - apply rltb_false in H. intros x Hx. rewrite Ecos.
    replace (al - e) with (al + 0 - e) by ring. rewrite !Ecos. rewrite Rmax_comm. apply cos_interval_max; lra.
  - apply rltb_true in H. destruct (Rle_dec m w) as [L|L].
    + exists m. split; [lra|]. rewrite Ecos. replace (m - m) with 0 by ring. rewrite cos_0. lra.
    + exists w. split; [lra|]. rewrite Ecos. apply cos_small. rewrite Rabs_pos_eq; lra.
Qed.

(** ** A drawn arc as a counter-clockwise turn *)
Lemma arc_turn v1 v2 : seg_ok v1 v2 -> pbulge v1 <> 0 ->
  let c := centre_of (pos v1) (pos v2) (pbulge v1) in
  let r := radius_of (pos v1) (pos v2) (pbulge v1) in
  exists al w, 0 <= w <= PI
    /\ (forall e, angle_is_within_sweep e (angle c (pos v1))
                    (delta_angle_signed (angle c (pos v1)) (angle c (pos v2)) (bulge_is_neg v1))
                  = angle_is_between_eps e al (al + w) (1 / 100000000))
    /\ (forall q, on_seg v1 v2 q <-> exists x, 0 <= x <= w /\ q = circle_pt c r (al + x))
    /\ ((pos v1 = circle_pt c r al /\ pos v2 = circle_pt c r (al + w))
        \/ (pos v2 = circle_pt c r al /\ pos v1 = circle_pt c r (al + w))).
Proof.
  intros [HB HP] Hb c r. specialize (HP Hb).
  assert (H1 : Rabs (pbulge v1) <= 1) by (destruct HB as [HB|[_ HB]]; [contradiction|exact HB]).
  pose proof (computed_is_arc _ _ _ HP Hb) as HA. fold c r in HA.
  destruct (computed_sweep _ _ _ _ _ _ HP Hb H1 HA) as [ES _].
  pose proof (sweep_bound _ H1) as SB. pose proof (sweep_nonzero _ Hb) as SN.
  assert (EN : bulge_is_neg v1 = rltb (pbulge v1) 0) by reflexivity.
  rewrite EN, ES. set (a := angle c (pos v1)) in *. set (th := sweep (pbulge v1)) in *.
  destruct HA as (R0 & P1 & P2). fold th in P2.
  assert (ON : forall q, on_seg v1 v2 q <-> exists t, 0 <= t <= 1 /\ q = circle_pt c r (a + t * th)).
  { intros q. unfold on_seg. split; intros (t & Ht & Q); exists t; (split; [exact Ht|]).
    - apply seg_at_arc in Q; auto.
    - apply seg_at_arc; auto. }
  destruct (Rlt_dec th 0) as [N|N].
  - exists (a + th), (- th). split; [lra|]. split; [|split].
    + intros e. unfold angle_is_within_sweep, angle_is_within_sweep_eps. rnum.
      destruct (rltb_spec th 0) as [_|?]; [|lra]. replace (a + th + - th) with a by ring. reflexivity.
    + intros q. rewrite ON. split.
      * intros (t & Ht & ->). exists ((1 - t) * (- th)). split; [nra|]. f_equal. ring.
      * intros (x & Hx & ->). exists (1 - x / (- th)). split.
        { assert (0 <= x / - th) by (apply Rmult_le_pos; [lra|apply Rlt_le, Rinv_0_lt_compat; lra]).
          assert (x / - th <= 1) by (apply Rmult_le_reg_r with (- th); [lra|]; unfold Rdiv; rewrite Rmult_assoc, Rinv_l; lra). lra. }
        { f_equal. field. lra. }
    + right. split; [exact P2|]. rewrite P1. f_equal. ring.
  - exists a, th. split; [lra|]. split; [|split].
    + intros e. unfold angle_is_within_sweep, angle_is_within_sweep_eps. rnum.
      destruct (rltb_spec th 0) as [?|_]; [lra|]. reflexivity.
    + intros q. rewrite ON. split.
      * intros (t & Ht & ->). exists (t * th). split; [nra|reflexivity].
      * intros (x & Hx & ->). exists (x / th). split.
        { split; [apply Rmult_le_pos; [lra|apply Rlt_le, Rinv_0_lt_compat; lra]|].
          apply Rmult_le_reg_r with th; [lra|]; unfold Rdiv; rewrite Rmult_assoc, Rinv_l; lra. }
        { f_equal. field. lra. }
    + left. split; [exact P1|exact P2].
Qed.

(** One side of the exact box: [f] is the coordinate in direction [e], [k] its value at the centre. *)
Lemma arc_side c r al w e k (f : vec2 R -> R) (p1 p2 : vec2 R) :
  0 <= w <= PI -> 0 <= r -> (forall x, f (circle_pt c r x) = k + r * cos (x - e)) ->
  (p1 = circle_pt c r al /\ p2 = circle_pt c r (al + w) \/ p2 = circle_pt c r al /\ p1 = circle_pt c r (al + w)) ->
  let hi := if angle_is_between_eps e al (al + w) (1 / 100000000) then k + r else Rmax (f p1) (f p2) in
  (forall x, 0 <= x <= w -> f (circle_pt c r (al + x)) <= hi)
  /\ exists x, 0 <= x <= w /\ hi - r * (1 / 10000000000000000) <= f (circle_pt c r (al + x)) <= hi.
Proof.
  intros Hw Hr Hf HP hi.
  assert (EM : Rmax (f p1) (f p2) = k + r * Rmax (cos (al - e)) (cos (al + w - e))).
  { assert (E : Rmax (f p1) (f p2) = Rmax (f (circle_pt c r al)) (f (circle_pt c r (al + w)))).
    { destruct HP as [[-> ->]|[-> ->]]; [reflexivity|apply Rmax_comm]. }
    rewrite E, !Hf. unfold Rmax. destruct (Rle_dec (k + _) _) as [L|L], (Rle_dec (cos (al - e)) _) as [M|M]; try nra. }
  destruct (extreme al w e Hw) as [X1 X2].
  destruct (angle_is_between_eps e al (al + w) (1 / 100000000)).
  - destruct (X2 eq_refl) as (x & Hx & C). unfold hi. split.
    + intros y Hy. rewrite Hf. pose proof (COS_bound (al + y - e)). nra.
    + exists x. split; [exact Hx|]. rewrite Hf. pose proof (COS_bound (al + x - e)). nra.
  - specialize (X1 eq_refl). unfold hi. rewrite EM. split.
    + intros x Hx. rewrite Hf. apply Rplus_le_compat_l. apply Rmult_le_compat_l; [exact Hr|]. now apply X1.
    + assert (D : exists x, 0 <= x <= w /\ cos (al + x - e) = Rmax (cos (al - e)) (cos (al + w - e))).
      { unfold Rmax. destruct (Rle_dec (cos (al - e)) (cos (al + w - e))).
        - exists w. split; [lra|reflexivity].
        - exists 0. split; [lra|]. f_equal. ring. }
      destruct D as (x & Hx & Ex). exists x. split; [exact Hx|]. rewrite Hf, Ex. nra.
Qed.

Lemma Rmin_as_max x y : Rmin x y = - Rmax (- x) (- y).
Proof. unfold Rmin, Rmax. destruct (Rle_dec x y), (Rle_dec (- x) (- y)); lra. Qed.

Lemma v2fuzzy_short v1 v2 : pbulge v1 <> 0 -> (v2fuzzy_eq (pos v1) (pos v2) = true <-> short_arc v1 v2).
Proof.
  intros Hb. unfold v2fuzzy_eq, v2fuzzy_eq_eps, fuzzy_eq_eps, pos, short_arc. rnum. cbn [vx vy].
  rewrite andb_true_iff, !rltb_true. tauto.
Qed.

Lemma arc_box v1 v2 : seg_ok v1 v2 -> pbulge v1 <> 0 -> ~ short_arc v1 v2 ->
  (forall q, on_seg v1 v2 q -> inside (arc_seg_bounding_box v1 v2) 0 q)
  /\ (forall rho, radius_within rho v1 v2 -> reaches (arc_seg_bounding_box v1 v2) (rho * (1 / 10000000000000000)) (on_seg v1 v2)).
Proof.
  intros Hok Hb HS. pose proof Hok as [HB HP]. specialize (HP Hb).
  unfold arc_seg_bounding_box. destruct (v2fuzzy_eq (pos v1) (pos v2)) eqn:F; [apply v2fuzzy_short in F; [contradiction|exact Hb]|].
  rewrite (arc_radius_and_center_eq _ _ HP Hb). 
  destruct (arc_turn v1 v2 Hok Hb) as (al & w & Hw & Hcr & Hon & Hends).
  set (c := centre_of (pos v1) (pos v2) (pbulge v1)) in *. set (r := radius_of (pos v1) (pos v2) (pbulge v1)) in *.
  assert (Hr : 0 <= r) by (apply Rlt_le, radius_pos; assumption).
  assert (Hrho : forall rho, radius_within rho v1 v2 -> r <= rho).
  { intros rho H. apply (H Hb c r (angle c (pos v1))). now apply computed_is_arc. }
  rewrite !Hcr. rnum.
  assert (E1 : IZR 15 / IZR (10 ^ 1) = 3 / 2) by (change (IZR (10 ^ 1)) with 10; lra).
  assert (E2 : IZR 5 / IZR (10 ^ 1) = 1 / 2) by (change (IZR (10 ^ 1)) with 10; lra).
  cbn [nlit RNum]. rewrite E1, E2. clear E1 E2.
  change (px v1) with (vx (pos v1)). change (px v2) with (vx (pos v2)).
  change (py v1) with (vy (pos v1)). change (py v2) with (vy (pos v2)).
  destruct (arc_side c r al w 0 (vx c) vx (pos v1) (pos v2) Hw Hr) as [AX BX];
    [intros x; unfold circle_pt; cbn [vx]; now rewrite Rminus_0_r|exact Hends|].
  destruct (arc_side c r al w PI (- vx c) (fun q => - vx q) (pos v1) (pos v2) Hw Hr) as [AM BM];
    [intros x; unfold circle_pt; cbn [vx]; rewrite cos_minus, cos_PI, sin_PI; ring|exact Hends|].
  destruct (arc_side c r al w (1 / 2 * PI) (vy c) vy (pos v1) (pos v2) Hw Hr) as [AY BY];
    [intros x; unfold circle_pt; cbn [vy]; replace (1 / 2 * PI) with (PI / 2) by field; rewrite cos_minus, cos_PI2, sin_PI2; ring|exact Hends|].
  destruct (arc_side c r al w (3 / 2 * PI) (- vy c) (fun q => - vy q) (pos v1) (pos v2) Hw Hr) as [AN BN];
    [intros x; unfold circle_pt; cbn [vy]; replace (3 / 2 * PI) with (3 * (PI / 2)) by field; rewrite cos_minus, cos_3PI2, sin_3PI2; ring|exact Hends|].
  rewrite !Rmin_as_max.
  split.
  - intros q Hq. apply Hon in Hq as (x & Hx & ->). specialize (AX x Hx). specialize (AM x Hx). specialize (AY x Hx). specialize (AN x Hx).
    cbv beta in *. unfold inside. cbn [bmin_x bmin_y bmax_x bmax_y].
    repeat split;
      repeat match goal with |- context [if ?b then _ else _] => destruct b end; lra.
  - intros rho HR. specialize (Hrho rho HR). unfold reaches. cbn [bmin_x bmin_y bmax_x bmax_y].
    destruct BX as (x1 & X1 & BX). destruct BM as (x2 & X2 & BM). destruct BY as (x3 & X3 & BY). destruct BN as (x4 & X4 & BN).
    cbv beta in *.
    split; [|split; [|split]].
    + exists (circle_pt c r (al + x2)). split; [apply Hon; eauto|].
      destruct (angle_is_between_eps PI al (al + w) (1 / 100000000)); apply Rabs_le; lra.
    + exists (circle_pt c r (al + x1)). split; [apply Hon; eauto|].
      destruct (angle_is_between_eps 0 al (al + w) (1 / 100000000)); apply Rabs_le; lra.
    + exists (circle_pt c r (al + x4)). split; [apply Hon; eauto|].
      destruct (angle_is_between_eps (3 / 2 * PI) al (al + w) (1 / 100000000)); apply Rabs_le; lra.
    + exists (circle_pt c r (al + x3)). split; [apply Hon; eauto|].
      destruct (angle_is_between_eps (1 / 2 * PI) al (al + w) (1 / 100000000)); apply Rabs_le; lra.
Qed.
