(** Basic facts about the instance over the real numbers: comparisons, angles, the four-quadrant
    arctangent, angle normalisation (C18, C19). *)
From Coq Require Import Reals ZArith Bool Lra Lia Psatz.
From Verif Require Import Num RNum ModelMath.
Local Open Scope R_scope.

(** Rewrite the generic operations into those of R. *)
Ltac rnum :=
  cbn [nzero none_ ntwo nfour npi ntau nfuzzy_epsilon nof_nat nto_usize nadd nsub nmul ndiv nneg nabs
       nsqrt nfloor nceil nsin ncos ntan natan nacos natan2 nltb nleb neqb nmin nmax RNum vx vy] in *.

Lemma rltb_spec a b : reflect (a < b) (rltb a b).
Proof. unfold rltb. destruct (Rlt_dec a b); constructor; assumption. Qed.
Lemma rleb_spec a b : reflect (a <= b) (rleb a b).
Proof. unfold rleb. destruct (Rle_dec a b); constructor; assumption. Qed.
Lemma reqb_spec a b : reflect (a = b) (reqb a b).
Proof. unfold reqb. destruct (Req_EM_T a b); constructor; assumption. Qed.
Lemma rltb_true a b : rltb a b = true <-> a < b.
Proof. destruct (rltb_spec a b); split; auto; try discriminate; intros; lra. Qed.
Lemma rltb_false a b : rltb a b = false <-> b <= a.
Proof. destruct (rltb_spec a b); split; auto; try discriminate; intros; lra. Qed.
Lemma rleb_true a b : rleb a b = true <-> a <= b.
Proof. destruct (rleb_spec a b); split; auto; try discriminate; intros; lra. Qed.
Lemma rleb_false a b : rleb a b = false <-> b < a.
Proof. destruct (rleb_spec a b); split; auto; try discriminate; intros; lra. Qed.

(** Case analysis on every comparison in the goal. *)
Ltac rcases :=
  repeat match goal with
  | |- context [rltb ?a ?b] => destruct (rltb_spec a b)
  | |- context [rleb ?a ?b] => destruct (rleb_spec a b)
  | |- context [reqb ?a ?b] => destruct (reqb_spec a b)
  end.

Lemma PI_pos : 0 < PI.
Proof. exact PI_RGT_0. Qed.

(** ** Angles modulo a full turn *)
Definition congr (x y : R) : Prop := exists k : Z, x = y + IZR k * (2 * PI).

Lemma congr_refl x : congr x x.
Proof. exists 0%Z. ring. Qed.
Lemma congr_sym x y : congr x y -> congr y x.
Proof. intros (k & ->). exists (- k)%Z. rewrite opp_IZR. ring. Qed.
Lemma congr_trans x y z : congr x y -> congr y z -> congr x z.
Proof. intros (k & ->) (m & ->). exists (k + m)%Z. rewrite plus_IZR. ring. Qed.
Lemma congr_plus x y x' y' : congr x x' -> congr y y' -> congr (x + y) (x' + y').
Proof. intros (k & ->) (m & ->). exists (k + m)%Z. rewrite plus_IZR. ring. Qed.
Lemma congr_minus x y x' y' : congr x x' -> congr y y' -> congr (x - y) (x' - y').
Proof. intros (k & ->) (m & ->). exists (k - m)%Z. rewrite minus_IZR. ring. Qed.

Lemma cos_sin_period_nat x (k : nat) : cos (x + INR k * (2 * PI)) = cos x /\ sin (x + INR k * (2 * PI)) = sin x.
Proof.
  split.
  - rewrite <- (cos_period x k). f_equal. ring.
  - rewrite <- (sin_period x k). f_equal. ring.
Qed.

Lemma congr_cos_sin x y : congr x y -> cos x = cos y /\ sin x = sin y.
Proof.
  intros (k & ->). destruct (Z_le_gt_dec 0 k) as [H|H].
  - rewrite <- (Z2Nat.id k H), <- INR_IZR_INZ. apply cos_sin_period_nat.
  - set (m := Z.to_nat (- k)).
    assert (E : IZR k = - INR m).
    { unfold m. rewrite INR_IZR_INZ, Z2Nat.id by lia. rewrite opp_IZR. ring. }
    rewrite E. destruct (cos_sin_period_nat (y + - INR m * (2 * PI)) m) as [H1 H2].
    replace (y + - INR m * (2 * PI) + INR m * (2 * PI)) with y in H1, H2 by ring.
    auto.
Qed.
Lemma congr_cos x y : congr x y -> cos x = cos y.
Proof. apply congr_cos_sin. Qed.
Lemma congr_sin x y : congr x y -> sin x = sin y.
Proof. apply congr_cos_sin. Qed.

Lemma cos_sin_congr x y : cos x = cos y -> sin x = sin y -> congr x y.
Proof.
  intros Hc Hs. set (z := (x - y) / 2).
  assert (H1 : cos (x - y) = 1).
  { rewrite cos_minus, Hc, Hs. pose proof (sin2_cos2 y). unfold Rsqr in H. lra. }
  assert (H2 : sin z = 0).
  { assert (E : x - y = 2 * z) by (unfold z; field). rewrite E, cos_2a_sin in H1. nra. }
  destruct (sin_eq_0_0 _ H2) as (k & Hk). exists k. unfold z in Hk. lra.
Qed.

Lemma congr_range_eq x y : congr x y -> - (2 * PI) < x - y < 2 * PI -> x = y.
Proof.
  intros (k & ->) H. pose proof PI_pos.
  assert (k = 0)%Z.
  { destruct (Z.lt_trichotomy k 0) as [L|[E|L]]; [exfalso|exact E|exfalso].
    - assert (IZR k <= -1) by (apply IZR_le; lia). nra.
    - assert (1 <= IZR k) by (apply IZR_le; lia). nra. }
  subst k. ring.
Qed.

(** ** Four-quadrant arctangent *)
Lemma sqrt_sqr_pos x y : (x <> 0 \/ y <> 0) -> 0 < sqrt (x * x + y * y).
Proof. intros H. apply sqrt_lt_R0. destruct H; nra. Qed.

Lemma sumsq_pos x y : (x <> 0 \/ y <> 0) -> 0 < x * x + y * y.
Proof. intros [H|H]; nra. Qed.

Lemma cos_sin_atan t : cos (atan t) = / sqrt (1 + t * t) /\ sin (atan t) = t * / sqrt (1 + t * t).
Proof.
  pose proof (atan_bound t) as [B1 B2].
  assert (Hc : 0 < cos (atan t)) by (apply cos_gt_0; lra).
  assert (Ht : sin (atan t) = t * cos (atan t)).
  { rewrite <- (tan_atan t) at 2. unfold tan. field. lra. }
  pose proof (sin2_cos2 (atan t)) as H. unfold Rsqr in H. rewrite Ht in H.
  assert (E : cos (atan t) * cos (atan t) * (1 + t * t) = 1) by lra.
  assert (Hs : 0 < sqrt (1 + t * t)) by (apply sqrt_lt_R0; nra).
  assert (Hss : sqrt (1 + t * t) * sqrt (1 + t * t) = 1 + t * t) by (apply sqrt_sqrt; nra).
  assert (Hcos : cos (atan t) = / sqrt (1 + t * t)).
  { apply (Rmult_eq_reg_r (sqrt (1 + t * t))); [|lra]. rewrite Rinv_l by lra.
    assert (0 < cos (atan t) * sqrt (1 + t * t)) by nra.
    assert ((cos (atan t) * sqrt (1 + t * t)) * (cos (atan t) * sqrt (1 + t * t)) = 1) by nra.
    nra. }
  split; [exact Hcos|]. now rewrite Ht, Hcos.
Qed.

Lemma ratan2_spec y x : (x <> 0 \/ y <> 0) ->
  x = sqrt (x * x + y * y) * cos (ratan2 y x)
  /\ y = sqrt (x * x + y * y) * sin (ratan2 y x)
  /\ - PI < ratan2 y x <= PI.
Proof.
  intros H. pose proof PI_pos as HPI. pose proof (sqrt_sqr_pos x y H) as Hr.
  assert (Hx0 : x <> 0 -> let t := y / x in sqrt (x * x + y * y) = Rabs x * sqrt (1 + t * t)).
  { intros Hx t. rewrite <- (sqrt_Rsqr_abs x). rewrite <- sqrt_mult_alt by apply Rle_0_sqr.
    f_equal. unfold Rsqr, t. field. exact Hx. }
  assert (Hs1 : forall t, 0 < sqrt (1 + t * t)) by (intros t; apply sqrt_lt_R0; nra).
  unfold ratan2. destruct (Rlt_dec 0 x) as [P|P].
  - pose proof (atan_bound (y / x)) as [B1 B2]. destruct (cos_sin_atan (y / x)) as [C S].
    rewrite (Hx0 ltac:(lra)), C, S, (Rabs_pos_eq x) by lra. specialize (Hs1 (y / x)).
    split; [|split]; [field; lra|field; lra|lra].
  - destruct (Rlt_dec x 0) as [M|M].
    + destruct (cos_sin_atan (y / x)) as [C S]. pose proof (atan_bound (y / x)) as [B1 B2].
      specialize (Hs1 (y / x)).
      destruct (Rle_dec 0 y) as [Y|Y].
      * rewrite neg_cos, neg_sin, (Hx0 ltac:(lra)), C, S, (Rabs_left x) by lra.
        assert (atan (y / x) <= 0).
        { destruct (Req_dec y 0) as [->|Yn]; [unfold Rdiv; rewrite Rmult_0_l, atan_0; lra|].
          rewrite <- atan_0. apply Rlt_le, atan_increasing.
          apply Rmult_pos_neg || (assert (0 < - (y / x)); [|lra]).
          replace (- (y / x)) with (y / - x) by (field; lra). apply Rdiv_lt_0_compat; lra. }
        split; [|split]; [field; lra|field; lra|lra].
      * assert (Ec : cos (atan (y / x) - PI) = - cos (atan (y / x))) by (rewrite cos_minus, cos_PI, sin_PI; ring).
        assert (Es : sin (atan (y / x) - PI) = - sin (atan (y / x))) by (rewrite sin_minus, cos_PI, sin_PI; ring).
        rewrite Ec, Es, (Hx0 ltac:(lra)), C, S, (Rabs_left x) by lra.
        assert (0 < atan (y / x)).
        { rewrite <- atan_0. apply atan_increasing.
          replace (y / x) with ((- y) / (- x)) by (field; lra). apply Rdiv_lt_0_compat; lra. }
        split; [|split]; [field; lra|field; lra|lra].
    + assert (x = 0) by lra. subst x.
      replace (0 * 0 + y * y) with (Rsqr y) in * by (unfold Rsqr; ring). rewrite sqrt_Rsqr_abs in *.
      destruct (Rlt_dec 0 y) as [Y|Y].
      * rewrite cos_PI2, sin_PI2, Rabs_pos_eq by lra. lra.
      * destruct (Rlt_dec y 0) as [Y'|Y'].
        -- rewrite cos_neg, sin_neg, cos_PI2, sin_PI2, Rabs_left by lra. lra.
        -- exfalso. destruct H; lra.
Qed.

(** ** Floor *)
Lemma rfloor_spec x : exists k : Z, rfloor x = IZR k /\ IZR k <= x < IZR k + 1.
Proof.
  exists (Int_part x). split; [reflexivity|]. destruct (base_Int_part x). lra.
Qed.

Lemma rceil_spec x : exists k : Z, rceil x = IZR k /\ IZR k - 1 < x <= IZR k.
Proof.
  destruct (rfloor_spec (- x)) as (k & E & H). exists (- k)%Z. unfold rceil. rewrite E, opp_IZR.
  split; [reflexivity|lra].
Qed.

(** ** Normalisation (base_math.rs) *)
Lemma normalize_radians_spec a :
  congr (normalize_radians a) a /\ 0 <= normalize_radians a <= 2 * PI
  /\ (normalize_radians a = 2 * PI -> a = 2 * PI).
Proof.
  pose proof PI_pos as HPI. unfold normalize_radians. rnum.
  destruct (rleb_spec 0 a) as [H1|H1]; destruct (rleb_spec a (2 * PI)) as [H2|H2]; cbn [andb];
    try (split; [apply congr_refl|split; [lra|auto]]; fail).
  all: destruct (rfloor_spec (a / (2 * PI))) as (k & E & K1 & K2); rewrite E;
    assert (D : a = a / (2 * PI) * (2 * PI)) by (field; lra);
    (split; [exists (- k)%Z; rewrite opp_IZR; ring|]);
    set (q := a / (2 * PI)) in *; split; [split; nra|intros X; nra].
Qed.

Lemma delta_angle_spec a b :
  congr (delta_angle a b) (b - a) /\ - PI < delta_angle a b <= PI.
Proof.
  pose proof PI_pos as HPI. unfold delta_angle. rnum.
  destruct (normalize_radians_spec (b - a)) as (C & [L U] & _).
  destruct (rltb_spec PI (normalize_radians (b - a))) as [H|H].
  - split; [|lra]. apply (congr_trans _ (normalize_radians (b - a))); [|exact C].
    exists (-1)%Z. ring.
  - split; [exact C|lra].
Qed.

Lemma delta_angle_unique a b d :
  congr d (b - a) -> - PI < d <= PI -> delta_angle a b = d.
Proof.
  intros C [L U]. destruct (delta_angle_spec a b) as (C' & L' & U').
  apply congr_range_eq; [|lra]. eapply congr_trans; [exact C'|]. apply congr_sym. exact C.
Qed.

Lemma delta_angle_congr a b a' b' :
  congr a a' -> congr b b' -> delta_angle a b = delta_angle a' b'.
Proof.
  intros Ha Hb. destruct (delta_angle_spec a' b') as (C & R). apply delta_angle_unique; [|exact R].
  eapply congr_trans; [exact C|]. apply congr_minus; apply congr_sym; assumption.
Qed.

(** A signed sweep of at most half a turn is recovered exactly. *)
Lemma delta_angle_signed_sweep a b th :
  congr b (a + th) -> - PI <= th <= PI ->
  delta_angle_signed a b (rltb th 0) = th /\ Rabs (delta_angle a b) = Rabs th.
Proof.
  intros C [L U]. pose proof PI_pos as HPI.
  assert (H : delta_angle a b = th \/ (th = - PI /\ delta_angle a b = PI)).
  { destruct (Req_dec th (- PI)) as [->|N].
    - right. split; [reflexivity|]. apply delta_angle_unique; [|lra].
      apply congr_sym. eapply congr_trans; [apply congr_minus; [exact C|apply congr_refl]|].
      exists (-1)%Z. ring.
    - left. apply delta_angle_unique; [|lra]. apply congr_sym.
      eapply congr_trans; [apply congr_minus; [exact C|apply congr_refl]|].
      exists 0%Z. ring. }
  unfold delta_angle_signed. rnum.
  destruct H as [E|[E1 E2]].
  - rewrite E. split; [|reflexivity].
    destruct (rltb_spec th 0); [rewrite Rabs_left by lra; ring|rewrite Rabs_pos_eq; lra].
  - rewrite E2, E1. split.
    + destruct (rltb_spec (- PI) 0); [rewrite Rabs_pos_eq; lra|lra].
    + rewrite Rabs_Ropp. reflexivity.
Qed.

Lemma delta_angle_signed_spec a b (neg : bool) :
  Rabs (delta_angle_signed a b neg) = Rabs (delta_angle a b)
  /\ (if neg then delta_angle_signed a b neg <= 0 else 0 <= delta_angle_signed a b neg).
Proof.
  unfold delta_angle_signed. rnum. pose proof (Rabs_pos (delta_angle a b)).
  destruct neg; split; try lra; rewrite ?Rabs_Ropp, Rabs_Rabsolu; reflexivity.
Qed.

(** ** Bulge and angle *)
Lemma angle_from_bulge_from_angle t : - (2 * PI) < t < 2 * PI -> angle_from_bulge (bulge_from_angle t) = t.
Proof.
  intros H. unfold angle_from_bulge, bulge_from_angle. rnum. rewrite atan_tan by lra. field.
Qed.

Lemma bulge_from_angle_from_bulge b : bulge_from_angle (angle_from_bulge b) = b.
Proof.
  unfold angle_from_bulge, bulge_from_angle. rnum. replace (4 * atan b / 4) with (atan b) by field.
  apply tan_atan.
Qed.

(** Sine and cosine of the half sweep and of the sweep of an arc with bulge [b]. *)
Lemma cos_sin_2atan b :
  cos (2 * atan b) = (1 - b * b) / (1 + b * b) /\ sin (2 * atan b) = 2 * b / (1 + b * b).
Proof.
  destruct (cos_sin_atan b) as [C S]. assert (Hp : 0 < 1 + b * b) by nra.
  assert (Hs : 0 < sqrt (1 + b * b)) by (apply sqrt_lt_R0; exact Hp).
  assert (Hss : sqrt (1 + b * b) * sqrt (1 + b * b) = 1 + b * b) by (apply sqrt_sqrt; lra).
  rewrite cos_2a, sin_2a, C, S. split.
  - replace (/ sqrt (1 + b * b) * / sqrt (1 + b * b) - b * / sqrt (1 + b * b) * (b * / sqrt (1 + b * b)))
      with ((1 - b * b) / (sqrt (1 + b * b) * sqrt (1 + b * b))) by (field; lra).
    now rewrite Hss.
  - replace (2 * (b * / sqrt (1 + b * b)) * / sqrt (1 + b * b))
      with (2 * b / (sqrt (1 + b * b) * sqrt (1 + b * b))) by (field; lra).
    now rewrite Hss.
Qed.

Lemma cos_sin_4atan b :
  cos (4 * atan b) = ((1 - b * b) * (1 - b * b) - 4 * b * b) / ((1 + b * b) * (1 + b * b))
  /\ sin (4 * atan b) = 4 * b * (1 - b * b) / ((1 + b * b) * (1 + b * b)).
Proof.
  destruct (cos_sin_2atan b) as [C S]. assert (Hp : 0 < 1 + b * b) by nra.
  replace (4 * atan b) with (2 * (2 * atan b)) by ring. rewrite (cos_2a (2 * atan b)), (sin_2a (2 * atan b)), C, S.
  split; field; lra.
Qed.

Lemma atan_1_bound b : Rabs b <= 1 -> - PI <= 4 * atan b <= PI.
Proof.
  intros H. pose proof PI_pos. assert (-1 <= b <= 1) by (apply Rabs_le_inv || (unfold Rabs in H; destruct (Rcase_abs b); lra); assumption).
  assert (M : forall x y, x <= y -> atan x <= atan y).
  { intros x y [L|E]; [left; now apply atan_increasing|right; now rewrite E]. }
  pose proof (M b 1 ltac:(lra)) as M1. pose proof (M (-1) b ltac:(lra)) as M2.
  replace (-1) with (- (1)) in M2 by ring. rewrite atan_opp in M2. rewrite atan_1 in *. lra.
Qed.

Lemma atan_sign b : (0 < b -> 0 < atan b) /\ (b < 0 -> atan b < 0) /\ (atan b = 0 -> b = 0).
Proof.
  assert (P : 0 < b -> 0 < atan b) by (intros H; rewrite <- atan_0; now apply atan_increasing).
  assert (M : b < 0 -> atan b < 0) by (intros H; rewrite <- atan_0; now apply atan_increasing).
  repeat split; auto. intros E. destruct (Rtotal_order b 0) as [L|[Z|L]]; auto.
  - specialize (M L). lra.
  - specialize (P L). lra.
Qed.

Lemma atan_ltb b : rltb (4 * atan b) 0 = rltb b 0.
Proof.
  destruct (atan_sign b) as (P & M & Z).
  destruct (rltb_spec b 0) as [H|H]; [apply rltb_true; specialize (M H); lra|].
  apply rltb_false. destruct (Req_dec b 0) as [->|N]; [rewrite atan_0; lra|].
  specialize (P ltac:(lra)). lra.
Qed.
