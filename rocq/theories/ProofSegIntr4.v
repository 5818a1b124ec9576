(** Overlap of two arcs of one circle: the turns. *)
From Coq Require Import Reals Lra Lia Bool ZArith.
From Verif Require Import Num RNum ModelMath ProofR ProofArc ProofArc2 ProofClosest.
Local Open Scope R_scope.

Definition fz : R := 1 / 100000000.

Lemma multiple_cases t k : t = IZR k * (2 * PI) -> - (2 * PI) < t < 2 * (2 * PI) -> t = 0 \/ t = 2 * PI.
Proof.
  intros E B. pose proof PI_pos as P. assert (K : (-1 < k < 2)%Z).
  { split; apply lt_IZR.
    - apply (Rmult_lt_reg_r (2 * PI)); lra.
    - apply (Rmult_lt_reg_r (2 * PI)); lra. }
  assert (H : (k = 0 \/ k = 1)%Z) by lia. destruct H as [-> | ->]; [left|right]; lra.
Qed.

Lemma multiple_zero t k : t = IZR k * (2 * PI) -> - (2 * PI) < t < 2 * PI -> t = 0.
Proof. intros E B. pose proof PI_pos. destruct (multiple_cases t k E); lra. Qed.

Lemma congr_sg sg x z z' : sg = 1 \/ sg = -1 -> congr (x + sg * z) (x + sg * z') <-> congr z z'.
Proof.
  intros [-> | ->].
  - split; intros (k & E); exists k; lra.
  - split; intros (k & E); exists (- k)%Z; rewrite opp_IZR; lra.
Qed.

(** The sweep test in terms of the turn from the start, in the direction of the sweep. *)
Section Within.
Variables (S1 sg a : R).
Hypotheses (Hsg : sg = 1 \/ sg = -1) (Ha : 0 < a <= PI).

Lemma within_lo : exists lo, lo = Rmin S1 (S1 + sg * a) /\ Rabs (sg * a) = a /\ Rabs (sg * a) < 2 * PI
  /\ ((sg = 1 /\ lo = S1) \/ (sg = -1 /\ lo = S1 - a)).
Proof.
  pose proof PI_pos. destruct Hsg as [-> | ->].
  - exists S1. rewrite Rmin_left by lra. rewrite Rabs_right by lra. split; [reflexivity|]; split; [lra|]; split; [lra|]; left; lra.
  - exists (S1 - a). rewrite Rmin_right by lra. rewrite Rabs_left by lra. split; [lra|]; split; [lra|]; split; [lra|]; right; lra.
Qed.

Lemma within_true test : angle_is_within_sweep test S1 (sg * a) = true ->
  exists z, congr test (S1 + sg * z) /\ - fz < z < a + fz.
Proof.
  intros H. pose proof PI_pos as P. pose proof PI2_3_2 as P3. destruct within_lo as (lo & El & Ea & Eb & D).
  destruct (Req_dec (test - lo) (2 * PI)) as [E|E].
  - exfalso. unfold angle_is_within_sweep, angle_is_within_sweep_eps, angle_is_between_eps in H. revert H. rnum.
    assert (N2 : normalize_radians (2 * PI) = 2 * PI).
    { unfold normalize_radians. rnum. rewrite (proj2 (rleb_true 0 (2 * PI))), (proj2 (rleb_true (2 * PI) (2 * PI))) by lra. reflexivity. }
    assert (NA : normalize_radians a = a).
    { apply normalize_radians_unique; [apply congr_refl|lra|lra]. }
    destruct D as [[-> ->]|[-> ->]].
    + destruct (rltb_spec (1 * a) 0) as [?|_]; [lra|]. rewrite E, N2.
      replace (S1 + 1 * a - S1) with a by ring. rewrite NA. intros H. apply rltb_true in H. lra.
    + destruct (rltb_spec (-1 * a) 0) as [_|?]; [|lra]. replace (test - (S1 + -1 * a)) with (test - (S1 - a)) by ring. rewrite E, N2.
      replace (S1 - (S1 + -1 * a)) with a by ring. rewrite NA. intros H. apply rltb_true in H. lra.
  - destruct (normalize_radians_id_range (test - lo)) as (m & Cm & Bm).
    apply (angle_is_within_sweep_spec test S1 (sg * a) _ m lo Eb El Cm Bm E) in H. rewrite Ea in H. change nfuzzy_epsilon with fz in H.
    assert (FP : 0 < fz) by (unfold fz; lra).
    destruct D as [[-> ->]|[-> ->]]; destruct Cm as (k & Cm).
    + exists m. split; [|lra]. exists (- k)%Z. rewrite opp_IZR. lra.
    + exists (a - m). split; [|lra]. exists (- k)%Z. rewrite opp_IZR. lra.
Qed.

Lemma within_inner test z : congr test (S1 + sg * z) -> 0 < z < a -> angle_is_within_sweep test S1 (sg * a) = true.
Proof.
  intros C Hz. pose proof PI_pos as P. destruct within_lo as (lo & El & Ea & Eb & D). assert (FP : 0 < fz) by (unfold fz; lra).
  destruct D as [[-> ->]|[-> ->]]; destruct C as (k & C).
  - apply (angle_is_within_sweep_spec test S1 (1 * a) _ z S1 Eb El).
    + exists (- k)%Z. rewrite opp_IZR. lra.
    + lra.
    + intros E. assert (Z : - z = IZR (k - 1) * (2 * PI)) by (rewrite minus_IZR; lra). apply multiple_zero in Z; lra.
    + rewrite Ea. change nfuzzy_epsilon with fz. lra.
  - apply (angle_is_within_sweep_spec test S1 (-1 * a) _ (a - z) (S1 - a) Eb El).
    + exists (- k)%Z. rewrite opp_IZR. lra.
    + lra.
    + intros E. assert (Z : z - a = IZR (k - 1) * (2 * PI)) by (rewrite minus_IZR; lra). apply multiple_zero in Z; lra.
    + rewrite Ea. change nfuzzy_epsilon with fz. lra.
Qed.

Lemma within_start : angle_is_within_sweep S1 S1 (sg * a) = true.
Proof.
  pose proof PI_pos as P. destruct within_lo as (lo & El & Ea & Eb & D). assert (FP : 0 < fz) by (unfold fz; lra).
  destruct D as [[-> ->]|[-> ->]].
  - apply (angle_is_within_sweep_spec S1 S1 (1 * a) _ 0 S1 Eb El); [exists 0%Z; lra|lra|lra|]. rewrite Ea. change nfuzzy_epsilon with fz. lra.
  - apply (angle_is_within_sweep_spec S1 S1 (-1 * a) _ a (S1 - a) Eb El); [exists 0%Z; lra|lra|lra|]. rewrite Ea. change nfuzzy_epsilon with fz. lra.
Qed.
End Within.

(** Two arcs of a circle, from the angles [S1] and [S2] by the turns [a] and [b] in the same
    direction, that do not touch end to start. *)
Section Turns.
Variables (S1 S2 sg a b : R).
Hypotheses (Hsg : sg = 1 \/ sg = -1) (Ha : fz < a <= PI) (Hb : fz < b <= PI).
Hypotheses (B1 : 0 <= S1 < 2 * PI) (B2 : 0 <= S2 < 2 * PI).
Hypothesis NT1 : forall d, Rabs d < fz -> ~ congr (S2 + sg * b) (S1 + d).
Hypothesis NT2 : forall d, Rabs d < fz -> ~ congr S2 (S1 + sg * a + d).

(** From turn [j1] to turn [j2] the second arc runs along the first one, and these are all its
    common points with the first. *)
Definition overlap (j1 j2 : R) : Prop :=
  0 <= j1 <= j2 /\ j2 <= b
  /\ (forall j, j1 <= j <= j2 -> exists i, - fz < i < a + fz /\ congr (S2 + sg * j) (S1 + sg * i))
  /\ (forall j i, 0 <= j <= b -> 0 <= i <= a -> congr (S2 + sg * j) (S1 + sg * i) -> j1 <= j <= j2).

Lemma fz_small : 0 < fz < 1.
Proof. unfold fz. lra. Qed.

Lemma sg_sqr : sg * sg = 1.
Proof. destruct Hsg as [-> | ->]; ring. Qed.

(** The turn from the first to the second start. *)
Lemma turn_exists : exists x, - fz < x <= 2 * PI - fz /\ congr S2 (S1 + sg * x).
Proof.
  pose proof PI_pos. pose proof fz_small.
  destruct (normalize_radians_id_range (sg * (S2 - S1))) as (m & (k & Cm) & Bm).
  assert (G : forall n, m = sg * (S2 - S1) + IZR n * (2 * PI) -> congr S2 (S1 + sg * m)).
  { intros n E. destruct Hsg as [-> | ->]; [exists (- n)%Z|exists n]; rewrite ?opp_IZR; lra. }
  destruct (Rle_dec m (2 * PI - fz)) as [L|L].
  - exists m. split; [lra|]. now apply (G k).
  - exists (m - 2 * PI). split; [lra|]. apply (congr_trans _ (S1 + sg * m)); [now apply (G k)|].
    apply congr_sg; [exact Hsg|]. exists 1%Z. lra.
Qed.

Variable x : R.
Hypotheses (Bx : - fz < x <= 2 * PI - fz) (Cx : congr S2 (S1 + sg * x)).

Lemma rel j i : congr (S2 + sg * j) (S1 + sg * i) <-> congr (x + j) i.
Proof.
  rewrite <- (congr_sg sg S1 (x + j) i Hsg). replace (S1 + sg * (x + j)) with (S1 + sg * x + sg * j) by ring. split; intros C.
  - eapply congr_trans; [|exact C]. apply congr_plus; [apply congr_sym; exact Cx|apply congr_refl].
  - eapply congr_trans; [|exact C]. apply congr_plus; [exact Cx|apply congr_refl].
Qed.

Lemma rel_cases j i : 0 <= j <= b -> - fz < i < a + fz -> congr (S2 + sg * j) (S1 + sg * i) -> x + j = i \/ x + j = i + 2 * PI.
Proof.
  intros Hj Hi C. apply rel in C as (k & C). pose proof PI_pos. pose proof fz_small. pose proof PI2_3_2.
  destruct (multiple_cases (x + j - i) k); [lra|lra|left; lra|right; lra].
Qed.

Let st := angle_is_within_sweep S2 S1 (sg * a).
Let en := angle_is_within_sweep (S2 + sg * b) S1 (sg * a).
Let th := angle_is_within_sweep S1 S2 (sg * b).

Lemma not_touch : (x + b <= 2 * PI - fz \/ 2 * PI + fz <= x + b) /\ (x <= a - fz \/ a + fz <= x).
Proof.
  pose proof PI_pos. pose proof fz_small. split.
  - destruct (Rle_dec (x + b) (2 * PI - fz)) as [L|L]; [now left|].
    destruct (Rle_dec (2 * PI + fz) (x + b)) as [L2|L2]; [now right|]. exfalso.
    apply (NT1 (sg * (x + b - 2 * PI))).
    + destruct Hsg as [-> | ->]; apply Rabs_def1; lra.
    + apply rel. exists 1%Z. lra.
  - destruct (Rle_dec x (a - fz)) as [L|L]; [now left|].
    destruct (Rle_dec (a + fz) x) as [L2|L2]; [now right|]. exfalso.
    apply (NT2 (sg * (x - a))).
    + destruct Hsg as [-> | ->]; apply Rabs_def1; lra.
    + replace (S1 + sg * a + sg * (x - a)) with (S1 + sg * x) by ring. exact Cx.
Qed.

Lemma st_true : st = true -> x <= a - fz.
Proof.
  intros H. destruct not_touch as [_ NT]. pose proof PI_pos. pose proof fz_small. pose proof PI2_3_2.
  apply within_true in H as (z & C & Hz); [|exact Hsg|lra].
  assert (D : x + 0 = z \/ x + 0 = z + 2 * PI) by (apply rel_cases; [lra|lra|]; now rewrite Rmult_0_r, Rplus_0_r).
  destruct D; lra.
Qed.
Lemma st_false : st = false -> x < 0 \/ a + fz <= x.
Proof.
  intros H. destruct not_touch as [_ NT]. pose proof PI_pos. pose proof fz_small.
  destruct NT as [NT|NT]; [|now right]. left. destruct (Rlt_dec x 0) as [?|N]; [assumption|exfalso].
  destruct (Req_dec x 0) as [E|E].
  - assert (EE : S2 = S1). { apply congr_range_eq; [|lra]. rewrite E, Rmult_0_r, Rplus_0_r in Cx. exact Cx. }
    assert (st = true); [|congruence]. unfold st. rewrite EE. apply within_start; [exact Hsg|lra].
  - assert (st = true); [|congruence]. apply (within_inner S1 sg a Hsg ltac:(lra) S2 x Cx). lra.
Qed.
Lemma en_true : en = true -> x + b < a + fz \/ (2 * PI + fz <= x + b /\ x + b < 2 * PI + a + fz).
Proof.
  intros H. destruct not_touch as [NT _]. pose proof PI_pos. pose proof fz_small. pose proof PI2_3_2.
  apply within_true in H as (z & C & Hz); [|exact Hsg|lra].
  assert (D : x + b = z \/ x + b = z + 2 * PI) by (apply rel_cases; [lra|lra|exact C]).
  destruct D; lra.
Qed.
Lemma en_false : en = false -> a <= x + b /\ (x + b <= 2 * PI - fz \/ 2 * PI + a <= x + b).
Proof.
  intros H. destruct not_touch as [NT _]. pose proof PI_pos. pose proof fz_small. split.
  - destruct (Rle_dec a (x + b)) as [?|N]; [assumption|exfalso]. assert (en = true); [|congruence].
    apply (within_inner S1 sg a Hsg ltac:(lra) _ (x + b)); [|lra]. apply rel. apply congr_refl.
  - destruct NT as [NT|NT]; [now left|right]. destruct (Rle_dec (2 * PI + a) (x + b)) as [?|N]; [assumption|exfalso]. assert (en = true); [|congruence].
    apply (within_inner S1 sg a Hsg ltac:(lra) _ (x + b - 2 * PI)); [|lra]. apply rel. exists 1%Z. lra.
Qed.

Lemma S1_turn k : congr S1 (S2 + sg * (IZR k * (2 * PI) - x)).
Proof.
  apply congr_sym. replace S1 with (S1 + sg * 0) by ring. apply rel. exists k. lra.
Qed.

Lemma th_true : th = true -> (x < 0) \/ 2 * PI + fz <= x + b \/ (x <= fz).
Proof.
  intros H. destruct not_touch as [NT _]. pose proof PI_pos. pose proof fz_small. pose proof PI2_3_2.
  apply within_true in H as (z & C & Hz); [|exact Hsg|lra].
  assert (C2 : congr (x + z) 0). { apply rel. apply congr_sym. rewrite Rmult_0_r, Rplus_0_r. exact C. }
  destruct C2 as (k & C2). destruct (multiple_cases (x + z) k); lra.
Qed.
Lemma th_false : th = false -> (x >= 0 \/ b <= - x) /\ x + b <= 2 * PI.
Proof.
  intros H. pose proof PI_pos. pose proof fz_small. split.
  - destruct (Rlt_dec x 0) as [L|L]; [right|left; lra]. destruct (Rle_dec b (- x)) as [?|N]; [assumption|exfalso].
    assert (th = true); [|congruence]. apply (within_inner S2 sg b Hsg ltac:(lra) _ (- x)); [|lra].
    pose proof (S1_turn 0) as T. now replace (0 * (2 * PI) - x) with (- x) in T by ring.
  - destruct (Rle_dec (x + b) (2 * PI)) as [?|N]; [assumption|exfalso].
    assert (th = true); [|congruence]. apply (within_inner S2 sg b Hsg ltac:(lra) _ (2 * PI - x)); [|lra].
    pose proof (S1_turn 1) as T. now replace (1 * (2 * PI) - x) with (2 * PI - x) in T by ring.
Qed.

Lemma turns_full :
  (st = true -> en = true -> overlap 0 b)
  /\ (st = true -> en = false -> exists y, congr (S1 + sg * a) (S2 + sg * y) /\ overlap 0 y)
  /\ (st = false -> en = true -> exists z, congr S1 (S2 + sg * z) /\ overlap z b)
  /\ (st = false -> en = false -> th = true -> exists z, congr S1 (S2 + sg * z) /\ overlap z (z + a))
  /\ (st = false -> en = false -> th = false -> forall j i, 0 <= j <= b -> 0 <= i <= a -> ~ congr (S2 + sg * j) (S1 + sg * i)).
Proof.
  pose proof PI_pos as P. pose proof fz_small as F. pose proof PI2_3_2 as P3. destruct not_touch as [NT NT'].
  assert (RC : forall j i, 0 <= j <= b -> 0 <= i <= a -> congr (S2 + sg * j) (S1 + sg * i) -> x + j = i \/ x + j = i + 2 * PI).
  { intros j i Hj Hi. apply rel_cases; lra. }
  split; [|split; [|split; [|split]]].
  - intros A E. apply st_true in A. apply en_true in E. unfold overlap. split; [lra|]. split; [lra|]. split.
    + intros j Hj. exists (x + j). split; [lra|]. apply rel. apply congr_refl.
    + intros j i Hj _ _. exact Hj.
  - intros A E. apply st_true in A. apply en_false in E. exists (a - x). split.
    { apply congr_sym. apply rel. exists 0%Z. lra. }
    unfold overlap. split; [lra|]. split; [lra|]. split.
    + intros j Hj. exists (x + j). split; [lra|]. apply rel. apply congr_refl.
    + intros j i Hj Hi C. destruct (RC j i Hj Hi C); lra.
  - intros A E. apply st_false in A. apply en_true in E. destruct A as [A|A].
    + exists (- x). split. { pose proof (S1_turn 0) as T. now replace (0 * (2 * PI) - x) with (- x) in T by ring. }
      unfold overlap. split; [lra|]. split; [lra|]. split.
      * intros j Hj. exists (x + j). split; [lra|]. apply rel. apply congr_refl.
      * intros j i Hj Hi C. destruct (RC j i Hj Hi C); lra.
    + exists (2 * PI - x). split. { pose proof (S1_turn 1) as T. now replace (1 * (2 * PI) - x) with (2 * PI - x) in T by ring. }
      unfold overlap. split; [lra|]. split; [lra|]. split.
      * intros j Hj. exists (x + j - 2 * PI). split; [lra|]. apply rel. exists 1%Z. lra.
      * intros j i Hj Hi C. destruct (RC j i Hj Hi C); lra.
  - intros A E T. apply st_false in A. apply en_false in E. apply th_true in T. destruct A as [A|A].
    + exists (- x). split. { pose proof (S1_turn 0) as T0. now replace (0 * (2 * PI) - x) with (- x) in T0 by ring. }
      unfold overlap. split; [lra|]. split; [lra|]. split.
      * intros j Hj. exists (x + j). split; [lra|]. apply rel. apply congr_refl.
      * intros j i Hj Hi C. destruct (RC j i Hj Hi C); lra.
    + exists (2 * PI - x). split. { pose proof (S1_turn 1) as T0. now replace (1 * (2 * PI) - x) with (2 * PI - x) in T0 by ring. }
      unfold overlap. split; [lra|]. split; [lra|]. split.
      * intros j Hj. exists (x + j - 2 * PI). split; [lra|]. apply rel. exists 1%Z. lra.
      * intros j i Hj Hi C. destruct (RC j i Hj Hi C); lra.
  - intros A E T j i Hj Hi C. apply st_false in A. apply en_false in E. apply th_false in T.
    destruct (RC j i Hj Hi C); lra.
Qed.
End Turns.
