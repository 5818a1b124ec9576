(** Bounding boxes of segments and of the whole path, continued. *)
From Coq Require Import Reals ZArith Bool List Arith Lra Lia Psatz.
From Verif Require Import Num RNum Res ModelMath ModelSeg ModelPline Spec SpecGeom SpecBox.
From Verif Require Import ProofR ProofBase ProofIter ProofArc ProofArc2 ProofMeasure ProofSlice ProofBox.
Import ListNotations.
Local Open Scope R_scope.

Definition tol16 : R := 1 / 10000000000000000.

Lemma sqr_le_abs x e : Rabs x <= e -> x * x <= e * e.
Proof.
  intros H. assert (P : 0 <= x * x) by nra. rewrite <- (Rabs_pos_eq _ P), Rabs_mult.
  apply Rmult_le_compat; try apply Rabs_pos; lra.
Qed.

Lemma abs_le_sqr x e : 0 <= e -> x * x <= e * e -> Rabs x <= e.
Proof.
  intros He H. apply Rsqr_incr_0_var; [|exact He]. rewrite <- Rsqr_abs. exact H.
Qed.

Lemma short_arc_near v1 v2 q : seg_ok v1 v2 -> short_arc v1 v2 -> on_seg v1 v2 q ->
  Rabs (vx q - px v1) <= 1 / 50000000 /\ Rabs (vy q - py v1) <= 1 / 50000000.
Proof.
  intros Hok (Hb & S1 & S2) (t & Ht & Q). pose proof Hok as [HB HP]. specialize (HP Hb).
  assert (D : dist_squared (pos v1) q <= dist_squared (pos v1) (pos v2)).
  { destruct (Req_dec t 1) as [->|Ht1].
    - rewrite (seg_at_unique _ _ _ _ _ Q (seg_at_1 _ _ Hok) Hok). lra.
    - apply Rlt_le. apply (chord_mono v1 v2 t 1 q (pos v2)); auto; try lra. now apply seg_at_1. }
  unfold dist_squared, v2dot, v2sub, pos in D. rnum. cbn [vx vy] in D.
  assert (A1 : (px v1 - px v2) * (px v1 - px v2) <= 1 / 100000000 * (1 / 100000000)) by (apply sqr_le_abs; lra).
  assert (A2 : (py v1 - py v2) * (py v1 - py v2) <= 1 / 100000000 * (1 / 100000000)) by (apply sqr_le_abs; lra).
  pose proof (sumsq_nonneg (px v1 - vx q) 0) as N1. pose proof (sumsq_nonneg (py v1 - vy q) 0) as N2.
  rewrite !Rmult_0_l, !Rplus_0_r in N1, N2.
  split; rewrite Rabs_minus_sym; apply abs_le_sqr; lra.
Qed.

Lemma line_between v1 v2 q : pbulge v1 = 0 -> on_seg v1 v2 q ->
  Rmin (px v1) (px v2) <= vx q <= Rmax (px v1) (px v2) /\ Rmin (py v1) (py v2) <= vy q <= Rmax (py v1) (py v2).
Proof.
  intros E (t & Ht & Q). apply seg_at_line in Q; [|exact E]. subst q. unfold line_pt, pos. cbn [vx vy].
  assert (G : forall a b, Rmin a b <= a + t * (b - a) <= Rmax a b).
  { intros a b. unfold Rmin, Rmax. destruct (Rle_dec a b); nra. }
  split; apply G.
Qed.

Lemma min_max_R a b : min_max a b = (Rmin a b, Rmax a b).
Proof.
  unfold min_max. rnum. destruct (rltb_spec a b) as [L|L].
  - rewrite Rmin_left, Rmax_right by lra. reflexivity.
  - rewrite Rmin_right, Rmax_left by lra. reflexivity.
Qed.

Lemma on_seg_ends v1 v2 : seg_ok v1 v2 -> on_seg v1 v2 (pos v1) /\ on_seg v1 v2 (pos v2).
Proof. intros H. split; [exists 0|exists 1]; (split; [lra|]); [now apply seg_at_0|now apply seg_at_1]. Qed.

Lemma min_reached (P : vec2 R -> Prop) (f : vec2 R -> R) p q e : 0 <= e -> P p -> P q ->
  (exists x, P x /\ Rabs (f x - Rmin (f p) (f q)) <= e) /\ (exists x, P x /\ Rabs (f x - Rmax (f p) (f q)) <= e).
Proof.
  intros He Hp Hq. unfold Rmin, Rmax. destruct (Rle_dec (f p) (f q)); split;
    solve [exists p; split; [exact Hp|]; rewrite Rminus_diag_eq, Rabs_R0 by reflexivity; exact He
          |exists q; split; [exact Hq|]; rewrite Rminus_diag_eq, Rabs_R0 by reflexivity; exact He].
Qed.

Lemma rho_tol rho : 0 <= rho -> 0 <= rho * tol16.
Proof. intros H. unfold tol16. lra. Qed.

Lemma seg_box v1 v2 : seg_ok v1 v2 ->
  (forall q, on_seg v1 v2 q -> inside (seg_bounding_box v1 v2) (1 / 50000000) q)
  /\ (~ short_arc v1 v2 -> forall q, on_seg v1 v2 q -> inside (seg_bounding_box v1 v2) 0 q)
  /\ (forall rho, 0 <= rho -> radius_within rho v1 v2 ->
        reaches (seg_bounding_box v1 v2) (rho * (1 / 10000000000000000)) (on_seg v1 v2)).
Proof.
  intros Hok. unfold seg_bounding_box. pose proof Hok as [HB _]. destruct (on_seg_ends _ _ Hok) as [O1 O2].
  destruct (bulge_is_zero v1) eqn:Z.
  - apply bulge_ok_zero in Z; [|exact HB]. rewrite !min_max_R.
    assert (I : forall q, on_seg v1 v2 q -> inside (AABB (Rmin (px v1) (px v2)) (Rmin (py v1) (py v2)) (Rmax (px v1) (px v2)) (Rmax (py v1) (py v2))) 0 q).
    { intros q Hq. destruct (line_between _ _ _ Z Hq). unfold inside. cbn [bmin_x bmin_y bmax_x bmax_y]. lra. }
    split; [|split].
    + intros q Hq. specialize (I q Hq). unfold inside in *. lra.
    + intros _. exact I.
    + intros rho Hr _. unfold reaches. cbn [bmin_x bmin_y bmax_x bmax_y]. pose proof (rho_tol _ Hr).
      destruct (min_reached (on_seg v1 v2) vx _ _ _ H O1 O2). destruct (min_reached (on_seg v1 v2) vy _ _ _ H O1 O2).
      repeat split; assumption.
  - assert (E : pbulge v1 <> 0) by (intros E; apply bulge_ok_zero in E; congruence).
    destruct (v2fuzzy_eq (pos v1) (pos v2)) eqn:F.
    + apply v2fuzzy_short in F; [|exact E].
      unfold arc_seg_bounding_box. rewrite (proj2 (v2fuzzy_short v1 v2 E) F).
      split; [|split].
      * intros q Hq. destruct (short_arc_near _ _ _ Hok F Hq) as [A1 A2]. unfold inside. cbn [bmin_x bmin_y bmax_x bmax_y].
        revert A1 A2. unfold Rabs. destruct (Rcase_abs _), (Rcase_abs _); lra.
      * intros H. contradiction.
      * intros rho Hr _. pose proof (rho_tol _ Hr). unfold reaches. cbn [bmin_x bmin_y bmax_x bmax_y].
        repeat split; exists (pos v1); (split; [exact O1|]); cbn [pos vx vy];
        rewrite Rminus_diag_eq by reflexivity; rewrite Rabs_R0; exact H.
    + assert (NS : ~ short_arc v1 v2) by (intros S; apply v2fuzzy_short in S; congruence).
      destruct (arc_box v1 v2 Hok E NS) as [A1 A2]. split; [|split].
      * intros q Hq. specialize (A1 q Hq). unfold inside in *. lra.
      * intros _. exact A1.
      * intros rho _. apply A2.
Qed.

(** ** The fast box: an arc lies in the rectangle over its chord *)
Lemma arc_in_rectangle v1 v2 q : seg_ok v1 v2 -> pbulge v1 <> 0 -> on_seg v1 v2 q ->
  exists u s, 0 <= u <= 1 /\ 0 <= s <= 1
    /\ vx q = px v1 + u * (px v2 - px v1) + s * (pbulge v1 * (py v2 - py v1) / 2)
    /\ vy q = py v1 + u * (py v2 - py v1) + s * (- pbulge v1 * (px v2 - px v1) / 2).
Proof.
  intros [HB HP] Hb (t & Ht & Q). specialize (HP Hb).
  assert (H1 : Rabs (pbulge v1) <= 1) by (destruct HB as [HB|[_ HB]]; [contradiction|exact HB]).
  destruct Q as [[Q _]|[_ (c & r & a & (Hr & P1 & P2) & ->)]]; [contradiction|].
  set (b := pbulge v1) in *. set (th := sweep b) in *.
  assert (SB : - PI <= th <= PI) by (apply sweep_bound; exact H1).
  assert (SN : th <> 0) by (apply sweep_nonzero; exact Hb).
  pose proof PI_pos as HPI.
  set (mu := a + th / 2). set (de := (t - 1 / 2) * th).
  assert (Ea : a = mu - th / 2) by (unfold mu; field).
  assert (Ea2 : a + th = mu + th / 2) by (unfold mu; field).
  assert (Eat : a + t * th = mu + de) by (unfold mu, de; field).
  rewrite Ea in P1. rewrite Ea2 in P2. rewrite Eat.
  set (S2 := sin (th / 2)). set (C2 := cos (th / 2)).
  assert (SCne : S2 <> 0 /\ 0 < 1 - C2 /\ b * S2 = 1 - C2).
  { assert (Eth : th / 2 = 2 * atan b) by (unfold th, sweep; field).
    destruct (cos_sin_2atan b) as [Cb Sb]. unfold S2, C2. rewrite Eth, Cb, Sb.
    assert (0 < b * b) by nra. assert (0 < 1 + b * b) by nra.
    split; [|split].
    - unfold Rdiv. apply Rmult_integral_contrapositive_currified; [lra|]. apply Rinv_neq_0_compat. lra.
    - replace (1 - (1 - b * b) / (1 + b * b)) with (2 * (b * b) / (1 + b * b)) by (field; lra).
      apply Rmult_lt_0_compat; [lra|]. apply Rinv_0_lt_compat. lra.
    - field. lra. }
  destruct SCne as (SN2 & CP & EbS).
  (* the two coordinates in the frame of the chord *)
  exists ((sin de + S2) / (2 * S2)), ((cos de - C2) / (1 - C2)).
  assert (Bs : - Rabs S2 <= sin de <= Rabs S2 /\ C2 <= cos de <= 1).
  { assert (D : - Rabs (th / 2) <= de <= Rabs (th / 2)).
    { unfold de. unfold Rabs. destruct (Rcase_abs (th / 2)); nra. }
    assert (AB : 0 <= Rabs (th / 2) <= PI / 2).
    { split; [apply Rabs_pos|]. unfold Rabs. destruct (Rcase_abs _); lra. }
    assert (ES : Rabs S2 = sin (Rabs (th / 2))).
    { unfold S2. unfold Rabs at 2. destruct (Rcase_abs (th / 2)) as [L|L].
      - rewrite sin_neg. rewrite <- Rabs_Ropp. apply Rabs_pos_eq. rewrite <- sin_neg. apply sin_ge_0; lra.
      - apply Rabs_pos_eq. apply sin_ge_0; lra. }
    assert (EC : C2 = cos (Rabs (th / 2))) by (unfold C2; now rewrite cos_abs).
    rewrite ES, EC. split.
    - rewrite <- sin_neg. split; apply sin_incr_1; lra.
    - split; [|apply COS_bound]. rewrite <- (cos_abs de). apply cos_decr_1; try lra; try apply Rabs_pos.
      + apply Rle_trans with (Rabs (th / 2)); [|lra]. apply Rabs_le. exact D.
      + apply Rabs_le. exact D. }
  destruct Bs as [Bs1 Bs2].
  split; [|split].
  - assert (G : 0 <= (sin de + S2) * S2 <= 2 * S2 * S2).
    { revert Bs1. unfold Rabs. destruct (Rcase_abs S2); nra. }
    assert (P : 0 < 2 * (S2 * S2)) by nra.
    replace ((sin de + S2) / (2 * S2)) with ((sin de + S2) * S2 / (2 * (S2 * S2))) by (field; lra).
    split; [apply Rmult_le_pos; [lra|apply Rlt_le, Rinv_0_lt_compat; lra]|].
    apply Rmult_le_reg_r with (2 * (S2 * S2)); [lra|]. unfold Rdiv. rewrite Rmult_assoc, Rinv_l by lra. lra.
  - split; [apply Rmult_le_pos; [lra|apply Rlt_le, Rinv_0_lt_compat; lra]|].
    apply Rmult_le_reg_r with (1 - C2); [lra|]. unfold Rdiv. rewrite Rmult_assoc, Rinv_l by lra. lra.
  - unfold pos, circle_pt in P1, P2. injection P1 as X1 Y1. injection P2 as X2 Y2.
    rewrite cos_minus in X1. rewrite sin_minus in Y1. rewrite cos_plus in X2. rewrite sin_plus in Y2.
    fold S2 C2 in X1, Y1, X2, Y2. rewrite X1, X2, Y1, Y2. unfold circle_pt. cbn [vx vy].
    rewrite cos_plus, sin_plus.
    assert (Eb : b = (1 - C2) / S2) by (rewrite <- EbS; field; exact SN2).
    split; rewrite Eb; field; split; lra.
Qed.

Lemma fast_box v1 v2 q : seg_ok v1 v2 -> on_seg v1 v2 q -> inside (seg_fast_approx_bounding_box v1 v2) 0 q.
Proof.
  intros Hok Hq. pose proof Hok as [HB _]. unfold seg_fast_approx_bounding_box.
  destruct (bulge_is_zero v1) eqn:Z.
  - apply bulge_ok_zero in Z; [|exact HB]. rewrite !min_max_R.
    destruct (line_between _ _ _ Z Hq). unfold inside. cbn [bmin_x bmin_y bmax_x bmax_y]. lra.
  - assert (E : pbulge v1 <> 0) by (intros E; apply bulge_ok_zero in E; congruence).
    destruct (arc_in_rectangle _ _ _ Hok E Hq) as (u & s & Hu & Hs & EX & EY).
    rewrite !min_max_R. rnum. unfold inside. cbn [bmin_x bmin_y bmax_x bmax_y]. rewrite EX, EY.
    assert (G : forall a b o, Rmin (Rmin a b) (Rmin (a + o) (b + o)) - 0 <= a + u * (b - a) + s * o
                              <= Rmax (Rmax a b) (Rmax (a + o) (b + o)) + 0).
    { intros a b o.
      assert (A1 : Rmin a b <= a + u * (b - a) <= Rmax a b) by (unfold Rmin, Rmax; destruct (Rle_dec a b); nra).
      assert (A2 : Rmin (a + o) (b + o) = Rmin a b + o) by (unfold Rmin; destruct (Rle_dec (a + o) (b + o)), (Rle_dec a b); lra).
      assert (A3 : Rmax (a + o) (b + o) = Rmax a b + o) by (unfold Rmax; destruct (Rle_dec (a + o) (b + o)), (Rle_dec a b); lra).
      rewrite A2, A3. set (m := Rmin a b) in *. set (M := Rmax a b) in *.
      unfold Rmin, Rmax. destruct (Rle_dec m (m + o)), (Rle_dec M (M + o)); nra. }
    split; [apply (G (px v1) (px v2))|apply (G (py v1) (py v2))].
Qed.

(** The fast box contains the exact box up to the tolerance of the latter. *)
Lemma fast_contains_exact v1 v2 rho : seg_ok v1 v2 -> 0 <= rho -> radius_within rho v1 v2 ->
  let f := seg_fast_approx_bounding_box v1 v2 in
  let e := seg_bounding_box v1 v2 in
  let d := rho * (1 / 10000000000000000) in
  bmin_x f - d <= bmin_x e /\ bmin_y f - d <= bmin_y e /\ bmax_x e <= bmax_x f + d /\ bmax_y e <= bmax_y f + d.
Proof.
  intros Hok Hr HR f e d. destruct (seg_box v1 v2 Hok) as (_ & _ & R).
  destruct (R rho Hr HR) as ((q1 & O1 & A1) & (q2 & O2 & A2) & (q3 & O3 & A3) & (q4 & O4 & A4)).
  fold e in A1, A2, A3, A4. fold d in A1, A2, A3, A4.
  pose proof (fast_box _ _ _ Hok O1) as I1. pose proof (fast_box _ _ _ Hok O2) as I2.
  pose proof (fast_box _ _ _ Hok O3) as I3. pose proof (fast_box _ _ _ Hok O4) as I4.
  fold f in I1, I2, I3, I4. unfold inside in *.
  assert (G : forall x y, Rabs (x - y) <= d -> y - d <= x <= y + d).
  { intros x y. unfold Rabs. destruct (Rcase_abs (x - y)); lra. }
  apply G in A1. apply G in A2. apply G in A3. apply G in A4. lra.
Qed.
