(** Boolean operations on two circles (C71). *)
From Coq Require Import Reals ZArith Bool List Arith Lra Lia Psatz Classical.
From Verif Require Import Num RNum Res ModelMath ModelSeg ModelPline ModelIndex ModelIntersects ModelBoolean.
From Verif Require Import Spec SpecGeom SpecIntr SpecBox SpecView SpecWinding SpecIndex SpecBoolean SpecPrune SpecRegion SpecSegIntr SpecOffset SpecOffsetJoin SpecPolyOff SpecPolyBool SpecJordan SpecCircle SpecCurve.
From Verif Require Import ProofR ProofBase ProofIter ProofArc ProofIntr ProofSlice ProofSegIntr ProofSegIntr5 ProofWinding6 ProofNest ProofValid ProofJordan2 ProofOffsetJoin3 ProofCurve3 ProofDisc.
Import ListNotations.
Local Open Scope R_scope.

Section One.
Context (c u : vec2 R) (b r eps : R).
Hypothesis Hu : unit_vec u.
Hypothesis Hb : b = 1 \/ b = -1.
Hypothesis He : 0 < eps.
Hypothesis Hs : of_size eps r.

Let W k := vertex_at (moved c u k) b.
Let p := circle c u r b.

Lemma r_pos : 0 < r. Proof. destruct Hs. lra. Qed.

Lemma disc_in v1 v2 : In (v1, v2) (spec_segs (vtx p) true) -> exists k, (k = r \/ k = - r) /\ v1 = W k /\ v2 = W (- k).
Proof.
  intros [I|[I|[]]]; injection I as <- <-; [exists r|exists (- r)]; rewrite ?Ropp_involutive; auto.
Qed.

Lemma k_abs k : k = r \/ k = - r -> Rabs k = r /\ k <> 0.
Proof. pose proof r_pos. intros [-> | ->]; rewrite ?Rabs_Ropp, Rabs_pos_eq by lra; split; lra. Qed.

Lemma disc_clear : clear_pline eps p.
Proof.
  intros v1 v2 I. split; [exact (disc_ok c u b Hu Hb r r_pos _ _ I)|]. destruct (disc_in v1 v2 I) as (k & Hk & -> & ->).
  destruct (k_abs k Hk) as (A & K). destruct Hs as (S & _). cbn [W vertex_at px py moved vx vy].
  replace (vx c + k * vx u - (vx c + - k * vx u)) with (2 * (k * vx u)) by ring. replace (vy c + k * vy u - (vy c + - k * vy u)) with (2 * (k * vy u)) by ring.
  rewrite !Rabs_mult, A, (Rabs_pos_eq 2) by lra.
  unfold unit_vec in Hu. destruct (Rle_dec (1 / 2) (Rabs (vx u))) as [L|L].
  - left. assert (r * (1 / 2) <= r * Rabs (vx u)) by (apply Rmult_le_compat_l; lra). lra.
  - right. assert (1 / 2 <= Rabs (vy u)).
    { apply Rnot_lt_le. intros M. assert (X : Rabs (vx u) * Rabs (vx u) = vx u * vx u) by (rewrite <- Rabs_mult; apply Rabs_pos_eq, Rle_0_sqr).
      assert (Y : Rabs (vy u) * Rabs (vy u) = vy u * vy u) by (rewrite <- Rabs_mult; apply Rabs_pos_eq, Rle_0_sqr).
      pose proof (Rabs_pos (vx u)). pose proof (Rabs_pos (vy u)). nra. }
    assert (r * (1 / 2) <= r * Rabs (vy u)) by (apply Rmult_le_compat_l; lra). lra.
Qed.

Lemma disc_moderate : moderate eps p.
Proof.
  intros v1 v2 c' r' I _ A. destruct (disc_in v1 v2 I) as (k & Hk & -> & ->). destruct (k_abs k Hk) as (Ak & K).
  destruct (disc_circle c u b Hu Hb k c' r' K A) as (_ & ->). rewrite Ak. apply Hs.
Qed.

Lemma disc_wide k : k = r \/ k = - r -> wide (W k) (W (- k)) eps.
Proof.
  intros Hk _ c' r' a A. destruct (k_abs k Hk) as (Ak & K). destruct (disc_circle c u b Hu Hb k c' r' K (ex_intro _ a A)) as (_ & ->). rewrite Ak.
  assert (dist (pos (W k)) (pos (W (- k))) = 2 * r) as ->.
  { apply dist_eq_sqr; [pose proof r_pos; lra|]. unfold W, vertex_at, moved, pos. cbn [px py vx vy]. unfold unit_vec in Hu.
    transitivity (4 * (k * k) * (vx u * vx u + vy u * vy u)); [ring|]. rewrite Hu. destruct Hk as [-> | ->]; ring. }
  destruct Hs as (S1 & S2 & _). lra.
Qed.

Lemma disc_near k x : k = r \/ k = - r -> near_seg (W k) (W (- k)) eps x ->
  exists q, on_seg (W k) (W (- k)) q /\ dist x q < margin eps r.
Proof.
  intros Hk (q & O & [(Z & _)|(_ & c' & r' & a & A & D)]); [exfalso; exact (disc_bulge c u b Hb k Z)|]. exists q. split; [exact O|].
  destruct (k_abs k Hk) as (Ak & K). destruct (disc_circle c u b Hu Hb k c' r' K (ex_intro _ a A)) as (_ & ->). rewrite Ak in D.
  unfold margin. pose proof r_pos as R0. replace (2 / r) with (2 * (1 / r)) in D by (field; lra). lra.
Qed.

Lemma lean_le x y : Rabs (lean c u x - lean c u y) <= dist x y.
Proof.
  apply abs_le_of_sq; [apply sqrt_pos|]. rewrite dist_sqr. unfold lean, unit_vec in *.
  set (h := vx x - vx y). set (k := vy x - vy y).
  replace (vx u * (vy x - vy c) - vy u * (vx x - vx c) - (vx u * (vy y - vy c) - vy u * (vx y - vx c))) with (vx u * k - vy u * h) by (unfold h, k; ring).
  assert (E : (vx u * k - vy u * h) * (vx u * k - vy u * h) + (vx u * h + vy u * k) * (vx u * h + vy u * k) = (vx u * vx u + vy u * vy u) * (h * h + k * k)) by ring.
  rewrite Hu in E. pose proof (Rle_0_sqr (vx u * h + vy u * k)) as S. unfold Rsqr in S. lra.
Qed.

(** A point not next to the diameter is on the half circle or not next to it. *)
Lemma half_decided k x : k = r \/ k = - r -> dist x c = r -> margin eps r < Rabs (lean c u x) ->
  on_seg (W k) (W (- k)) x \/ ~ near_seg (W k) (W (- k)) eps x.
Proof.
  intros Hk D M. destruct (k_abs k Hk) as (Ak & K).
  destruct (Rle_dec 0 (b * k * lean c u x)) as [L|L]; [left; apply (half_on c u b Hu Hb k x K); rewrite Ak; auto|right].
  intros N. destruct (disc_near k x Hk N) as (q & O & Dq). apply (half_on c u b Hu Hb k q K) in O. destruct O as (_ & O).
  pose proof (lean_le x q) as LL. assert (Rabs (lean c u x) <= Rabs (lean c u x - lean c u q)); [|lra].
  assert (S : b * k = r \/ b * k = - r) by (destruct Hb as [-> | ->], Hk as [-> | ->]; lra). pose proof r_pos as R0.
  destruct S as [S|S]; rewrite S in L, O.
  - assert (lean c u x < 0) by (apply Rnot_le_lt; intros Q; apply L, Rmult_le_pos; lra).
    assert (0 <= lean c u q) by (apply (Rmult_le_reg_l r); lra). rewrite !Rabs_left by lra. lra.
  - assert (0 < lean c u x) by (apply Rnot_le_lt; intros Q; apply L; replace (- r * lean c u x) with (r * - lean c u x) by ring; apply Rmult_le_pos; lra).
    assert (lean c u q <= 0) by (apply (Rmult_le_reg_l r); lra). rewrite !Rabs_pos_eq by lra. lra.
Qed.

(** A point not next to the circle is next to neither half. *)
Lemma half_far k e : k = r \/ k = - r -> margin eps r < Rabs (dist e c - r) -> ~ near_seg (W k) (W (- k)) eps e.
Proof.
  intros Hk M N. destruct (disc_near k e Hk N) as (q & O & D). destruct (k_abs k Hk) as (Ak & K). apply (half_on c u b Hu Hb k q K) in O. destruct O as (O & _). rewrite Ak in O.
  pose proof (ProofJordan2.dist_triangle e q c) as T1. pose proof (ProofJordan2.dist_triangle q e c) as T2. rewrite (ProofJordan2.dist_sym q e) in T2.
  assert (Rabs (dist e c - r) <= dist e q); [|lra]. apply Rabs_le. lra.
Qed.

Lemma off_disc q : margin eps r < Rabs (lean c u q) -> off_vertexes eps p q.
Proof.
  intros M v I. apply NNPP. intros N. assert (N1 : Rabs (px v - vx q) < eps) by (apply Rnot_le_lt; tauto). assert (N2 : Rabs (py v - vy q) < eps) by (apply Rnot_le_lt; tauto).
  assert (exists k, v = W k) as (k & ->) by (destruct I as [<-|[<-|[]]]; eexists; reflexivity).
  pose proof (lean_le q (pos (W k))) as L. assert (Z : lean c u (pos (W k)) = 0) by (unfold lean, W, vertex_at, moved, pos; cbn [px py vx vy]; ring). rewrite Z, Rminus_0_r in L.
  assert (D : dist q (pos (W k)) < 2 * eps).
  { apply Rsqr_incrst_0; [|apply sqrt_pos|lra]. unfold Rsqr. rewrite dist_sqr. cbn [pos vx vy].
    apply Rabs_def2 in N1, N2. set (h := px (W k) - vx q) in *. set (l := py (W k) - vy q) in *.
    replace (vx q - px (W k)) with (- h) by (unfold h; ring). replace (vy q - py (W k)) with (- l) by (unfold l; ring). nra. }
  unfold margin in M. pose proof r_pos as R0. assert (0 < 1 / r) by (apply Rdiv_lt_0_compat; lra). nra.
Qed.
End One.

Section Two.
Context (c1 u1 : vec2 R) (b1 r1 : R) (c2 u2 : vec2 R) (b2 r2 eps : R).
Hypothesis Hu1 : unit_vec u1.
Hypothesis Hb1 : b1 = 1 \/ b1 = -1.
Hypothesis Hu2 : unit_vec u2.
Hypothesis Hb2 : b2 = 1 \/ b2 = -1.
Hypothesis He : 0 < eps.
Hypothesis clear : clear_circles eps c1 u1 r1 c2 u2 r2.

Let p1 := circle c1 u1 r1 b1.
Let p2 := circle c2 u2 r2 b2.

Lemma discs_clear : clear_loops eps p1 p2.
Proof.
  pose proof clear as (S1 & S2 & C). pose proof (r_pos r1 eps He S1) as R1. pose proof (r_pos r2 eps He S2) as R2.
  assert (NONE : r1 + r2 + eps <= dist c1 c2 \/ dist c1 c2 + eps <= Rabs (r1 - r2) -> forall q, dist q c1 = r1 -> dist q c2 = r2 -> False).
  { intros M q D1 D2. pose proof (ProofJordan2.dist_triangle c1 q c2) as T1. pose proof (ProofJordan2.dist_triangle q c1 c2) as T2. pose proof (ProofJordan2.dist_triangle q c2 c1) as T3.
    rewrite (ProofJordan2.dist_sym c1 q) in T1. rewrite (ProofJordan2.dist_sym c2 c1) in T3. destruct M as [M|M]; [lra|]. unfold Rabs in M. destruct (Rcase_abs (r1 - r2)); lra. }
  split; [reflexivity|]. split; [reflexivity|]. split; [now apply disc_clear|]. split; [now apply disc_clear|]. split; [now apply disc_moderate|]. split; [now apply disc_moderate|].
  split; [|split].
  - intros v1 v2 w1 w2 I J. destruct (disc_in c1 u1 b1 r1 v1 v2 I) as (k & Hk & -> & ->). destruct (disc_in c2 u2 b2 r2 w1 w2 J) as (l & Hl & -> & ->).
    destruct (k_abs r1 eps He S1 k Hk) as (Ak & K). destruct (k_abs r2 eps He S2 l Hl) as (Al & L).
    pose proof (disc_bulge c1 u1 b1 Hb1 k) as B1. pose proof (disc_bulge c2 u2 b2 Hb2 l) as B2.
    split; [intros Z; contradiction|]. split; [intros Z; contradiction|]. split; [intros _ Z; contradiction|]. intros _ _ c1' r1' c2' r2' A1 A2.
    destruct (disc_circle c1 u1 b1 Hu1 Hb1 k c1' r1' K A1) as (-> & ->). destruct (disc_circle c2 u2 b2 Hu2 Hb2 l c2' r2' L A2) as (-> & ->). rewrite Ak, Al.
    destruct C as [C|[C|(Dc & (x & y & X1 & X2 & Y1 & Y2 & XY) & OF & F1 & F2)]]; [auto|auto|right; right]. split; [exact Dc|]. split.
    { exists x, y. split; [exact X1|]. split; [exact X2|]. split; [exact Y1|]. split; [exact Y2|]. unfold is_point. rewrite (Rabs_minus_sym (vx x)), (Rabs_minus_sym (vy x)) in XY. intros (Q1 & Q2). destruct XY; lra. }
    split; [now apply (disc_wide c1 u1 b1 r1 eps)|]. split; [now apply (disc_wide c2 u2 b2 r2 eps)|]. split; [|split].
    + intros e E. apply (half_far c2 u2 b2 r2 eps); auto. destruct E as [-> | ->]; apply F1; [exact Hk|]. destruct Hk as [-> | ->]; [auto|left; ring].
    + intros e E. apply (half_far c1 u1 b1 r1 eps); auto. destruct E as [-> | ->]; apply F2; [exact Hl|]. destruct Hl as [-> | ->]; [auto|left; ring].
    + intros z Sz Tz.
      assert (D1 : dist z c1 = r1).
      { destruct Sz as [(Z & _)|(_ & c' & r' & A & D)]; [contradiction|]. destruct (disc_circle c1 u1 b1 Hu1 Hb1 k c' r' K A) as (-> & ->). now rewrite Ak in D. }
      assert (D2 : dist z c2 = r2).
      { destruct Tz as [(Z & _)|(_ & c' & r' & A & D)]; [contradiction|]. destruct (disc_circle c2 u2 b2 Hu2 Hb2 l c' r' L A) as (-> & ->). now rewrite Al in D. }
      destruct (OF z D1 D2) as (O1 & O2).
      destruct (half_decided c1 u1 b1 r1 eps Hu1 Hb1 He S1 k z Hk D1 O1) as [G1|G1]; [|auto].
      destruct (half_decided c2 u2 b2 r2 eps Hu2 Hb2 He S2 l z Hl D2 O2) as [G2|G2]; auto.
  - intros q Q1 Q2. apply disc_on in Q1; auto. apply disc_on in Q2; auto. rewrite <- or_assoc in C. destruct C as [C|(_ & _ & OF & _)]; [exfalso; eauto|].
    destruct (OF q Q1 Q2) as (O1 & O2). split; apply off_disc; auto.
  - intros q q' Q1 Q2 Q1' Q2'. apply disc_on in Q1; auto. apply disc_on in Q2; auto. apply disc_on in Q1'; auto. apply disc_on in Q2'; auto.
    rewrite <- or_assoc in C. destruct C as [C|(Dc & (x & y & X1 & X2 & Y1 & Y2 & XY) & _)]; [exfalso; eauto|].
    assert (NP : ~ is_point x y eps) by (unfold is_point; rewrite (Rabs_minus_sym (vx y)), (Rabs_minus_sym (vy y)); intros (P1 & P2); destruct XY; lra).
    destruct (circle_circle_two r1 c1 r2 c2 eps x y He ltac:(lra) ltac:(lra) Dc NP X1 X2 Y1 Y2) as (q1 & q2 & _ & U).
    assert (NE : x <> y) by (intros <-; rewrite !Rminus_diag_eq, Rabs_R0 in XY by reflexivity; destruct XY; lra).
    assert (XY' : eps < Rabs (vx y - vx x) \/ eps < Rabs (vy y - vy x)) by (rewrite (Rabs_minus_sym (vx y)), (Rabs_minus_sym (vy y)); exact XY).
    destruct (U x X1 X2) as [-> | ->], (U y Y1 Y2) as [-> | ->]; try contradiction; destruct (U q Q1 Q2) as [-> | ->], (U q' Q1' Q2') as [-> | ->]; auto.
Qed.

Theorem discs_region mk op idx boxes : makes_index mk -> index_of boxes idx ->
  boxes = map (fun s => seg_fast_approx_bounding_box (fst s) (snd s)) (spec_segs (vtx p1) (is_closed p1)) ->
  exists r, polyline_boolean mk p1 p2 op idx eps = Ret r
  /\ forall x, dist x c1 <> r1 -> dist x c2 <> r2 -> (region (fun p y => inside p y = true) r x <-> operation op (dist x c1 < r1) (dist x c2 < r2)).
Proof.
  intros MK IO EB. pose proof clear as (S1 & S2 & _). pose proof (r_pos r1 eps He S1) as R1. pose proof (r_pos r2 eps He S2) as R2.
  destruct (loops_region mk p1 p2 eps op idx boxes He discs_clear MK IO EB (disc_loop c1 u1 b1 r1) (disc_loop c2 u2 b2 r2) (disc_once c1 u1 b1 Hu1 Hb1 r1 R1) (disc_once c2 u2 b2 Hu2 Hb2 r2 R2)) as (r & E & _ & G).
  exists r. split; [exact E|]. intros x N1 N2.
  rewrite (G x); [|intros O; apply disc_on in O; auto|intros O; apply disc_on in O; auto].
  pose proof (disc_inside c1 u1 b1 Hu1 Hb1 r1 R1 x N1) as I1. pose proof (disc_inside c2 u2 b2 Hu2 Hb2 r2 R2 x N2) as I2. fold p1 in I1. fold p2 in I2.
  destruct op; cbn [operation]; tauto.
Qed.
End Two.
