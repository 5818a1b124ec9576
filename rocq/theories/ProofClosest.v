(** Proofs about the closest point on a segment (C14). *)
From Coq Require Import Reals ZArith Bool List Arith Lra Lia Psatz.
From Verif Require Import Num RNum Res ModelMath ModelSeg ModelPline Spec SpecGeom SpecIntr SpecBox SpecClosest.
From Verif Require Import ProofR ProofBase ProofIter ProofArc ProofArc2 ProofSlice ProofIntr ProofBox ProofBox2.
Import ListNotations.
Local Open Scope R_scope.

Lemma dist_le_sqr p q p' q' : dist p q * dist p q <= dist p' q' * dist p' q' -> dist p q <= dist p' q'.
Proof. intros H. apply Rsqr_incr_0_var; [exact H|apply dist_pos]. Qed.

(** ** Lines *)
Lemma closest_line v1 v2 pt : pbulge v1 = 0 ->
  let q := line_seg_closest_point (pos v1) (pos v2) pt in
  on_seg v1 v2 q
  /\ (forall q', on_seg v1 v2 q' -> dist pt q * dist pt q <= dist pt q' * dist pt q' + 1 / 50000000)
  /\ (clear_foot v1 v2 pt -> forall q', on_seg v1 v2 q' -> dist pt q <= dist pt q').
Proof.
  intros Hb. unfold line_seg_closest_point, v2length_squared, v2dot, v2sub, v2add, v2scale. rnum. cbn [vx vy].
  unfold clear_foot, dot, vec. cbn [vx vy].
  set (p := pos v1) in *. set (q := pos v2) in *.
  set (a := vx q - vx p). set (b := vy q - vy p). set (x := vx pt - vx p). set (y := vy pt - vy p).
  set (c1 := x * a + y * b). set (c2 := a * a + b * b).
  assert (HC2 : 0 <= c2) by (apply sumsq_nonneg).
  assert (ON : forall q', on_seg v1 v2 q' <-> exists t, 0 <= t <= 1 /\ q' = line_pt p q t).
  { intros q'. unfold on_seg. split; intros (t & Ht & Q); exists t; (split; [exact Ht|]).
    - now apply seg_at_line in Q.
    - now apply seg_at_line. }
  assert (D : forall t, dist pt (line_pt p q t) * dist pt (line_pt p q t) = (x * x + y * y) - 2 * t * c1 + t * t * c2).
  { intros t. rewrite dist_sqr. unfold line_pt. cbn [vx vy]. unfold c1, c2, x, y, a, b. ring. }
  assert (CS : c1 * c1 <= (x * x + y * y) * c2).
  { unfold c1, c2. pose proof (Rle_0_sqr (x * b - y * a)) as S. unfold Rsqr in S. nra. }
  assert (P0 : p = line_pt p q 0) by (unfold line_pt; apply vec2_eq; cbn [vx vy]; ring).
  assert (P1 : q = line_pt p q 1) by (unfold line_pt; apply vec2_eq; cbn [vx vy]; ring).
  (* everything follows from a parameter of the returned point *)
  assert (G : forall q0 t0, q0 = line_pt p q t0 -> 0 <= t0 <= 1 ->
     (forall t, 0 <= t <= 1 -> - 2 * t0 * c1 + t0 * t0 * c2 <= - 2 * t * c1 + t * t * c2 + 1 / 50000000) ->
     (c1 <= 0 \/ 1 / 100000000 <= c1 /\ (c2 <= c1 \/ c1 + 1 / 100000000 <= c2) ->
      forall t, 0 <= t <= 1 -> - 2 * t0 * c1 + t0 * t0 * c2 <= - 2 * t * c1 + t * t * c2) ->
     on_seg v1 v2 q0
     /\ (forall q', on_seg v1 v2 q' -> dist pt q0 * dist pt q0 <= dist pt q' * dist pt q' + 1 / 50000000)
     /\ (c1 <= 0 \/ 1 / 100000000 <= c1 /\ (c2 <= c1 \/ c1 + 1 / 100000000 <= c2) ->
         forall q', on_seg v1 v2 q' -> dist pt q0 <= dist pt q')).
  { intros q0 t0 -> Ht0 A B. split; [apply ON; eauto|]. split.
    - intros q' Hq'. apply ON in Hq' as (t & Ht & ->). rewrite !D. specialize (A t Ht). lra.
    - intros HC q' Hq'. apply ON in Hq' as (t & Ht & ->). apply dist_le_sqr. rewrite !D. specialize (B HC t Ht). lra. }
  destruct (rltb_spec c1 (1 / 100000000)) as [L|L].
  - apply (G p 0); [exact P0|lra| |].
    + intros t Ht. assert (0 <= t * t * c2) by (apply Rmult_le_pos; [nra|lra]).
      destruct (Rle_dec c1 0); nra.
    + intros [HC|[HC _]]; [|lra]. intros t Ht. assert (0 <= t * t * c2) by (apply Rmult_le_pos; [nra|lra]). nra.
  - destruct (rltb_spec c2 (c1 + 1 / 100000000)) as [M|M].
    + assert (Q : forall t, - 2 * t * c1 + t * t * c2 - (- 2 * 1 * c1 + 1 * 1 * c2) = (1 - t) * (2 * c1 - c2 - t * c2)) by (intros t; ring).
      apply (G q 1); [exact P1|lra| |].
      * intros t Ht. specialize (Q t). assert (t * c2 <= c2) by nra.
        assert (- (1 / 50000000) <= (1 - t) * (2 * c1 - c2 - t * c2)) by nra. lra.
      * intros [HC|[_ [HC|HC]]]; [lra| |lra]. intros t Ht. specialize (Q t). assert (t * c2 <= c2) by nra.
        assert (0 <= (1 - t) * (2 * c1 - c2 - t * c2)) by (apply Rmult_le_pos; lra). lra.
    + assert (HP : 0 < c2) by lra.
      assert (E : c1 / c2 * c2 = c1) by (field; lra).
      assert (B : 0 <= c1 / c2 <= 1).
      { split; [apply Rmult_le_pos; [lra|apply Rlt_le, Rinv_0_lt_compat; lra]|].
        apply Rmult_le_reg_r with c2; [lra|]. rewrite E. lra. }
      assert (K : forall t, 0 <= t <= 1 -> - 2 * (c1 / c2) * c1 + c1 / c2 * (c1 / c2) * c2 <= - 2 * t * c1 + t * t * c2).
      { intros t Ht. set (s := c1 / c2) in *. rewrite <- E.
        pose proof (Rmult_le_pos _ _ (Rle_0_sqr (s - t)) HC2) as S. unfold Rsqr in S.
        replace (- 2 * t * (s * c2) + t * t * c2) with ((s - t) * (s - t) * c2 - s * s * c2) by ring. 
        replace (- 2 * s * (s * c2) + s * s * c2) with (- (s * s * c2)) by ring. lra. }
      apply (G _ (c1 / c2)); [|exact B| |].
      * unfold line_pt. fold a b. apply vec2_eq; cbn [vx vy]; ring.
      * intros t Ht. specialize (K t Ht). lra.
      * intros _. exact K.
Qed.

(** ** Arcs *)
Lemma normalize_radians_id_range x : exists m, congr m x /\ 0 <= m < 2 * PI.
Proof.
  pose proof PI_pos. destruct (normalize_radians_spec x) as ((k & E) & (B1 & B2) & _).
  destruct (Req_dec (normalize_radians x) (2 * PI)) as [F|F].
  - exists 0. split; [|lra]. exists (k - 1)%Z. rewrite minus_IZR. rewrite E in F. lra.
  - exists (normalize_radians x). split; [exists k; exact E|lra].
Qed.

Lemma cross_circle c r rho a b :
  cross (vec c (circle_pt c r a)) (vec c (circle_pt c rho b)) = r * rho * sin (b - a).
Proof. unfold cross, vec, circle_pt. cbn [vx vy]. rewrite sin_minus. ring. Qed.

Lemma dist_circle_sqr c r rho a b :
  dist (circle_pt c rho b) (circle_pt c r a) * dist (circle_pt c rho b) (circle_pt c r a)
  = rho * rho + r * r - 2 * r * rho * cos (b - a).
Proof.
  rewrite dist_sqr. unfold circle_pt. cbn [vx vy]. rewrite cos_minus.
  pose proof (sin2_cos2 a) as A. pose proof (sin2_cos2 b) as B. unfold Rsqr in *.
  replace (vx c + rho * cos b - (vx c + r * cos a)) with (rho * cos b - r * cos a) by ring.
  replace (vy c + rho * sin b - (vy c + r * sin a)) with (rho * sin b - r * sin a) by ring.
  replace ((rho * cos b - r * cos a) * (rho * cos b - r * cos a) + (rho * sin b - r * sin a) * (rho * sin b - r * sin a))
    with (rho * rho * (sin b * sin b + cos b * cos b) + r * r * (sin a * sin a + cos a * cos a) - 2 * r * rho * (cos b * cos a + sin b * sin a)) by ring.
  rewrite A, B. ring.
Qed.

(** [sin m <= 0] or [sin (m - w) >= 0] strictly: the direction is not within the turn. *)
Lemma outside_turn m w : 0 <= m < 2 * PI -> 0 <= w <= PI -> sin m < 0 \/ 0 < sin (m - w) -> w < m.
Proof.
  intros Hm Hw H. pose proof PI_pos. destruct (Rlt_dec w m) as [L|L]; [exact L|exfalso].
  destruct H as [H|H].
  - pose proof (sin_ge_0 m). lra.
  - assert (sin (m - w) <= 0). { replace (m - w) with (- (w - m)) by ring. rewrite sin_neg. pose proof (sin_ge_0 (w - m)). lra. }
    lra.
Qed.

Lemma inside_turn m w : 0 <= m < 2 * PI -> 0 <= w <= PI -> 0 < sin m -> sin (m - w) < 0 -> m <= w.
Proof.
  intros Hm Hw H1 H2. pose proof PI_pos. destruct (Rle_dec m w) as [L|L]; [exact L|exfalso].
  assert (M : m <= PI). { destruct (Rle_dec m PI) as [M|M]; [exact M|]. pose proof (sin_le_0 m). lra. }
  pose proof (sin_ge_0 (m - w)). lra.
Qed.

Lemma perp_dot_cross c p q : perp_dot_test_value c p q = cross (vec c p) (vec c q).
Proof. unfold perp_dot_test_value, cross, vec. rnum. cbn [vx vy]. reflexivity. Qed.

Lemma closest_arc v1 v2 pt eps : seg_ok v1 v2 -> pbulge v1 <> 0 -> 0 < eps ->
  let q := seg_closest_point v1 v2 pt eps in
  (near_centre v1 v2 pt eps /\ q = pos v1 /\ forall q', on_seg v1 v2 q' -> dist pt q <= dist pt q' + 3 * eps)
  \/ (~ near_centre v1 v2 pt eps /\ (~ grazing v1 v2 pt eps -> on_seg v1 v2 q)
      /\ forall q', on_seg v1 v2 q' -> dist pt q <= dist pt q').
Proof.
  intros Hok Hb He. pose proof Hok as [HB HP]. specialize (HP Hb). unfold seg_closest_point.
  destruct (bulge_is_zero v1) eqn:Z; [apply bulge_ok_zero in Z; [contradiction|exact HB]|].
  rewrite (arc_radius_and_center_eq _ _ HP Hb).
  destruct (arc_turn v1 v2 Hok Hb) as (al & w & Hw & _ & Hon & Hends).
  pose proof (computed_is_arc _ _ _ HP Hb) as HA.
  set (c := centre_of (pos v1) (pos v2) (pbulge v1)) in *. set (r := radius_of (pos v1) (pos v2) (pbulge v1)) in *.
  assert (Hr : 0 < r) by (apply radius_pos; assumption).
  assert (HU : forall c' r' a', is_arc (pos v1) (pos v2) (pbulge v1) c' r' a' -> c' = c /\ r' = r).
  { intros c' r' a' H. now apply (arc_unique _ _ _ _ _ _ Hb H). }
  destruct (v2fuzzy_eq_eps pt c eps) eqn:F.
  - left. split; [|split; [reflexivity|]].
    + split; [exact Hb|]. exists c, r, (angle c (pos v1)). split; [exact HA|]. apply v2fuzzy_R in F. exact F.
    + intros q' Hq'. apply v2fuzzy_dist_true in F. apply Hon in Hq' as (x & Hx & ->).
      assert (DC : forall z, dist c (circle_pt c r z) = r).
      { intros z. apply dist_eq_sqr; [lra|]. unfold circle_pt. cbn [vx vy]. pose proof (sin2_cos2 z) as S. unfold Rsqr in S.
        replace ((vx c - (vx c + r * cos z)) * (vx c - (vx c + r * cos z)) + (vy c - (vy c + r * sin z)) * (vy c - (vy c + r * sin z)))
          with (r * r * (sin z * sin z + cos z * cos z)) by ring. rewrite S. ring. }
      assert (D1 : dist c (pos v1) = r) by (destruct Hends as [[-> _]|[_ ->]]; apply DC).
      pose proof (dist_triangle pt (pos v1) c) as T1. pose proof (dist_triangle c (circle_pt c r (al + x)) pt) as T2.
      rewrite DC in T2. rewrite (dist_sym c pt) in T2. lra.
  - right.
    assert (NC : ~ near_centre v1 v2 pt eps).
    { intros (_ & c' & r' & a' & HA' & HI). destruct (HU _ _ _ HA') as [-> ->].
      assert (v2fuzzy_eq_eps pt c eps = true) by (apply v2fuzzy_R; exact HI). congruence. }
    split; [exact NC|].
    assert (Hne : pt <> c).
    { intros E. pose proof (v2fuzzy_dist_false _ _ _ He F) as D. rewrite E in D.
      rewrite (dist_eq_sqr c c 0) in D by (lra || ring). lra. }
    destruct (angle_spec c pt Hne) as (rho & Erho & Hrho & Ept & _). set (be := angle c pt) in *.
    destruct (normalize_radians_id_range (be - al)) as (m & Cm & Hm).
    (* the test of the code in terms of the turn *)
    set (k := r * rho). assert (Hk : 0 < k) by (unfold k; apply Rmult_lt_0_compat; assumption).
    assert (ES : forall x, sin (be - (al + x)) = sin (m - x) /\ cos (be - (al + x)) = cos (m - x)).
    { intros x. split; [apply congr_sin|apply congr_cos]; destruct Cm as (j & ->); exists (- j)%Z; rewrite opp_IZR; ring. }
    assert (ES0 : sin (be - al) = sin m /\ cos (be - al) = cos m).
    { pose proof (ES 0) as E0. rewrite Rplus_0_r, Rminus_0_r in E0. exact E0. }
    assert (ET : point_within_arc_sweep c (pos v1) (pos v2) (bulge_is_neg v1) pt eps = true <-> - eps < k * sin m /\ k * sin (m - w) < eps).
    { assert (XA : cross (vec c (circle_pt c r al)) (vec c pt) = k * sin m).
      { rewrite Ept at 1. rewrite cross_circle. unfold k. now rewrite (proj1 ES0). }
      assert (XB : cross (vec c (circle_pt c r (al + w))) (vec c pt) = k * sin (m - w)).
      { rewrite Ept at 1. rewrite cross_circle. unfold k. now rewrite (proj1 (ES w)). }
      unfold point_within_arc_sweep, is_right_or_coincident_eps, is_left_or_coincident_eps. rnum. rewrite !perp_dot_cross.
      assert (EN : bulge_is_neg v1 = rltb (pbulge v1) 0) by reflexivity. rewrite EN.
      (* which end is the start of the counter-clockwise turn *)
      assert (SG : (pbulge v1 < 0 /\ pos v2 = circle_pt c r al /\ pos v1 = circle_pt c r (al + w))
                   \/ (0 < pbulge v1 /\ pos v1 = circle_pt c r al /\ pos v2 = circle_pt c r (al + w))).
      { assert (HSW : w = Rabs (sweep (pbulge v1)) \/ w <> Rabs (sweep (pbulge v1))) by tauto.
        assert (H1 : Rabs (pbulge v1) <= 1) by (destruct HB as [HB|[_ HB]]; [contradiction|exact HB]).
        destruct HA as (_ & A1 & A2).
        pose proof (cross_circle c r r al (al + w)) as CC. replace (al + w - al) with w in CC by ring.
        pose proof (cross_circle c r r (angle c (pos v1)) (angle c (pos v1) + sweep (pbulge v1))) as CD.
        replace (angle c (pos v1) + sweep (pbulge v1) - angle c (pos v1)) with (sweep (pbulge v1)) in CD by ring.
        rewrite <- A1, <- A2 in CD.
        pose proof (sweep_bound _ H1) as SB. pose proof (sweep_nonzero _ Hb) as SN.
        assert (Hrr : 0 < r * r) by nra.
        assert (HS : sin w >= 0) by (apply Rle_ge, sin_ge_0; lra).
        assert (AC : forall u v, cross u v = - cross v u) by (intros; unfold cross; ring).
        destruct (Rlt_dec (pbulge v1) 0) as [L|L].
        - destruct (Req_dec (sweep (pbulge v1)) (- PI)) as [EP|EP].
          + (* half circle: the two ends are opposite, both readings name the same set only one way *)
            left. split; [exact L|].
            destruct Hends as [[E1 E2]|[E1 E2]]; [|split; assumption].
            exfalso.
            (* a quarter of the way along the arc *)
            assert (Q : on_seg v1 v2 (circle_pt c r (angle c (pos v1) + 1 / 2 * sweep (pbulge v1)))).
            { exists (1 / 2). split; [lra|]. apply seg_at_arc; auto. }
            apply Hon in Q as (x & Hx & Q). rewrite EP in Q.
            assert (C0 : congr (angle c (pos v1)) al) by (rewrite E1; apply angle_congr; exact Hr).
            assert (EQ : circle_pt c r (al + x) = circle_pt c r (al + - (PI / 2))).
            { rewrite <- Q. replace (1 / 2 * - PI) with (- (PI / 2)) by field. apply circle_pt_congr.
              apply congr_plus; [exact C0|apply congr_refl]. }
            pose proof (f_equal (fun z => cross (vec c (circle_pt c r al)) (vec c z)) EQ) as X. cbv beta in X.
            rewrite !cross_circle in X. replace (al + x - al) with x in X by ring.
            replace (al + - (PI / 2) - al) with (- (PI / 2)) in X by ring. rewrite sin_neg, sin_PI2 in X.
            pose proof (sin_ge_0 x ltac:(lra) ltac:(lra)). nra.
          + left. split; [exact L|]. destruct Hends as [[E1 E2]|[E1 E2]]; [|split; assumption].
            exfalso. assert (sin (sweep (pbulge v1)) < 0).
            { assert (NL : sweep (pbulge v1) < 0). { apply rltb_true. rewrite sweep_ltb. apply rltb_true. exact L. }
              rewrite <- (Ropp_involutive (sweep (pbulge v1))). rewrite sin_neg. pose proof (sin_gt_0 (- sweep (pbulge v1))). lra. }
            rewrite <- E1, <- E2 in CC. rewrite CC in CD. nra.
        - assert (L2 : 0 < pbulge v1) by lra. right. split; [exact L2|].
          assert (PL2 : 0 < sweep (pbulge v1)).
          { destruct (Rlt_dec (sweep (pbulge v1)) 0) as [X|X]; [|lra]. apply rltb_true in X. rewrite sweep_ltb in X. apply rltb_true in X. lra. }
          destruct Hends as [[E1 E2]|[E1 E2]]; [split; assumption|exfalso].
          destruct (Req_dec (sweep (pbulge v1)) PI) as [EP|EP].
          + assert (Q : on_seg v1 v2 (circle_pt c r (angle c (pos v1) + 1 / 2 * sweep (pbulge v1)))).
            { exists (1 / 2). split; [lra|]. apply seg_at_arc; auto. }
            apply Hon in Q as (x & Hx & Q). rewrite EP in Q.
            assert (C0 : congr (angle c (pos v1)) (al + w)) by (rewrite E2; apply angle_congr; exact Hr).
            assert (EQ : circle_pt c r (al + x) = circle_pt c r (al + w + PI / 2)).
            { rewrite <- Q. replace (1 / 2 * PI) with (PI / 2) by field. apply circle_pt_congr.
              apply congr_plus; [exact C0|apply congr_refl]. }
            pose proof (f_equal (fun z => cross (vec c (circle_pt c r (al + w))) (vec c z)) EQ) as X. cbv beta in X.
            rewrite !cross_circle in X. replace (al + x - (al + w)) with (- (w - x)) in X by ring.
            replace (al + w + PI / 2 - (al + w)) with (PI / 2) in X by ring. rewrite sin_neg, sin_PI2 in X.
            pose proof (sin_ge_0 (w - x) ltac:(lra) ltac:(lra)). nra.
          + assert (0 < sin (sweep (pbulge v1))) by (apply sin_gt_0; lra).
            rewrite <- E1, <- E2 in CC. rewrite AC in CC. nra. }
      destruct SG as [(L & E1 & E2)|(L & E1 & E2)].
      - rewrite (proj2 (rltb_true _ _) L), E1, E2. rewrite XA, XB, andb_true_iff, !rltb_true. tauto.
      - destruct (rltb_spec (pbulge v1) 0) as [?|_]; [lra|]. rewrite E1, E2. rewrite XA, XB, andb_true_iff, !rltb_true. tauto. }
    assert (DQ : forall x, dist pt (circle_pt c r (al + x)) * dist pt (circle_pt c r (al + x)) = rho * rho + r * r - 2 * r * rho * cos (m - x)).
    { intros x. rewrite Ept at 1 2. rewrite dist_circle_sqr. now rewrite (proj2 (ES x)). }
    destruct (point_within_arc_sweep c (pos v1) (pos v2) (bulge_is_neg v1) pt eps) eqn:PW.
    + (* projection to the circle *)
      assert (EQ : v2add (v2scale (v2normalize (v2sub pt c)) r) c = circle_pt c r be).
      { unfold v2add, v2scale, v2normalize, v2length, v2dot, v2sub, v2scale. rnum. cbn [vx vy]. rewrite <- Erho.
        assert (X : vx pt = vx c + rho * cos be /\ vy pt = vy c + rho * sin be).
        { rewrite Ept at 1 2. split; reflexivity. }
        destruct X as [X Y]. unfold circle_pt. rewrite X, Y. apply vec2_eq; cbn [vx vy]; field; lra. }
      rewrite EQ. split.
      * intros NG. apply Hon. exists m.
        assert (MW : m <= w).
        { destruct (Rle_dec m w) as [MW|MW]; [exact MW|exfalso]. apply NG. split; [exact Hb|].
          exists c, r, (angle c (pos v1)). split; [exact HA|]. split.
          - intros q' Hq' (kk & Hkk & EK). apply Hon in Hq' as (x & Hx & ->).
            (* same direction means m = x *)
            pose proof (f_equal (fun z => cross (vec c (circle_pt c r (al + x))) z) EK) as X1. cbv beta in X1.
            rewrite Ept in X1 at 1. rewrite cross_circle in X1. rewrite (proj1 (ES x)) in X1.
            assert (X0 : cross (vec c (circle_pt c r (al + x))) (V2 (kk * vx (vec c (circle_pt c r (al + x)))) (kk * vy (vec c (circle_pt c r (al + x))))) = 0)
              by (unfold cross; cbn [vx vy]; ring).
            rewrite X0 in X1. assert (S0 : sin (m - x) = 0) by (fold k in X1; nra).
            pose proof (f_equal (fun z => vx (vec c (circle_pt c r (al + x))) * vx z + vy (vec c (circle_pt c r (al + x))) * vy z) EK) as X2. cbv beta in X2.
            cbn [vx vy] in X2.
            assert (X3 : vx (vec c (circle_pt c r (al + x))) * vx (vec c pt) + vy (vec c (circle_pt c r (al + x))) * vy (vec c pt) = k * cos (m - x)).
            { rewrite Ept at 1 2. unfold vec, circle_pt, k. cbn [vx vy]. rewrite <- (proj2 (ES x)), cos_minus. ring. }
            rewrite X3 in X2.
            assert (X4 : vx (vec c (circle_pt c r (al + x))) * (kk * vx (vec c (circle_pt c r (al + x)))) + vy (vec c (circle_pt c r (al + x))) * (kk * vy (vec c (circle_pt c r (al + x)))) = kk * (r * r)).
            { unfold vec, circle_pt. cbn [vx vy]. pose proof (sin2_cos2 (al + x)) as S. unfold Rsqr in S.
              replace ((vx c + r * cos (al + x) - vx c) * (kk * (vx c + r * cos (al + x) - vx c)) + (vy c + r * sin (al + x) - vy c) * (kk * (vy c + r * sin (al + x) - vy c)))
                with (kk * (r * r) * (sin (al + x) * sin (al + x) + cos (al + x) * cos (al + x))) by ring. rewrite S. ring. }
            rewrite X4 in X2. assert (C0 : 0 <= cos (m - x)) by nra.
            assert (X5 : congr (m - x) 0).
            { apply cos_sin_congr; rewrite ?cos_0, ?sin_0; [|exact S0].
              pose proof (sin2_cos2 (m - x)) as S. unfold Rsqr in S. rewrite S0 in S. nra. }
            apply congr_range_eq in X5; [lra|lra].
          - pose proof (proj1 ET eq_refl) as [T1 T2].
            assert (XA : cross (vec c (circle_pt c r al)) (vec c pt) = k * sin m).
            { rewrite Ept at 1. rewrite cross_circle. unfold k. now rewrite (proj1 ES0). }
            assert (XB : cross (vec c (circle_pt c r (al + w))) (vec c pt) = k * sin (m - w)).
            { rewrite Ept at 1. rewrite cross_circle. unfold k. now rewrite (proj1 (ES w)). }
            assert (G : Rabs (k * sin m) < eps \/ Rabs (k * sin (m - w)) < eps).
            { destruct (Rlt_dec (Rabs (k * sin m)) eps) as [?|N1]; [now left|].
              destruct (Rlt_dec (Rabs (k * sin (m - w))) eps) as [?|N2]; [now right|exfalso].
              assert (0 < sin m). { revert N1. unfold Rabs. destruct (Rcase_abs (k * sin m)); nra. }
              assert (sin (m - w) < 0). { revert N2. unfold Rabs. destruct (Rcase_abs (k * sin (m - w))); nra. }
              apply MW. now apply inside_turn. }
            destruct Hends as [[-> ->]|[-> ->]]; rewrite XA, XB; tauto. }
        split; [lra|]. apply circle_pt_congr. destruct Cm as (j & ->). exists (- j)%Z. rewrite opp_IZR. ring.
      * intros q' Hq'. apply Hon in Hq' as (x & Hx & ->). apply dist_le_sqr. rewrite DQ.
        rewrite Ept at 1 2. rewrite dist_circle_sqr. replace (be - be) with 0 by ring. rewrite cos_0.
        pose proof (COS_bound (m - x)). fold k. assert (k * cos (m - x) <= k) by nra. unfold k in *. lra.
    + (* the nearer end *)
      assert (MW : w < m).
      { apply outside_turn; [exact Hm|exact Hw|].
        destruct (Rle_dec (sin m) 0) as [S1|S1], (Rle_dec 0 (sin (m - w))) as [S2|S2].
        - destruct (Rlt_dec (sin m) 0) as [?|N1]; [now left|]. destruct (Rlt_dec 0 (sin (m - w))) as [?|N2]; [now right|exfalso].
          assert (E1 : sin m = 0) by lra. assert (E2 : sin (m - w) = 0) by lra.
          assert (PT : false = true); [|discriminate]. apply ET. rewrite E1, E2. lra.
        - destruct (Rlt_dec (sin m) 0) as [?|N1]; [now left|exfalso].
          assert (E1 : sin m = 0) by lra.
          assert (PT : false = true); [|discriminate]. apply ET. rewrite E1. split; [lra|nra].
        - destruct (Rlt_dec 0 (sin (m - w))) as [?|N2]; [now right|exfalso].
          assert (E2 : sin (m - w) = 0) by lra.
          assert (PT : false = true); [|discriminate]. apply ET. rewrite E2. split; [nra|lra].
        - exfalso. assert (PT : false = true); [|discriminate]. apply ET. split; nra. }
      assert (BD : forall x, 0 <= x <= w -> cos (m - x) <= Rmax (cos m) (cos (m - w))).
      { intros x Hx. rewrite Rmax_comm. apply cos_interval_max; lra. }
      assert (D2 : forall a b, dist_squared a b = dist b a * dist b a).
      { intros a b. rewrite dist_sqr. unfold dist_squared, v2dot, v2sub. rnum. cbn [vx vy]. ring. }
      rnum. rewrite !D2.
      assert (O1 : on_seg v1 v2 (pos v1) /\ on_seg v1 v2 (pos v2)) by now apply on_seg_ends.
      assert (K2 : forall x, 0 <= x <= w ->
         dist pt (circle_pt c r al) * dist pt (circle_pt c r al) <= dist pt (circle_pt c r (al + x)) * dist pt (circle_pt c r (al + x))
         \/ dist pt (circle_pt c r (al + w)) * dist pt (circle_pt c r (al + w)) <= dist pt (circle_pt c r (al + x)) * dist pt (circle_pt c r (al + x))).
      { intros x Hx. specialize (BD x Hx). pose proof (DQ 0) as DQ0. rewrite Rplus_0_r, Rminus_0_r in DQ0. rewrite DQ0, !DQ.
        replace (2 * r * rho * cos m) with (2 * (k * cos m)) by (unfold k; ring).
        replace (2 * r * rho * cos (m - x)) with (2 * (k * cos (m - x))) by (unfold k; ring).
        replace (2 * r * rho * cos (m - w)) with (2 * (k * cos (m - w))) by (unfold k; ring).
        revert BD. unfold Rmax. destruct (Rle_dec (cos m) (cos (m - w))); intros BD; [right|left]; nra. }
      assert (K3 : forall q', on_seg v1 v2 q' ->
         dist pt (pos v1) * dist pt (pos v1) <= dist pt q' * dist pt q' \/ dist pt (pos v2) * dist pt (pos v2) <= dist pt q' * dist pt q').
      { intros q' Hq'. apply Hon in Hq' as (x & Hx & ->). destruct Hends as [[-> ->]|[-> ->]]; destruct (K2 x Hx); auto. }
      destruct (rltb_spec (dist pt (pos v1) * dist pt (pos v1)) (dist pt (pos v2) * dist pt (pos v2))) as [L|L].
      * split; [intros _; apply O1|]. intros q' Hq'. apply dist_le_sqr. destruct (K3 q' Hq'); lra.
      * split; [intros _; apply O1|]. intros q' Hq'. apply dist_le_sqr. destruct (K3 q' Hq'); lra.
Qed.
