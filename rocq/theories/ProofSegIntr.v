(** What [point_within_arc_sweep] and [point_lies_on_arc] mean over the reals. *)
From Coq Require Import Reals Lra Bool.
From Verif Require Import Num RNum ModelMath ModelSeg ModelSegIntr SpecGeom SpecIntr SpecBox SpecSegIntr
  ProofR ProofArc ProofArc2 ProofIntr ProofBox ProofBox2 ProofClosest.
Local Open Scope R_scope.

Lemma arc_sides v1 v2 : seg_ok v1 v2 -> pbulge v1 <> 0 ->
  let c := centre_of (pos v1) (pos v2) (pbulge v1) in
  let r := radius_of (pos v1) (pos v2) (pbulge v1) in
  exists al w, 0 < w <= PI /\ w = Rabs (sweep (pbulge v1))
    /\ (forall q, on_seg v1 v2 q <-> exists x, 0 <= x <= w /\ q = circle_pt c r (al + x))
    /\ ((0 < pbulge v1 /\ pos v1 = circle_pt c r al /\ pos v2 = circle_pt c r (al + w)
         /\ (forall t q, seg_at v1 v2 t q <-> q = circle_pt c r (al + t * w)))
        \/ (pbulge v1 < 0 /\ pos v2 = circle_pt c r al /\ pos v1 = circle_pt c r (al + w)
         /\ (forall t q, seg_at v1 v2 t q <-> q = circle_pt c r (al + (1 - t) * w)))).
Proof.
  intros [HB HP] Hb c r. specialize (HP Hb).
  assert (H1 : Rabs (pbulge v1) <= 1) by (destruct HB as [HB|[_ HB]]; [contradiction|exact HB]).
  pose proof (computed_is_arc _ _ _ HP Hb) as (Hr & A1 & A2). fold c r in Hr, A1, A2.
  pose proof (sweep_bound _ H1) as SB. pose proof (sweep_nonzero _ Hb) as SN.
  assert (SA : forall t q, seg_at v1 v2 t q <-> q = circle_pt c r (angle c (pos v1) + t * sweep (pbulge v1)))
    by (intros; now apply seg_at_arc).
  set (a := angle c (pos v1)) in *. set (s := sweep (pbulge v1)) in *.
  destruct (Rlt_dec (pbulge v1) 0) as [L|L].
  - assert (NL : s < 0) by (apply rltb_true; unfold s; rewrite sweep_ltb; apply rltb_true; exact L).
    exists (a + s), (- s). split; [lra|]. split; [rewrite Rabs_left by lra; reflexivity|]. split.
    + intros q. split.
      * intros (t & Ht & Hq). apply SA in Hq. exists ((1 - t) * - s). split; [nra|]. rewrite Hq. f_equal. ring.
      * intros (x & Hx & Hq). exists (1 - x / - s). split.
        { assert (0 <= x / - s <= 1); [|lra]. split; [apply Rmult_le_pos; [lra|]; left; apply Rinv_0_lt_compat; lra|].
          apply (Rmult_le_reg_r (- s)); [lra|]. unfold Rdiv. rewrite Rmult_assoc, Rinv_l by lra. lra. }
        apply SA. rewrite Hq. f_equal. field. lra.
    + right. split; [exact L|]. split; [exact A2|]. split; [rewrite A1; f_equal; ring|].
      intros t q. rewrite SA. replace (a + s + (1 - t) * - s) with (a + t * s) by ring. tauto.
  - assert (NL : 0 < s).
    { destruct (Rlt_dec s 0) as [X|X]; [|lra]. apply rltb_true in X. unfold s in X. rewrite sweep_ltb in X. apply rltb_true in X. lra. }
    exists a, s. split; [lra|]. split; [rewrite Rabs_right by lra; reflexivity|]. split.
    + intros q. split.
      * intros (t & Ht & Hq). apply SA in Hq. exists (t * s). split; [nra|exact Hq].
      * intros (x & Hx & Hq). exists (x / s). split.
        { split; [apply Rmult_le_pos; [lra|]; left; apply Rinv_0_lt_compat; lra|].
          apply (Rmult_le_reg_r s); [lra|]. unfold Rdiv. rewrite Rmult_assoc, Rinv_l by lra. lra. }
        apply SA. rewrite Hq. f_equal. field. lra.
    + left. split; [lra|]. split; [exact A1|]. split; [exact A2|exact SA].
Qed.

(** A turn that passes both tests is within the sweep, or close to one of its ends. *)
Lemma turn_near m w s : 0 <= m < 2 * PI -> 0 < w <= PI -> 0 < s <= sin (w / 2) ->
  - s < sin m -> sin (m - w) < s ->
  exists x, 0 <= x <= w /\ 1 - cos (m - x) <= s * s.
Proof.
  intros Hm Hw Hs T1 T2. pose proof PI_pos as P.
  assert (K : forall f, 0 <= cos f -> - s < sin f < s -> 1 - cos f <= s * s).
  { intros f C S. pose proof (sin2_cos2 f) as E. unfold Rsqr in E. pose proof (COS_bound f). nra. }
  destruct (Rle_dec m w) as [L|L].
  { exists m. split; [lra|]. replace (m - m) with 0 by ring. rewrite cos_0. nra. }
  destruct (Rle_dec m PI) as [M|M].
  - exists w. split; [lra|]. apply K.
    + destruct (Rle_dec 0 (cos (m - w))) as [C|C]; [exact C|exfalso].
      assert (G : PI / 2 < m - w). { destruct (Rlt_dec (PI / 2) (m - w)) as [?|N]; [assumption|]. exfalso. apply C. apply cos_ge_0; lra. }
      assert (B : sin (w / 2) <= sin (PI - (m - w))) by (apply sin_incr_1; lra).
      rewrite sin_PI_x in B. lra.
    + split; [|exact T2]. pose proof (sin_ge_0 (m - w) ltac:(lra) ltac:(lra)). lra.
  - assert (S0 : sin m <= 0) by (apply sin_le_0; lra).
    destruct (Rle_dec 0 (cos m)) as [C|C].
    { exists 0. split; [lra|]. rewrite Rminus_0_r. apply K; [exact C|lra]. }
    assert (G : m < 3 * (PI / 2)).
    { destruct (Rlt_dec m (3 * (PI / 2))) as [?|N]; [assumption|]. exfalso. apply C.
      replace m with (2 * PI - (2 * PI - m)) by ring. rewrite cos_minus, cos_2PI, sin_2PI.
      pose proof (cos_ge_0 (2 * PI - m) ltac:(lra) ltac:(lra)). lra. }
    destruct (Rle_dec 0 (cos (m - w))) as [D|D].
    + exists w. split; [lra|]. apply K; [exact D|]. split; [|exact T2].
      destruct (Rle_dec (m - w) PI) as [Y|Y].
      * pose proof (sin_ge_0 (m - w) ltac:(lra) ltac:(lra)). lra.
      * exfalso. assert (cos (m - w) < 0); [|lra]. replace (m - w) with ((m - w - PI) + PI) by ring. rewrite neg_cos.
        pose proof (cos_gt_0 (m - w - PI) ltac:(lra) ltac:(lra)). lra.
    + exfalso. set (d := m - PI) in *. assert (Hd : 0 < d < PI / 2) by (unfold d; lra).
      assert (E1 : sin d = - sin m) by (unfold d; replace m with ((m - PI) + PI) at 2 by ring; rewrite neg_sin; ring).
      assert (E2 : sin (w - d) = sin (m - w)).
      { replace (m - w) with (PI - (w - d)) by (unfold d; ring). now rewrite sin_PI_x. }
      assert (E3 : 0 < cos (w - d)).
      { replace (w - d) with (PI - (m - w)) by (unfold d; ring). rewrite Rtrigo_facts.cos_pi_minus. lra. }
      assert (E4 : w - d < PI / 2).
      { destruct (Rlt_dec (w - d) (PI / 2)) as [?|N]; [assumption|]. exfalso. pose proof (cos_le_0 (w - d) ltac:(lra) ltac:(lra)). lra. }
      destruct (Rle_dec (w - d) d) as [Z|Z].
      * assert (B : sin (w / 2) <= sin d) by (apply sin_incr_1; lra). lra.
      * assert (B : sin (w / 2) <= sin (w - d)) by (apply sin_incr_1; lra). lra.
Qed.

Section Arc.
Variables (v1 v2 : vertex R).
Hypotheses (Hok : seg_ok v1 v2) (Hb : pbulge v1 <> 0).
Let c := centre_of (pos v1) (pos v2) (pbulge v1).
Let r := radius_of (pos v1) (pos v2) (pbulge v1).

Lemma sweep_test_turn : exists al w, 0 < w <= PI /\ w = Rabs (sweep (pbulge v1))
    /\ (forall q, on_seg v1 v2 q <-> exists x, 0 <= x <= w /\ q = circle_pt c r (al + x))
    /\ ((0 < pbulge v1 /\ pos v1 = circle_pt c r al /\ pos v2 = circle_pt c r (al + w)
         /\ (forall t q, seg_at v1 v2 t q <-> q = circle_pt c r (al + t * w)))
        \/ (pbulge v1 < 0 /\ pos v2 = circle_pt c r al /\ pos v1 = circle_pt c r (al + w)
         /\ (forall t q, seg_at v1 v2 t q <-> q = circle_pt c r (al + (1 - t) * w))))
    /\ (forall rho m eps, point_within_arc_sweep c (pos v1) (pos v2) (bulge_is_neg v1) (circle_pt c rho (al + m)) eps = true
        <-> - eps < r * rho * sin m /\ r * rho * sin (m - w) < eps)
    /\ dist (pos v1) (pos v2) = 2 * r * sin (w / 2).
Proof.
  destruct (arc_sides v1 v2 Hok Hb) as (al & w & Hw & Ew & Hon & Hends). fold c r in Hon, Hends.
  assert (Hr : 0 < r) by (apply radius_pos; [apply Hok, Hb|exact Hb]).
  exists al, w. split; [exact Hw|]. split; [exact Ew|]. split; [exact Hon|]. split; [exact Hends|]. split.
  - intros rho m eps.
    unfold point_within_arc_sweep, is_right_or_coincident_eps, is_left_or_coincident_eps. rnum. rewrite !perp_dot_cross.
    assert (EN : bulge_is_neg v1 = rltb (pbulge v1) 0) by reflexivity. rewrite EN.
    destruct Hends as [(L & E1 & E2 & _)|(L & E1 & E2 & _)].
    + destruct (rltb_spec (pbulge v1) 0) as [?|_]; [lra|]. rewrite E1, E2, !cross_circle.
      replace (al + m - al) with m by ring. replace (al + m - (al + w)) with (m - w) by ring.
      rewrite andb_true_iff, !rltb_true. tauto.
    + rewrite (proj2 (rltb_true _ _) L), E1, E2, !cross_circle.
      replace (al + m - al) with m by ring. replace (al + m - (al + w)) with (m - w) by ring.
      rewrite andb_true_iff, !rltb_true. tauto.
  - assert (S0 : 0 <= sin (w / 2)) by (apply sin_ge_0; lra).
    assert (E : dist (circle_pt c r al) (circle_pt c r (al + w)) = 2 * r * sin (w / 2)).
    { assert (D : dist (circle_pt c r al) (circle_pt c r (al + w)) * dist (circle_pt c r al) (circle_pt c r (al + w))
                  = (2 * r * sin (w / 2)) * (2 * r * sin (w / 2))).
      { rewrite dist_circle_sqr. replace (al - (al + w)) with (- w) by ring. rewrite cos_neg.
        replace w with (2 * (w / 2)) at 1 by field. rewrite cos_2a_sin. ring. }
      apply Rsqr_inj; [apply sqrt_pos|nra|exact D]. }
    destruct Hends as [(_ & -> & -> & _)|(_ & -> & -> & _)]; [exact E|]. rewrite dist_sym. exact E.
Qed.

(** A point whose distance from the centre differs from the radius by at most [tol] and that passes
    the sweep test is near the arc. *)
Lemma within_near pt eps tol : 0 < eps <= tol -> wide v1 v2 tol -> Rabs (dist pt c - r) <= tol ->
  point_within_arc_sweep c (pos v1) (pos v2) (bulge_is_neg v1) pt eps = true ->
  near_seg v1 v2 tol pt.
Proof.
  intros He Hwide Hd H. destruct sweep_test_turn as (al & w & Hw & _ & Hon & _ & HT & HC).
  assert (HP : pos v1 <> pos v2) by (apply Hok, Hb).
  pose proof (computed_is_arc _ _ _ HP Hb) as HA. fold c r in HA.
  destruct (Hwide Hb _ _ _ HA) as [W1 W2].
  assert (Hr : 0 < r) by lra.
  assert (Hrho : r / 2 <= dist pt c). { revert Hd. unfold Rabs. destruct (Rcase_abs (dist pt c - r)); lra. }
  assert (Hne : pt <> c).
  { intros E. rewrite E, (dist_eq_sqr c c 0) in Hrho by (lra || ring). lra. }
  destruct (angle_spec c pt Hne) as (rho & Erho & Hrho0 & Ept & _). change (rho = dist pt c) in Erho.
  destruct (normalize_radians_id_range (angle c pt - al)) as (m & Cm & Hm).
  assert (Ept2 : pt = circle_pt c rho (al + m)).
  { rewrite Ept at 1. apply circle_pt_congr. destruct Cm as (k & ->). exists (- k)%Z. rewrite opp_IZR. ring. }
  rewrite Ept2 in H. apply HT in H. destruct H as [T1 T2].
  set (k := r * rho) in *. assert (Hk : 0 < k) by (unfold k; nra).
  assert (Hkw : eps <= k * sin (w / 2)).
  { rewrite HC in W2. unfold k. assert (S0 : 0 <= sin (w / 2)) by (apply sin_ge_0; lra).
    assert (r / 2 * sin (w / 2) <= rho * sin (w / 2)) by (rewrite <- Erho in Hrho; nra). nra. }
  destruct (turn_near m w (eps / k)) as (x & Hx & C); try assumption.
  { split; [apply Rdiv_lt_0_compat; lra|]. apply (Rmult_le_reg_l k); [exact Hk|]. unfold Rdiv.
    replace (k * (eps * / k)) with eps by (field; lra). exact Hkw. }
  { apply (Rmult_lt_reg_l k); [exact Hk|]. replace (k * - (eps / k)) with (- eps) by (field; lra). exact T1. }
  { apply (Rmult_lt_reg_l k); [exact Hk|]. replace (k * (eps / k)) with eps by (field; lra). exact T2. }
  exists (circle_pt c r (al + x)). split; [apply Hon; now exists x|]. right. split; [exact Hb|].
  exists c, r, (angle c (pos v1)). split; [exact HA|].
  assert (D : dist pt (circle_pt c r (al + x)) * dist pt (circle_pt c r (al + x)) = (rho - r) * (rho - r) + 2 * k * (1 - cos (m - x))).
  { rewrite Ept2, dist_circle_sqr. replace (al + m - (al + x)) with (m - x) by ring. unfold k. ring. }
  apply Rsqr_incr_0_var.
  2:{ apply Rmult_le_pos; [lra|]. assert (0 < 2 / r) by (apply Rdiv_lt_0_compat; lra). lra. }
  unfold Rsqr. rewrite D.
  assert (B1 : (rho - r) * (rho - r) <= tol * tol).
  { rewrite <- Erho in Hd. revert Hd. unfold Rabs. destruct (Rcase_abs (rho - r)); nra. }
  assert (B2 : 2 * k * (1 - cos (m - x)) <= (2 * (tol / r)) * (2 * (tol / r))).
  { apply Rle_trans with (2 * k * (eps / k * (eps / k))); [apply Rmult_le_compat_l; [lra|exact C]|].
    replace (2 * k * (eps / k * (eps / k))) with (2 * (eps * eps) / k) by (field; lra).
    apply (Rmult_le_reg_r (k * r * r)); [apply Rmult_lt_0_compat; [apply Rmult_lt_0_compat|]; assumption|].
    replace (2 * (eps * eps) / k * (k * r * r)) with (2 * (eps * eps) * (r * r)) by (field; lra).
    replace (2 * (tol / r) * (2 * (tol / r)) * (k * r * r)) with (4 * (tol * tol) * k) by (field; lra).
    assert (r * r <= 2 * k) by (unfold k; rewrite <- Erho in Hrho; nra).
    assert (eps * eps <= tol * tol) by nra. assert (0 <= eps * eps) by nra.
    apply Rle_trans with (2 * (eps * eps) * (2 * k)); [apply Rmult_le_compat_l; lra|nra]. }
  assert (0 < tol / r) by (apply Rdiv_lt_0_compat; lra).
  replace (tol * (1 + 2 / r)) with (tol + 2 * (tol / r)) by (field; lra). nra.
Qed.

Lemma dist_circle_pt rho a : 0 <= rho -> dist (circle_pt c rho a) c = rho.
Proof.
  intros H. apply dist_eq_sqr; [exact H|]. unfold circle_pt. cbn [vx vy]. pose proof (sin2_cos2 a) as S2. unfold Rsqr in S2.
  replace ((vx c + rho * cos a - vx c) * (vx c + rho * cos a - vx c) + (vy c + rho * sin a - vy c) * (vy c + rho * sin a - vy c))
    with (rho * rho * (sin a * sin a + cos a * cos a)) by ring. rewrite S2. ring.
Qed.

(** Points of the arc pass the tests. *)
Lemma on_within q eps : 0 < eps -> on_seg v1 v2 q ->
  point_within_arc_sweep c (pos v1) (pos v2) (bulge_is_neg v1) q eps = true /\ dist q c = r.
Proof.
  intros He H. destruct sweep_test_turn as (al & w & Hw & _ & Hon & _ & HT & _).
  assert (Hr : 0 < r) by (apply radius_pos; [apply Hok, Hb|exact Hb]).
  destruct (proj1 (Hon q) H) as (x & Hx & ->). split; [|apply dist_circle_pt; lra].
  apply HT. assert (S1 : 0 <= sin x) by (apply sin_ge_0; lra).
  assert (S2 : sin (x - w) <= 0). { replace (x - w) with (- (w - x)) by ring. rewrite sin_neg. pose proof (sin_ge_0 (w - x)). lra. }
  nra.
Qed.

Lemma lies_on_arc_R eps q : point_lies_on_arc r c v1 v2 eps q = true <->
  point_within_arc_sweep c (pos v1) (pos v2) (bulge_is_neg v1) q eps = true /\ Rabs (dist q c - r) < eps.
Proof.
  unfold point_lies_on_arc. rewrite andb_true_iff. unfold fuzzy_eq_eps. rnum. rewrite rltb_true.
  replace (sqrt (dist_squared q c)) with (dist q c); [tauto|].
  unfold dist, dist_squared, v2dot, v2sub. rnum. cbn [vx vy]. reflexivity.
Qed.

Lemma lies_near eps tol q : 0 < eps <= tol -> wide v1 v2 tol ->
  point_lies_on_arc r c v1 v2 eps q = true -> near_seg v1 v2 tol q.
Proof.
  intros He W H. apply lies_on_arc_R in H as [H1 H2]. apply (within_near q eps tol); auto. lra.
Qed.
End Arc.

Lemma near_of_on v1 v2 tol q : seg_ok v1 v2 -> 0 <= tol -> on_seg v1 v2 q -> near_seg v1 v2 tol q.
Proof.
  intros Hok Ht H. assert (D : dist q q = 0) by (apply dist_eq_sqr; [lra|ring]).
  exists q. split; [exact H|]. destruct (Req_dec (pbulge v1) 0) as [E|E].
  - left. split; [exact E|lra].
  - right. split; [exact E|]. assert (HP : pos v1 <> pos v2) by (apply Hok, E).
    pose proof (computed_is_arc _ _ _ HP E) as HA. do 3 eexists. split; [exact HA|]. rewrite D.
    pose proof (radius_pos _ _ _ HP E) as Hr. assert (0 < 2 / radius_of (pos v1) (pos v2) (pbulge v1)) by (apply Rdiv_lt_0_compat; lra).
    nra.
Qed.

Lemma near_ends v1 v2 tol : seg_ok v1 v2 -> 0 <= tol -> near_seg v1 v2 tol (pos v1) /\ near_seg v1 v2 tol (pos v2).
Proof. intros Hok Ht. destruct (on_seg_ends v1 v2 Hok). split; now apply near_of_on. Qed.
