(** Overlap of two arcs of (nearly) one circle. *)
From Coq Require Import Reals Lra Lia Bool.
From Verif Require Import Num RNum ModelMath ModelIntr ModelSeg ModelSegIntr SpecGeom SpecIntr SpecBox SpecSegIntr
  ProofR ProofArc ProofArc2 ProofIntr ProofBox ProofBox2 ProofSlice ProofClosest ProofRedundantR
  ProofSegIntr ProofSegIntr2 ProofSegIntr3 ProofSegIntr4.
Local Open Scope R_scope.

Lemma sin_abs_le x : Rabs (sin x) <= Rabs x.
Proof.
  assert (G : forall y, 0 <= y -> Rabs (sin y) <= y).
  { intros y Hy. destruct (Req_dec y 0) as [-> | N]; [rewrite sin_0, Rabs_R0; lra|].
    pose proof (sin_lt_x y ltac:(lra)) as L. apply Rabs_le. split; [|lra].
    destruct (Rle_dec y PI) as [M|M]; [pose proof (sin_ge_0 y); lra|]. pose proof (SIN_bound y). pose proof PI2_3_2. lra. }
  destruct (Rle_dec 0 x) as [H|H].
  - rewrite (Rabs_right x) by lra. now apply G.
  - rewrite (Rabs_left x) by lra. replace (sin x) with (- sin (- x)) by (rewrite sin_neg; ring). rewrite Rabs_Ropp. apply G. lra.
Qed.

Lemma atan_lower y : 0 < y <= 1 -> y / 2 <= atan y.
Proof.
  intros Hy. pose proof (atan_increasing 0 y ltac:(lra)) as A0. rewrite atan_0 in A0.
  pose proof (sin_lt_x (atan y) A0) as L. destruct (cos_sin_atan y) as [_ E]. rewrite E in L.
  assert (G : 0 < sqrt (1 + y * y) <= 2).
  { split; [apply sqrt_lt_R0; nra|]. replace 2 with (sqrt (2 * 2)) by (rewrite sqrt_square; lra). apply sqrt_le_1; nra. }
  assert (/ 2 <= / sqrt (1 + y * y)) by (apply Rinv_le_contravar; lra). nra.
Qed.

Lemma chord_le_arc c r al be d : 0 < r -> congr be (al + d) -> dist (circle_pt c r al) (circle_pt c r be) <= r * Rabs d.
Proof.
  intros Hr C. rewrite (circle_pt_congr c r be (al + d) C).
  assert (E : dist (circle_pt c r al) (circle_pt c r (al + d)) = 2 * r * Rabs (sin (d / 2))).
  { apply Rsqr_inj; [apply sqrt_pos|pose proof (Rabs_pos (sin (d / 2))); nra|]. unfold Rsqr.
    rewrite dist_circle_sqr. replace (al - (al + d)) with (- d) by ring. rewrite cos_neg.
    replace d with (2 * (d / 2)) at 1 by field. rewrite cos_2a_sin.
    replace (2 * r * Rabs (sin (d / 2)) * (2 * r * Rabs (sin (d / 2)))) with (4 * (r * r) * (Rabs (sin (d / 2)) * Rabs (sin (d / 2)))) by ring.
    rewrite <- Rabs_mult, Rabs_pos_eq by apply Rle_0_sqr. ring. }
  rewrite E. pose proof (sin_abs_le (d / 2)) as S0. replace (Rabs d) with (2 * Rabs (d / 2)).
  - nra.
  - replace d with (2 * (d / 2)) at 2 by field. rewrite Rabs_mult, (Rabs_right 2) by lra. reflexivity.
Qed.

Lemma circles_near c1 r1 c2 r2 al : dist (circle_pt c1 r1 al) (circle_pt c2 r2 al) <= dist c1 c2 + Rabs (r1 - r2).
Proof.
  eapply Rle_trans; [apply (dist_triangle _ _ (circle_pt c2 r1 al))|]. apply Rplus_le_compat.
  - right. unfold dist, circle_pt. cbn [vx vy]. f_equal. ring.
  - right. unfold dist, circle_pt. cbn [vx vy].
    replace ((vx c2 + r1 * cos al - (vx c2 + r2 * cos al)) * (vx c2 + r1 * cos al - (vx c2 + r2 * cos al)) +
             (vy c2 + r1 * sin al - (vy c2 + r2 * sin al)) * (vy c2 + r1 * sin al - (vy c2 + r2 * sin al)))
      with ((r1 - r2) * (r1 - r2) * (sin al * sin al + cos al * cos al)) by ring.
    pose proof (sin2_cos2 al) as E. unfold Rsqr in E. rewrite E, Rmult_1_r. apply sqrt_Rsqr_abs.
Qed.

(** What the parameters of an arc are, from either end. *)
Lemma arc_params v1 v2 : seg_ok v1 v2 -> pbulge v1 <> 0 ->
  let c := centre_of (pos v1) (pos v2) (pbulge v1) in
  let r := radius_of (pos v1) (pos v2) (pbulge v1) in
  0 < r /\ is_arc (pos v1) (pos v2) (pbulge v1) c r (angle c (pos v1))
  /\ 0 <= normalize_radians (angle c (pos v1)) < 2 * PI /\ 0 <= normalize_radians (angle c (pos v2)) < 2 * PI
  /\ (forall t q, seg_at v1 v2 t q <-> q = circle_pt c r (normalize_radians (angle c (pos v1)) + t * sweep (pbulge v1)))
  /\ (forall t q, seg_at v1 v2 t q <-> q = circle_pt c r (normalize_radians (angle c (pos v2)) + (1 - t) * sweep (- pbulge v1))).
Proof.
  intros Hok Hb c r. assert (HP : pos v1 <> pos v2) by (apply Hok, Hb).
  assert (Hr : 0 < r) by now apply radius_pos. pose proof (computed_is_arc _ _ _ HP Hb) as HA. fold c r in HA.
  destruct (centre_neq _ _ _ HP Hb) as [N1 N2]. fold c in N1, N2. pose proof PI_pos as P.
  assert (RG : forall p, p <> c -> 0 <= normalize_radians (angle c p) < 2 * PI /\ congr (normalize_radians (angle c p)) (angle c p)).
  { intros p Hp. destruct (angle_spec c p Hp) as (_ & _ & _ & _ & B). destruct (normalize_radians_spec (angle c p)) as (C & Q & T).
    split; [|exact C]. destruct (Req_dec (normalize_radians (angle c p)) (2 * PI)) as [E|E]; [specialize (T E); lra|lra]. }
  destruct (RG _ N1) as [B1 C1]. destruct (RG _ N2) as [B2 C2].
  split; [exact Hr|]. split; [exact HA|]. split; [exact B1|]. split; [exact B2|].
  assert (E : sweep (- pbulge v1) = - sweep (pbulge v1)) by (unfold sweep; rewrite atan_opp; ring).
  split; intros t q; rewrite (seg_at_arc v1 v2 t q HP Hb); fold c r.
  - rewrite (circle_pt_congr c r (normalize_radians (angle c (pos v1)) + t * sweep (pbulge v1)) (angle c (pos v1) + t * sweep (pbulge v1))); [tauto|].
    apply congr_plus; [exact C1|apply congr_refl].
  - rewrite (circle_pt_congr c r (normalize_radians (angle c (pos v2)) + (1 - t) * sweep (- pbulge v1)) (angle c (pos v1) + t * sweep (pbulge v1))); [tauto|].
    destruct (arc_angle_congr _ _ _ _ _ _ HP Hb HA) as (_ & _ & C3).
    replace (angle c (pos v1) + t * sweep (pbulge v1)) with (angle c (pos v1) + sweep (pbulge v1) + (1 - t) * sweep (- pbulge v1)) by (rewrite E; ring).
    apply congr_plus; [|apply congr_refl]. eapply congr_trans; [exact C2|exact C3].
Qed.

Lemma circle_pt_inj c r al be : 0 < r -> circle_pt c r al = circle_pt c r be -> congr al be.
Proof.
  intros Hr E. pose proof (angle_congr c r al Hr) as A. rewrite E in A.
  eapply congr_trans; [apply congr_sym; exact A|]. now apply angle_congr.
Qed.

(** The arcs, described from their angles. *)
Section Overlap.
Variables (v1 v2 u1 u2 : vertex R) (c1 c2 : vec2 R) (r1 r2 S1 S2 sg a b eps tol a1 a2 : R) (same : bool).
Hypotheses (He : 0 < eps) (Htol : 5 * eps <= tol).
Hypotheses (Hr1 : 0 < r1) (Hr2 : 0 < r2) (Hc : dist c1 c2 < eps) (Hrr : Rabs (r1 - r2) < eps).
Hypothesis Hfz : (r1 + r2) / 2 * fz <= eps.
Hypotheses (Hbv : pbulge v1 <> 0) (Hbu : pbulge u1 <> 0).
Hypothesis HAv : is_arc (pos v1) (pos v2) (pbulge v1) c1 r1 a1.
Hypothesis HAu : is_arc (pos u1) (pos u2) (pbulge u1) c2 r2 a2.
Hypotheses (Hsg : sg = 1 \/ sg = -1) (Ha : fz < a <= PI) (Hb : fz < b <= PI).
Hypotheses (B1 : 0 <= S1 < 2 * PI) (B2 : 0 <= S2 < 2 * PI).
Hypothesis SV : forall t q, seg_at v1 v2 t q <-> q = circle_pt c1 r1 (S1 + sg * (t * a)).
Hypothesis SU : forall t q, seg_at u1 u2 t q <-> q = circle_pt c2 r2 (S2 + sg * ((if same then t else 1 - t) * b)).
Hypotheses (Pv1 : pos v1 = circle_pt c1 r1 S1) (Pv2 : pos v2 = circle_pt c1 r1 (S1 + sg * a)).
Hypothesis Pu : (if same then (pos u1, pos u2) else (pos u2, pos u1)) = (circle_pt c2 r2 S2, circle_pt c2 r2 (S2 + sg * b)).

Lemma on_v i : 0 <= i <= a -> on_seg v1 v2 (circle_pt c1 r1 (S1 + sg * i)).
Proof.
  intros Hi. pose proof (fz_small) as F. exists (i / a). split.
  - split; [apply Rmult_le_pos; [lra|left; apply Rinv_0_lt_compat; lra]|]. apply (Rmult_le_reg_r a); [lra|]. unfold Rdiv. rewrite Rmult_assoc, Rinv_l by lra. lra.
  - apply SV. do 3 f_equal. field. lra.
Qed.

Lemma at_u j : 0 <= j <= b -> let t := if same then j / b else 1 - j / b in
  0 <= t <= 1 /\ seg_at u1 u2 t (circle_pt c2 r2 (S2 + sg * j)).
Proof.
  intros Hj t. pose proof fz_small as F.
  assert (G : 0 <= j / b <= 1).
  { split; [apply Rmult_le_pos; [lra|left; apply Rinv_0_lt_compat; lra]|]. apply (Rmult_le_reg_r b); [lra|]. unfold Rdiv. rewrite Rmult_assoc, Rinv_l by lra. lra. }
  split; [unfold t; destruct same; lra|]. apply SU. do 3 f_equal. unfold t. destruct same; field; lra.
Qed.

Lemma on_u j : 0 <= j <= b -> on_seg u1 u2 (circle_pt c2 r2 (S2 + sg * j)).
Proof. intros Hj. destruct (at_u j Hj) as [A B]. eexists. split; [exact A|exact B]. Qed.

Lemma near_v q q' : on_seg v1 v2 q' -> dist q q' <= 5 * eps -> near_seg v1 v2 tol q.
Proof.
  intros O D. exists q'. split; [exact O|]. right. split; [exact Hbv|]. exists c1, r1, a1. split; [exact HAv|].
  assert (0 < 2 / r1) by (apply Rdiv_lt_0_compat; lra). nra.
Qed.
Lemma near_u q q' : on_seg u1 u2 q' -> dist q q' <= 5 * eps -> near_seg u1 u2 tol q.
Proof.
  intros O D. exists q'. split; [exact O|]. right. split; [exact Hbu|]. exists c2, r2, a2. split; [exact HAu|].
  assert (0 < 2 / r2) by (apply Rdiv_lt_0_compat; lra). nra.
Qed.

Lemma near_two al : dist (circle_pt c1 r1 al) (circle_pt c2 r2 al) <= 2 * eps /\ dist (circle_pt c2 r2 al) (circle_pt c1 r1 al) <= 2 * eps.
Proof.
  pose proof (circles_near c1 r1 c2 r2 al) as H. rewrite (dist_sym (circle_pt c2 r2 al)). lra.
Qed.

Lemma dist_self p : dist p p = 0.
Proof. apply dist_eq_sqr; [lra|ring]. Qed.

Lemma avg_r1 d : (r1 + r2) / 2 * Rabs d <= eps -> Rabs d <= PI -> r1 * Rabs d <= 3 * eps.
Proof.
  intros H D. pose proof (Rabs_pos d) as Q. pose proof PI_4 as P4.
  assert (r1 - r2 < eps) by (apply Rabs_def2 in Hrr; lra).
  assert ((r1 - (r1 + r2) / 2) * Rabs d <= eps / 2 * 4) by nra. lra.
Qed.

(** A common angle gives a point near both arcs, taken on either circle. *)
Lemma common_near p j i : 0 <= j <= b -> - fz < i < a + fz -> congr (S2 + sg * j) (S1 + sg * i) ->
  p = circle_pt c1 r1 (S2 + sg * j) \/ p = circle_pt c2 r2 (S2 + sg * j) -> near_seg v1 v2 tol p /\ near_seg u1 u2 tol p.
Proof.
  intros Hj Hi C Hp. pose proof fz_small as F. destruct (near_two (S2 + sg * j)) as [N1 N2]. split.
  - assert (G : exists i', 0 <= i' <= a /\ Rabs (i' - i) <= fz).
    { destruct (Rlt_dec i 0) as [L|L]; [exists 0; split; [lra|]; apply Rabs_le; lra|].
      destruct (Rlt_dec a i) as [M|M]; [exists a; split; [lra|]; apply Rabs_le; lra|].
      exists i. split; [lra|]. rewrite Rminus_diag_eq, Rabs_R0 by reflexivity. lra. }
    destruct G as (i' & Hi' & D). apply (near_v p _ (on_v i' Hi')).
    assert (Q : dist (circle_pt c1 r1 (S2 + sg * j)) (circle_pt c1 r1 (S1 + sg * i')) <= 3 * eps).
    { rewrite (circle_pt_congr c1 r1 _ _ C). eapply Rle_trans; [apply (chord_le_arc _ _ _ _ (sg * (i' - i)) Hr1); exists 0%Z; ring|].
      assert (A : Rabs (sg * (i' - i)) <= fz) by (destruct Hsg as [-> | ->]; [rewrite Rmult_1_l; exact D|replace (-1 * (i' - i)) with (- (i' - i)) by ring; rewrite Rabs_Ropp; exact D]).
      apply avg_r1; [|pose proof PI2_3_2; lra]. eapply Rle_trans; [|exact Hfz]. apply Rmult_le_compat_l; [lra|exact A]. }
    destruct Hp as [-> | ->]; [lra|]. pose proof (dist_triangle (circle_pt c2 r2 (S2 + sg * j)) (circle_pt c1 r1 (S1 + sg * i')) (circle_pt c1 r1 (S2 + sg * j))). lra.
  - apply (near_u p _ (on_u j Hj)). destruct Hp as [-> | ->]; [lra|]. rewrite dist_self. lra.
Qed.

(** Angles that agree up to the tolerance give near points. *)
Lemma touch_near al be : fuzzy_eq_zero_eps ((r1 + r2) / 2 * delta_angle al be) eps = true ->
  dist (circle_pt c1 r1 al) (circle_pt c2 r2 be) <= 5 * eps /\ dist (circle_pt c2 r2 al) (circle_pt c1 r1 be) <= 5 * eps.
Proof.
  unfold fuzzy_eq_zero_eps. rnum. intros H. apply rltb_true in H. rewrite Rabs_mult, (Rabs_right ((r1 + r2) / 2)) in H by lra.
  destruct (delta_angle_spec al be) as [(k & C) R0]. set (d := delta_angle al be) in *.
  assert (D : Rabs d <= PI) by (apply Rabs_le; lra). pose proof (avg_r1 d ltac:(lra) D) as A.
  assert (Cb : congr be (al + d)) by (exists (- k)%Z; rewrite opp_IZR; lra).
  pose proof (chord_le_arc c1 r1 al be d Hr1 Cb) as Q. destruct (near_two be) as [N1 N2]. destruct (near_two al) as [N3 N4]. split.
  - pose proof (dist_triangle (circle_pt c1 r1 al) (circle_pt c2 r2 be) (circle_pt c1 r1 be)). lra.
  - pose proof (dist_triangle (circle_pt c2 r2 al) (circle_pt c1 r1 be) (circle_pt c1 r1 al)). lra.
Qed.

Lemma no_touch al be d : fuzzy_eq_zero_eps ((r1 + r2) / 2 * delta_angle al be) eps = false -> Rabs d < fz -> ~ congr be (al + d).
Proof.
  unfold fuzzy_eq_zero_eps. rnum. intros H D (k & C). apply rltb_false in H. pose proof PI2_3_2 as P3. pose proof fz_small as F.
  assert (E : delta_angle al be = d).
  { apply delta_angle_unique; [exists (- k)%Z; rewrite opp_IZR; lra|]. apply Rabs_def2 in D. lra. }
  rewrite E, Rabs_mult, (Rabs_right ((r1 + r2) / 2)) in H by lra. nra.
Qed.

Definition touch1 := fuzzy_eq_zero_eps ((r1 + r2) / 2 * delta_angle S1 (S2 + sg * b)) eps.
Definition touch2 := fuzzy_eq_zero_eps ((r1 + r2) / 2 * delta_angle S2 (S1 + sg * a)) eps.

Notation both q := (near_seg v1 v2 tol q /\ near_seg u1 u2 tol q).

Lemma seg_order j j' : 0 <= j <= j' -> j' <= b ->
  if same then before u1 u2 (circle_pt c2 r2 (S2 + sg * j)) (circle_pt c2 r2 (S2 + sg * j'))
  else before u1 u2 (circle_pt c2 r2 (S2 + sg * j')) (circle_pt c2 r2 (S2 + sg * j)).
Proof.
  intros H1 H2. destruct (at_u j ltac:(lra)) as [A1 S3]. destruct (at_u j' ltac:(lra)) as [A2 S4].
  pose proof fz_small as F.
  assert (L : j / b <= j' / b) by (apply Rmult_le_compat_r; [left; apply Rinv_0_lt_compat; lra|lra]).
  destruct same.
  - exists (j / b), (j' / b). repeat split; try assumption; lra.
  - exists (1 - j' / b), (1 - j / b). repeat split; try assumption; lra.
Qed.

(** Order along the second arc is order of the turns. *)
Lemma order_seg j x : 0 <= j <= b ->
  (before u1 u2 (circle_pt c2 r2 (S2 + sg * j)) x -> exists j', 0 <= j' <= b /\ x = circle_pt c2 r2 (S2 + sg * j') /\ if same then j <= j' else j' <= j)
  /\ (before u1 u2 x (circle_pt c2 r2 (S2 + sg * j)) -> exists j', 0 <= j' <= b /\ x = circle_pt c2 r2 (S2 + sg * j') /\ if same then j' <= j else j <= j').
Proof.
  intros Hj. pose proof fz_small as F. pose proof PI_pos as P.
  assert (INJ : forall t, 0 <= t <= 1 -> seg_at u1 u2 t (circle_pt c2 r2 (S2 + sg * j)) -> (if same then t else 1 - t) * b = j).
  { intros t Ht H. apply SU in H. apply circle_pt_inj in H; [|exact Hr2]. apply congr_sg in H; [|exact Hsg].
    symmetry. apply congr_range_eq; [exact H|]. destruct same; nra. }
  split.
  - intros (s & t & H1 & H2 & Q1 & Q2). apply INJ in Q1; [|lra]. apply SU in Q2. eexists. split; [|split; [exact Q2|]]; destruct same; nra.
  - intros (s & t & H1 & H2 & Q1 & Q2). apply INJ in Q2; [|lra]. apply SU in Q1. eexists. split; [|split; [exact Q1|]]; destruct same; nra.
Qed.

(** The part of the second arc between two reported points. *)
Definition overlap_at (p q : vec2 R) : Prop :=
  exists j1 j2, overlap S1 S2 sg a b j1 j2
    /\ (p = circle_pt c1 r1 (S2 + sg * (if same then j1 else j2)) \/ p = circle_pt c2 r2 (S2 + sg * (if same then j1 else j2)))
    /\ (q = circle_pt c1 r1 (S2 + sg * (if same then j2 else j1)) \/ q = circle_pt c2 r2 (S2 + sg * (if same then j2 else j1))).

Definition overlap_full (p q : vec2 R) : Prop :=
  before u1 u2 p q
  /\ (forall x, before u1 u2 p x -> before u1 u2 x q -> near_seg v1 v2 tol x)
  /\ (forall x, on_seg v1 v2 x -> on_seg u1 u2 x -> before u1 u2 p x /\ before u1 u2 x q).

Lemma overlap_at_near p q : overlap_at p q -> both p /\ both q.
Proof.
  intros (j1 & j2 & (O1 & O2 & O3 & _) & Hp & Hq).
  assert (Hj : 0 <= (if same then j1 else j2) <= b) by (destruct same; lra).
  assert (Hj' : 0 <= (if same then j2 else j1) <= b) by (destruct same; lra).
  destruct (O3 (if same then j1 else j2)) as (i1 & I1 & K1); [destruct same; lra|].
  destruct (O3 (if same then j2 else j1)) as (i2 & I2 & K2); [destruct same; lra|].
  split; [exact (common_near p _ i1 Hj I1 K1 Hp)|exact (common_near q _ i2 Hj' I2 K2 Hq)].
Qed.

Lemma overlap_at_full p q : c1 = c2 -> r1 = r2 -> overlap_at p q -> overlap_full p q.
Proof.
  intros EC ER (j1 & j2 & (O1 & O2 & O3 & O4) & Hp & Hq).
  assert (Ep : p = circle_pt c2 r2 (S2 + sg * (if same then j1 else j2))) by (destruct Hp as [Hp|Hp]; [rewrite EC, ER in Hp|]; exact Hp).
  assert (Eq : q = circle_pt c2 r2 (S2 + sg * (if same then j2 else j1))) by (destruct Hq as [Hq|Hq]; [rewrite EC, ER in Hq|]; exact Hq).
  clear Hp Hq.
  split; [|split].
  - pose proof (seg_order j1 j2 O1 O2) as H. rewrite Ep, Eq. destruct same; exact H.
  - intros x X1 X2. rewrite Ep in X1. rewrite Eq in X2.
    assert (Hj : 0 <= (if same then j1 else j2) <= b) by (destruct same; lra).
    assert (Hj' : 0 <= (if same then j2 else j1) <= b) by (destruct same; lra).
    apply (proj1 (order_seg _ x Hj)) in X1 as (j & Bj & Ex & L1).
    apply (proj2 (order_seg _ x Hj')) in X2 as (j' & Bj' & Ex' & L2).
    assert (E : j' = j).
    { rewrite Ex in Ex'. apply circle_pt_inj in Ex'; [|exact Hr2]. apply congr_sg in Ex'; [|exact Hsg].
      symmetry. apply congr_range_eq; [exact Ex'|]. pose proof PI_pos. lra. }
    subst j'. destruct (O3 j) as (i & Hi & C); [destruct same; lra|].
    apply (common_near x j i Bj Hi C). now right.
  - intros x (t & Ht & Xv) (t' & Ht' & Xu). apply SV in Xv. apply SU in Xu.
    pose proof fz_small as F.
    set (j := (if same then t' else 1 - t') * b) in *.
    assert (Bj : 0 <= j <= b) by (unfold j; destruct same; nra).
    assert (C : congr (S2 + sg * j) (S1 + sg * (t * a))).
    { apply (circle_pt_inj c2 r2); [exact Hr2|]. rewrite <- Xu, Xv, EC, ER. reflexivity. }
    specialize (O4 j (t * a) Bj ltac:(nra) C).
    pose proof (seg_order j1 j ltac:(lra) ltac:(lra)) as H1. pose proof (seg_order j j2 ltac:(lra) ltac:(lra)) as H2.
    rewrite Ep, Eq, Xu. destruct same; split; assumption.
Qed.

Definition overlap_result : seg_intr R :=
  match touch1, touch2 with
  | true, true => SITwo (pos u1) (pos u2)
  | true, false => SIOne (pos v1)
  | false, true => SIOne (pos u1)
  | false, false =>
    let st := angle_is_within_sweep S2 S1 (sg * a) in
    let en := angle_is_within_sweep (S2 + sg * b) S1 (sg * a) in
    if st && en then SIOverlapArcs (pos u1) (pos u2)
    else if st then if same then SIOverlapArcs (pos u1) (pos v2) else SIOverlapArcs (pos v2) (pos u2)
    else if en then if same then SIOverlapArcs (pos v1) (pos u2) else SIOverlapArcs (pos u1) (pos v1)
    else if angle_is_within_sweep S1 S2 (sg * b)
         then if same then SIOverlapArcs (pos v1) (pos v2) else SIOverlapArcs (pos v2) (pos v1)
    else SINoIntersect
  end.

Lemma overlap_cases :
  match overlap_result with
  | SINoIntersect => c1 = c2 -> r1 = r2 -> forall x, on_seg v1 v2 x -> ~ on_seg u1 u2 x
  | SIOne q => same = true \/ 5 * eps < dist (pos v2) (pos u2) -> both q
  | SITwo p q => both p /\ both q /\ p = pos u1 /\ q = pos u2
  | SIOverlapArcs p q => both p /\ both q /\ (c1 = c2 -> r1 = r2 -> overlap_full p q)
  | _ => False
  end.
Proof.
  pose proof fz_small as F. pose proof PI_pos as P.
  assert (OV1 : on_seg v1 v2 (pos v1)) by (rewrite Pv1; replace S1 with (S1 + sg * 0) by ring; apply on_v; lra).
  assert (OV2 : on_seg v1 v2 (pos v2)) by (rewrite Pv2; apply on_v; lra).
  assert (OS : on_seg u1 u2 (circle_pt c2 r2 S2)) by (replace S2 with (S2 + sg * 0) by ring; apply on_u; lra).
  assert (OE : on_seg u1 u2 (circle_pt c2 r2 (S2 + sg * b))) by (apply on_u; lra).
  assert (SELFv : forall q, on_seg v1 v2 q -> near_seg v1 v2 tol q) by (intros q Oq; apply (near_v q q Oq); rewrite dist_self; lra).
  assert (SELFu : forall q, on_seg u1 u2 q -> near_seg u1 u2 tol q) by (intros q Oq; apply (near_u q q Oq); rewrite dist_self; lra).
  assert (PT : same = true -> pos u1 = circle_pt c2 r2 S2 /\ pos u2 = circle_pt c2 r2 (S2 + sg * b)) by (intros E; pose proof Pu as Pu'; rewrite E in Pu'; split; [exact (f_equal fst Pu')|exact (f_equal snd Pu')]).
  assert (PF : same = false -> pos u2 = circle_pt c2 r2 S2 /\ pos u1 = circle_pt c2 r2 (S2 + sg * b)) by (intros E; pose proof Pu as Pu'; rewrite E in Pu'; split; [exact (f_equal fst Pu')|exact (f_equal snd Pu')]).
  unfold overlap_result. destruct touch1 eqn:T1, touch2 eqn:T2; unfold touch1 in T1; unfold touch2 in T2.
  - destruct (touch_near _ _ T1) as [D1 _]. destruct (touch_near _ _ T2) as [_ D2].
    assert (NE : both (circle_pt c2 r2 (S2 + sg * b))).
    { split; [|now apply SELFu]. apply (near_v _ _ OV1). rewrite Pv1, dist_sym. exact D1. }
    assert (NS : both (circle_pt c2 r2 S2)).
    { split; [|now apply SELFu]. apply (near_v _ _ OV2). rewrite Pv2. exact D2. }
    destruct (Bool.bool_dec same true) as [E|E]; [destruct (PT E) as [-> ->]|apply Bool.not_true_is_false in E; destruct (PF E) as [-> ->]]; auto.
  - intros _. destruct (touch_near _ _ T1) as [D1 _]. split; [now apply SELFv|]. apply (near_u _ _ OE). rewrite Pv1. exact D1.
  - intros HS. destruct (touch_near _ _ T2) as [_ D2]. destruct (Bool.bool_dec same true) as [E|E].
    + destruct (PT E) as [-> _]. split; [|now apply SELFu]. apply (near_v _ _ OV2). rewrite Pv2. exact D2.
    + destruct HS as [HS|HS]; [contradiction|]. exfalso. apply Bool.not_true_is_false in E. destruct (PF E) as [Eu2 _]. rewrite Eu2, Pv2, dist_sym in HS. lra.
  - cbv zeta.
    assert (NT1 : forall d, Rabs d < fz -> ~ congr (S2 + sg * b) (S1 + d)) by (intros d; now apply no_touch).
    assert (NT2 : forall d, Rabs d < fz -> ~ congr S2 (S1 + sg * a + d)).
    { intros d Hd C. apply (no_touch _ _ (- d) T2); [now rewrite Rabs_Ropp|]. destruct C as (k & C). exists (- k)%Z. rewrite opp_IZR. lra. }
    destruct (turn_exists S1 S2 sg a b Hsg Ha NT1 NT2) as (x & Bx & Cx).
    destruct (turns_full S1 S2 sg a b Hsg Ha Hb B1 B2 NT1 NT2 x Bx Cx) as (F1 & F2 & F3 & F4 & F5).
    destruct (angle_is_within_sweep S2 S1 (sg * a)) eqn:ST, (angle_is_within_sweep (S2 + sg * b) S1 (sg * a)) eqn:EN; cbn [andb].
    + specialize (F1 eq_refl eq_refl). assert (G : overlap_at (pos u1) (pos u2)).
      { exists 0, b. split; [exact F1|]. destruct (Bool.bool_dec same true) as [E|E]; [|apply Bool.not_true_is_false in E]; rewrite E; [destruct (PT E) as [-> ->]|destruct (PF E) as [-> ->]]; rewrite Rmult_0_r, Rplus_0_r; auto. }
      destruct (overlap_at_near _ _ G). split; [assumption|]. split; [assumption|]. intros; now apply overlap_at_full.
    + specialize (F2 eq_refl eq_refl) as (y & Cy & F2). apply (circle_pt_congr c1 r1) in Cy.
      destruct (Bool.bool_dec same true) as [E|E]; [|apply Bool.not_true_is_false in E]; rewrite E; [destruct (PT E) as [Es Ee]|destruct (PF E) as [Es Ee]].
      * assert (G : overlap_at (pos u1) (pos v2)).
        { exists 0, y. split; [exact F2|]. rewrite E, Es, Pv2, Cy, Rmult_0_r, Rplus_0_r. auto. }
        destruct (overlap_at_near _ _ G). split; [assumption|]. split; [assumption|]. intros; now apply overlap_at_full.
      * assert (G : overlap_at (pos v2) (pos u2)).
        { exists 0, y. split; [exact F2|]. rewrite E, Es, Pv2, Cy, Rmult_0_r, Rplus_0_r. auto. }
        destruct (overlap_at_near _ _ G). split; [assumption|]. split; [assumption|]. intros; now apply overlap_at_full.
    + specialize (F3 eq_refl eq_refl) as (z & Cz & F3). apply (circle_pt_congr c1 r1) in Cz.
      destruct (Bool.bool_dec same true) as [E|E]; [|apply Bool.not_true_is_false in E]; rewrite E; [destruct (PT E) as [Es Ee]|destruct (PF E) as [Es Ee]].
      * assert (G : overlap_at (pos v1) (pos u2)).
        { exists z, b. split; [exact F3|]. rewrite E, Ee, Pv1, Cz. auto. }
        destruct (overlap_at_near _ _ G). split; [assumption|]. split; [assumption|]. intros; now apply overlap_at_full.
      * assert (G : overlap_at (pos u1) (pos v1)).
        { exists z, b. split; [exact F3|]. rewrite E, Ee, Pv1, Cz. auto. }
        destruct (overlap_at_near _ _ G). split; [assumption|]. split; [assumption|]. intros; now apply overlap_at_full.
    + destruct (angle_is_within_sweep S1 S2 (sg * b)) eqn:TH.
      * specialize (F4 eq_refl eq_refl eq_refl) as (z & Cz & F4). pose proof (circle_pt_congr c1 r1 _ _ Cz) as Ez.
        assert (Ez2 : circle_pt c1 r1 (S1 + sg * a) = circle_pt c1 r1 (S2 + sg * (z + a))).
        { apply circle_pt_congr. replace (S2 + sg * (z + a)) with (S2 + sg * z + sg * a) by ring. apply congr_plus; [exact Cz|apply congr_refl]. }
        destruct (Bool.bool_dec same true) as [E|E]; [|apply Bool.not_true_is_false in E]; rewrite E.
        -- assert (G : overlap_at (pos v1) (pos v2)).
           { exists z, (z + a). split; [exact F4|]. rewrite E, Pv1, Pv2, Ez, Ez2. auto. }
           destruct (overlap_at_near _ _ G). split; [assumption|]. split; [assumption|]. intros; now apply overlap_at_full.
        -- assert (G : overlap_at (pos v2) (pos v1)).
           { exists z, (z + a). split; [exact F4|]. rewrite E, Pv1, Pv2, Ez, Ez2. auto. }
           destruct (overlap_at_near _ _ G). split; [assumption|]. split; [assumption|]. intros; now apply overlap_at_full.
      * specialize (F5 eq_refl eq_refl eq_refl). intros EC ER q (t & Ht & Xv) (t' & Ht' & Xu). apply SV in Xv. apply SU in Xu.
        apply (F5 ((if same then t' else 1 - t') * b) (t * a)); [destruct same; nra|nra|].
        apply (circle_pt_inj c2 r2); [exact Hr2|]. rewrite <- Xu, Xv, EC, ER. reflexivity.
Qed.
End Overlap.

(** The model's overlap is the one above. *)
Lemma arc_arc_overlap_spec v1 v2 u1 u2 eps tol : seg_ok v1 v2 -> seg_ok u1 u2 -> pbulge v1 <> 0 -> pbulge u1 <> 0 ->
  0 < eps -> 5 * eps <= tol ->
  let c1 := centre_of (pos v1) (pos v2) (pbulge v1) in let r1 := radius_of (pos v1) (pos v2) (pbulge v1) in
  let c2 := centre_of (pos u1) (pos u2) (pbulge u1) in let r2 := radius_of (pos u1) (pos u2) (pbulge u1) in
  dist c1 c2 < eps -> Rabs (r1 - r2) < eps -> (r1 + r2) / 2 * fz <= eps ->
  let both q := near_seg v1 v2 tol q /\ near_seg u1 u2 tol q in
  match arc_arc_overlap v1 v2 u1 u2 eps r1 c1 r2 c2 with
  | SINoIntersect => c1 = c2 -> r1 = r2 -> forall x, on_seg v1 v2 x -> ~ on_seg u1 u2 x
  | SIOne q => 0 < pbulge v1 * pbulge u1 \/ 5 * eps < dist (pos v2) (pos u2) -> both q
  | SITwo p q => both p /\ both q /\ p = pos u1 /\ q = pos u2
  | SIOverlapArcs p q => both p /\ both q /\ (c1 = c2 -> r1 = r2 -> overlap_full v1 v2 u1 u2 tol p q)
  | _ => False
  end.
Proof.
  intros Okv Oku Hbv Hbu He Ht c1 r1 c2 r2 Hc Hrr Hfz both.
  destruct (arc_params v1 v2 Okv Hbv) as (Hr1 & HAv & Bv & _ & SV & _). fold c1 r1 in Hr1, HAv, Bv, SV.
  destruct (arc_params u1 u2 Oku Hbu) as (Hr2 & HAu & Bu1 & Bu2 & SU1 & SU2). fold c2 r2 in Hr2, HAu, Bu1, Bu2, SU1, SU2.
  assert (SW : forall b, bulge_ok b -> b <> 0 -> exists w, fz < w <= PI /\ ((0 < b /\ sweep b = w /\ sweep (- b) = - w) \/ (b < 0 /\ sweep b = - w /\ sweep (- b) = w))).
  { intros b Hb Hn. destruct Hb as [?|[L U]]; [contradiction|]. exists (Rabs (sweep b)).
    assert (E : sweep (- b) = - sweep b) by (unfold sweep; rewrite atan_opp; ring). rewrite E.
    pose proof (sweep_bound b U) as SB.
    assert (LB : forall y, fz <= y -> y <= 1 -> fz < sweep y).
    { intros y Hy Hy1. unfold sweep, fz in *. pose proof (atan_increasing 0 y ltac:(lra)) as A0. rewrite atan_0 in A0.
      pose proof (atan_lower y ltac:(lra)) as AL. lra. }
    change (1 / 100000000) with fz in L.
    destruct (Rlt_dec 0 b) as [Pb|Pb].
    - rewrite (Rabs_right b) in L, U by lra. pose proof (LB b L U). assert (0 < fz) by (unfold fz; lra).
      rewrite Rabs_right by lra. split; [lra|]. left. lra.
    - rewrite (Rabs_left b) in L, U by lra. pose proof (LB (- b) L U) as Q. rewrite E in Q. assert (0 < fz) by (unfold fz; lra).
      rewrite Rabs_left by lra. split; [lra|]. right. lra. }
  destruct (SW _ (proj1 Okv) Hbv) as (a & Ha & Sa). destruct (SW _ (proj1 Oku) Hbu) as (b & Hb & Sb).
  set (sg := if Rlt_dec 0 (pbulge v1) then 1 else -1).
  assert (Hsg : sg = 1 \/ sg = -1) by (unfold sg; destruct (Rlt_dec 0 (pbulge v1)); auto).
  assert (Ea : sweep (pbulge v1) = sg * a) by (unfold sg; destruct (Rlt_dec 0 (pbulge v1)); lra).
  unfold arc_arc_overlap. rnum. rewrite !is_neg_R.
  change (angle_from_bulge (pbulge v1)) with (sweep (pbulge v1)). change (angle_from_bulge (pbulge u1)) with (sweep (pbulge u1)). change (angle_from_bulge (- pbulge u1)) with (sweep (- pbulge u1)). rewrite Ea.
  set (same := Bool.eqb (rltb (pbulge v1) 0) (rltb (pbulge u1) 0)).
  assert (Hsame : if same then sweep (pbulge u1) = sg * b else sweep (- pbulge u1) = sg * b).
  { unfold same, sg. destruct (rltb_spec (pbulge v1) 0), (rltb_spec (pbulge u1) 0), (Rlt_dec 0 (pbulge v1)); cbn [Bool.eqb]; lra. }
  assert (Hprod : same = true -> 0 < pbulge v1 * pbulge u1).
  { unfold same. destruct (rltb_spec (pbulge v1) 0), (rltb_spec (pbulge u1) 0); cbn [Bool.eqb]; try discriminate; intros _; [nra|].
    apply Rmult_lt_0_compat; lra. }
  assert (Hprod2 : 0 < pbulge v1 * pbulge u1 -> same = true).
  { unfold same. destruct (rltb_spec (pbulge v1) 0), (rltb_spec (pbulge u1) 0); cbn [Bool.eqb]; auto; intros; exfalso; nra. }
  set (S1 := normalize_radians (angle c1 (pos v1))) in *.
  set (S2 := if same then normalize_radians (angle c2 (pos u1)) else normalize_radians (angle c2 (pos u2))).
  assert (Pv : pos v1 = circle_pt c1 r1 S1 /\ pos v2 = circle_pt c1 r1 (S1 + sg * a)).
  { split.
    - replace S1 with (S1 + 0 * sweep (pbulge v1)) by ring. apply SV. now apply seg_at_0.
    - rewrite <- Ea. replace (sweep (pbulge v1)) with (1 * sweep (pbulge v1)) by ring. apply SV. now apply seg_at_1. }
  destruct Pv as [Pv1 Pv2].
  assert (SV' : forall t q, seg_at v1 v2 t q <-> q = circle_pt c1 r1 (S1 + sg * (t * a))).
  { intros t q. rewrite SV, Ea. replace (t * (sg * a)) with (sg * (t * a)) by ring. tauto. }
  assert (SU' : forall t q, seg_at u1 u2 t q <-> q = circle_pt c2 r2 (S2 + sg * ((if same then t else 1 - t) * b))).
  { intros t q. unfold S2. destruct same.
    - rewrite SU1, Hsame. replace (t * (sg * b)) with (sg * (t * b)) by ring. tauto.
    - rewrite SU2, Hsame. replace ((1 - t) * (sg * b)) with (sg * ((1 - t) * b)) by ring. tauto. }
  assert (Pu : (if same then (pos u1, pos u2) else (pos u2, pos u1)) = (circle_pt c2 r2 S2, circle_pt c2 r2 (S2 + sg * b))).
  { pose proof (seg_at_0 u1 u2 Oku) as Z0. pose proof (seg_at_1 u1 u2 Oku) as Z1. apply SU' in Z0, Z1. destruct same.
    - rewrite Z0, Z1. do 2 f_equal; f_equal; ring.
    - rewrite Z0, Z1. do 2 f_equal; f_equal; ring. }
  assert (BS2 : 0 <= S2 < 2 * PI) by (unfold S2; destruct same; assumption).
  pose proof (overlap_cases v1 v2 u1 u2 c1 c2 r1 r2 S1 S2 sg a b eps tol _ _ same He Ht Hr1 Hr2 Hc Hrr Hfz Hbv Hbu HAv HAu Hsg Ha Hb Bv BS2 SV' SU' Pv1 Pv2 Pu) as OC.
  assert (EQ : (let '(arc2_start, arc2_sweep) := if same then (normalize_radians (angle c2 (pos u1)), sweep (pbulge u1)) else (normalize_radians (angle c2 (pos u2)), sweep (- pbulge u1)) in (arc2_start, arc2_sweep)) = (S2, sg * b)).
  { unfold S2. destruct same; rewrite Hsame; reflexivity. }
  assert (EQ' : (if same then (normalize_radians (angle c2 (pos u1)), sweep (pbulge u1)) else (normalize_radians (angle c2 (pos u2)), sweep (- pbulge u1))) = (S2, sg * b)) by (unfold S2; destruct same; rewrite Hsame; reflexivity).
  rewrite EQ'. unfold overlap_result, touch1, touch2 in OC. fold both in OC.
  match type of OC with match ?X with _ => _ end => match goal with |- match ?Y with _ => _ end => change Y with X end end.
  destruct (match fuzzy_eq_zero_eps _ _ with true => _ | false => _ end); auto.
  intros H. apply OC. destruct H as [H|H]; [left; now apply Hprod2|now right].
Qed.
