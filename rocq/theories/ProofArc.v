(** Arc centre and radius (C11), sweep angles, midpoint and tangent (C13), splitting (C12), length. *)
From Coq Require Import Reals ZArith Bool List Lra Lia Psatz.
From Verif Require Import Num RNum ModelMath ModelSeg SpecGeom ProofR.
Import ListNotations.
Local Open Scope R_scope.

Ltac vsimpl := unfold pos, v2sub, v2add, v2scale, v2dot, v2length, v2perp_dot, v2neg, v2perp in *;
               cbn [px py pbulge vx vy] in *; rnum.

Lemma vec2_eq (a b : vec2 R) : vx a = vx b -> vy a = vy b -> a = b.
Proof. destruct a, b; cbn; intros -> ->; reflexivity. Qed.

Lemma vec2_neq (a b : vec2 R) : a <> b -> vx a - vx b <> 0 \/ vy a - vy b <> 0.
Proof.
  intros H. destruct (Req_dec (vx a) (vx b)) as [E|E]; [|left; lra].
  destruct (Req_dec (vy a) (vy b)) as [E'|E']; [|right; lra]. exfalso. apply H. now apply vec2_eq.
Qed.

Lemma bulge_is_zero_R v : bulge_is_zero v = rltb (Rabs (pbulge v)) (1 / 100000000).
Proof. reflexivity. Qed.

Lemma bulge_ok_zero v : bulge_ok (pbulge v) -> (bulge_is_zero v = true <-> pbulge v = 0).
Proof.
  intros H. rewrite bulge_is_zero_R, rltb_true. split.
  - intros L. destruct H as [E|[E _]]; [exact E|lra].
  - intros ->. rewrite Rabs_R0. lra.
Qed.

(** Squared chord length and the position of the centre. *)
Definition chord2 (p1 p2 : vec2 R) : R :=
  (vx p2 - vx p1) * (vx p2 - vx p1) + (vy p2 - vy p1) * (vy p2 - vy p1).
Definition centre_of (p1 p2 : vec2 R) (b : R) : vec2 R :=
  let k := (1 - b * b) / (4 * b) in
  V2 ((vx p1 + vx p2) / 2 - k * (vy p2 - vy p1)) ((vy p1 + vy p2) / 2 + k * (vx p2 - vx p1)).
Definition radius_of (p1 p2 : vec2 R) (b : R) : R :=
  sqrt (chord2 p1 p2) * (1 + b * b) / (4 * Rabs b).

Lemma sumsq_nonneg x y : 0 <= x * x + y * y.
Proof. nra. Qed.

Lemma chord2_pos p1 p2 : p1 <> p2 -> 0 < chord2 p1 p2.
Proof.
  intros H. unfold chord2. destruct (vec2_neq _ _ H) as [E|E].
  - apply sumsq_pos. left. lra.
  - apply sumsq_pos. right. lra.
Qed.

Lemma chord_sqrt_pos p1 p2 : p1 <> p2 -> 0 < sqrt (chord2 p1 p2).
Proof. intros H. apply sqrt_lt_R0. now apply chord2_pos. Qed.

Lemma radius_pos p1 p2 b : p1 <> p2 -> b <> 0 -> 0 < radius_of p1 p2 b.
Proof.
  intros H Hb. unfold radius_of. pose proof (chord_sqrt_pos _ _ H). pose proof (Rabs_pos_lt _ Hb).
  apply Rdiv_lt_0_compat; [|lra]. apply Rmult_lt_0_compat; nra.
Qed.

Lemma arc_radius_and_center_eq v1 v2 :
  pos v1 <> pos v2 -> pbulge v1 <> 0 ->
  seg_arc_radius_and_center v1 v2
  = (radius_of (pos v1) (pos v2) (pbulge v1), centre_of (pos v1) (pos v2) (pbulge v1)).
Proof.
  intros Hp Hb. unfold seg_arc_radius_and_center, bulge_is_neg. vsimpl.
  pose proof (chord_sqrt_pos _ _ Hp) as HL. vsimpl. unfold chord2 in HL. cbn [vx vy] in HL.
  unfold radius_of, centre_of, chord2. cbn [vx vy].
  set (L := sqrt _) in *. set (b := pbulge v1) in *.
  destruct (rltb_spec b 0) as [Hneg|Hneg].
  - rewrite (Rabs_left b) by lra. f_equal; [f_equal; ring|]. apply vec2_eq; cbn [vx vy]; field; lra.
  - rewrite (Rabs_pos_eq b) by lra. f_equal; [f_equal; ring|]. apply vec2_eq; cbn [vx vy]; field; lra.
Qed.

(** The end points are at distance [radius_of] from the centre. *)
Lemma radius_sqr p1 p2 b : b <> 0 ->
  let c := centre_of p1 p2 b in
  (vx p1 - vx c) * (vx p1 - vx c) + (vy p1 - vy c) * (vy p1 - vy c) = radius_of p1 p2 b * radius_of p1 p2 b
  /\ (vx p2 - vx c) * (vx p2 - vx c) + (vy p2 - vy c) * (vy p2 - vy c) = radius_of p1 p2 b * radius_of p1 p2 b.
Proof.
  intros Hb c. unfold c, centre_of, radius_of. cbn [vx vy].
  assert (HL : sqrt (chord2 p1 p2) * sqrt (chord2 p1 p2) = chord2 p1 p2).
  { apply sqrt_sqrt. apply sumsq_nonneg. }
  assert (Hab : Rabs b * Rabs b = b * b) by (rewrite <- Rabs_mult; apply Rabs_pos_eq; nra).
  pose proof (Rabs_pos_lt _ Hb) as Hpos.
  replace (sqrt (chord2 p1 p2) * (1 + b * b) / (4 * Rabs b) * (sqrt (chord2 p1 p2) * (1 + b * b) / (4 * Rabs b)))
    with ((sqrt (chord2 p1 p2) * sqrt (chord2 p1 p2)) * ((1 + b * b) * (1 + b * b)) / (16 * (Rabs b * Rabs b)))
    by (field; lra).
  rewrite HL, Hab. unfold chord2. split; field; lra.
Qed.

Lemma angle_spec (c p : vec2 R) : p <> c ->
  exists r, r = sqrt ((vx p - vx c) * (vx p - vx c) + (vy p - vy c) * (vy p - vy c)) /\ 0 < r
    /\ p = circle_pt c r (angle c p) /\ - PI < angle c p <= PI.
Proof.
  intros H. unfold angle. rnum. destruct (ratan2_spec (vy p - vy c) (vx p - vx c) (vec2_neq _ _ H)) as (X & Y & B).
  eexists. split; [reflexivity|]. split; [apply sqrt_sqr_pos; apply (vec2_neq _ _ H)|]. split; [|exact B].
  unfold circle_pt. apply vec2_eq; cbn [vx vy]; lra.
Qed.

(** An angle at which a point lies on a circle is congruent to the computed one. *)
Lemma angle_congr c r a : 0 < r -> congr (angle c (circle_pt c r a)) a.
Proof.
  intros Hr.
  assert (Hne : circle_pt c r a <> c).
  { intros E. apply (f_equal (fun v => (vx v, vy v))) in E. unfold circle_pt in E. cbn in E.
    injection E as E1 E2. pose proof (sin2_cos2 a) as H. unfold Rsqr in H.
    assert (r * cos a = 0) by lra. assert (r * sin a = 0) by lra.
    assert (cos a = 0) by nra. assert (sin a = 0) by nra. rewrite H2, H3 in H. lra. }
  destruct (angle_spec c _ Hne) as (r' & Er & Hr' & E & _).
  assert (Err : r' = r).
  { rewrite Er. unfold circle_pt. cbn [vx vy].
    replace (vx c + r * cos a - vx c) with (r * cos a) by ring.
    replace (vy c + r * sin a - vy c) with (r * sin a) by ring.
    pose proof (sin2_cos2 a) as H. unfold Rsqr in H.
    replace (r * cos a * (r * cos a) + r * sin a * (r * sin a)) with (r * r) by nra.
    apply sqrt_square. lra. }
  rewrite Err in E. set (g := angle c (circle_pt c r a)) in *. unfold circle_pt in E. injection E as E1 E2.
  apply cos_sin_congr; nra.
Qed.

Lemma centre_neq p1 p2 b : p1 <> p2 -> b <> 0 -> p1 <> centre_of p1 p2 b /\ p2 <> centre_of p1 p2 b.
Proof.
  intros H Hb. pose proof (radius_pos _ _ _ H Hb) as Hr. destruct (radius_sqr p1 p2 b Hb) as [R1 R2].
  split; intros E.
  - rewrite <- E in R1. nra.
  - rewrite <- E in R2. nra.
Qed.

(** C11: the computed circle is the arc's circle. *)
Lemma computed_is_arc p1 p2 b : p1 <> p2 -> b <> 0 ->
  is_arc p1 p2 b (centre_of p1 p2 b) (radius_of p1 p2 b) (angle (centre_of p1 p2 b) p1).
Proof.
  intros H Hb. set (c := centre_of p1 p2 b). set (r := radius_of p1 p2 b). set (a := angle c p1).
  pose proof (radius_pos _ _ _ H Hb) as Hr. fold r in Hr.
  destruct (radius_sqr p1 p2 b Hb) as [R1 R2]. fold c r in R1, R2.
  destruct (angle_spec c p1 (proj1 (centre_neq _ _ _ H Hb))) as (r' & Er & Hr' & E & _).
  rewrite R1, sqrt_square in Er by lra. subst r'. fold a in E.
  split; [lra|]. split; [exact E|].
  assert (E1 : vx p1 - vx c = r * cos a) by (rewrite E at 1; unfold circle_pt; cbn; ring).
  assert (E2 : vy p1 - vy c = r * sin a) by (rewrite E at 1; unfold circle_pt; cbn; ring).
  unfold circle_pt, sweep. destruct (cos_sin_4atan b) as [C S]. rewrite cos_plus, sin_plus, C, S.
  assert (Hp : 1 + b * b <> 0) by nra.
  set (K := (1 - b * b) * (1 - b * b) - 4 * b * b) in *. set (D := (1 + b * b) * (1 + b * b)) in *.
  set (M := 4 * b * (1 - b * b)) in *.
  apply vec2_eq; cbn [vx vy].
  - replace (vx c + r * (cos a * (K / D) - sin a * (M / D)))
      with (vx c + ((r * cos a) * (K / D) - (r * sin a) * (M / D))) by ring.
    rewrite <- E1, <- E2. unfold c, centre_of, K, D, M. cbn [vx vy]. field. lra.
  - replace (vy c + r * (sin a * (K / D) + cos a * (M / D)))
      with (vy c + ((r * sin a) * (K / D) + (r * cos a) * (M / D))) by ring.
    rewrite <- E1, <- E2. unfold c, centre_of, K, D, M. cbn [vx vy]. field. lra.
Qed.

(** The circle of an arc is determined by its ends and bulge. *)
Lemma arc_unique p1 p2 b c r a : b <> 0 -> is_arc p1 p2 b c r a ->
  c = centre_of p1 p2 b /\ r = radius_of p1 p2 b.
Proof.
  intros Hb (Hr & E1 & E2).
  assert (Hp : 1 + b * b <> 0) by nra.
  assert (Hc : c = centre_of p1 p2 b).
  { rewrite E1, E2. unfold centre_of, circle_pt, sweep. cbn [vx vy].
    destruct (cos_sin_4atan b) as [C S]. rewrite cos_plus, sin_plus, C, S.
    apply vec2_eq; cbn [vx vy]; field; lra. }
  split; [exact Hc|]. destruct (radius_sqr p1 p2 b Hb) as [R1 _]. rewrite <- Hc in R1.
  rewrite E1 in R1 at 1 2 3 4. unfold circle_pt in R1. cbn [vx vy] in R1.
  pose proof (sin2_cos2 a) as H. unfold Rsqr in H.
  assert (R1' : r * r = radius_of p1 p2 b * radius_of p1 p2 b) by nra.
  assert (0 <= radius_of p1 p2 b).
  { unfold radius_of. pose proof (Rabs_pos_lt _ Hb). pose proof (sqrt_pos (chord2 p1 p2)).
    apply Rmult_le_pos; [nra|]. left. apply Rinv_0_lt_compat. lra. }
  nra.
Qed.

Lemma arc_angle_congr p1 p2 b c r a : p1 <> p2 -> b <> 0 -> is_arc p1 p2 b c r a ->
  0 < r /\ congr (angle c p1) a /\ congr (angle c p2) (a + sweep b).
Proof.
  intros Hp Hb HA. destruct (arc_unique _ _ _ _ _ _ Hb HA) as [Hc Hr].
  pose proof (radius_pos _ _ _ Hp Hb) as Hrp. rewrite <- Hr in Hrp.
  destruct HA as (_ & E1 & E2). split; [exact Hrp|]. split.
  - rewrite E1. now apply angle_congr.
  - rewrite E2. now apply angle_congr.
Qed.

Lemma circle_pt_congr c r a a' : congr a a' -> circle_pt c r a = circle_pt c r a'.
Proof. intros H. unfold circle_pt. now rewrite (congr_cos _ _ H), (congr_sin _ _ H). Qed.

(** Points of an arc in terms of the computed circle. *)
Lemma seg_at_arc v1 v2 t q : pos v1 <> pos v2 -> pbulge v1 <> 0 ->
  seg_at v1 v2 t q <->
  q = circle_pt (centre_of (pos v1) (pos v2) (pbulge v1)) (radius_of (pos v1) (pos v2) (pbulge v1))
        (angle (centre_of (pos v1) (pos v2) (pbulge v1)) (pos v1) + t * sweep (pbulge v1)).
Proof.
  intros Hp Hb. split.
  - intros [[E _]|[_ (c & r & a & HA & ->)]]; [contradiction|].
    destruct (arc_angle_congr _ _ _ _ _ _ Hp Hb HA) as (_ & C & _).
    destruct (arc_unique _ _ _ _ _ _ Hb HA) as [<- <-].
    apply circle_pt_congr. apply congr_plus; [now apply congr_sym|apply congr_refl].
  - intros ->. right. split; [exact Hb|]. do 3 eexists. split; [|reflexivity].
    now apply computed_is_arc.
Qed.

Lemma seg_at_line v1 v2 t q : pbulge v1 = 0 ->
  seg_at v1 v2 t q <-> q = line_pt (pos v1) (pos v2) t.
Proof.
  intros E. split; [intros [[_ H]|[H _]]; [exact H|contradiction]|]. intros H. now left.
Qed.

Lemma seg_at_exists v1 v2 t : seg_ok v1 v2 -> exists q, seg_at v1 v2 t q.
Proof.
  intros [_ H]. destruct (Req_dec (pbulge v1) 0) as [E|E].
  - eexists. apply seg_at_line; [exact E|reflexivity].
  - eexists. apply seg_at_arc; [now apply H|exact E|reflexivity].
Qed.

Lemma seg_at_unique v1 v2 t q q' : seg_at v1 v2 t q -> seg_at v1 v2 t q' -> seg_ok v1 v2 -> q = q'.
Proof.
  intros H H' [_ Hok]. destruct (Req_dec (pbulge v1) 0) as [E|E].
  - apply seg_at_line in H; [|exact E]. apply seg_at_line in H'; [|exact E]. congruence.
  - apply seg_at_arc in H; auto. apply seg_at_arc in H'; auto. congruence.
Qed.

Lemma sweep_bound b : Rabs b <= 1 -> - PI <= sweep b <= PI.
Proof. apply atan_1_bound. Qed.

Lemma sweep_ltb b : rltb (sweep b) 0 = rltb b 0.
Proof. apply atan_ltb. Qed.

Lemma sweep_nonzero b : b <> 0 -> sweep b <> 0.
Proof. intros H E. apply H. apply (proj2 (proj2 (atan_sign b))). unfold sweep in E. lra. Qed.

(** The code's way of computing the sweep is exact for |bulge| <= 1. *)
Lemma computed_sweep p1 p2 b c r a : p1 <> p2 -> b <> 0 -> Rabs b <= 1 -> is_arc p1 p2 b c r a ->
  delta_angle_signed (angle c p1) (angle c p2) (rltb b 0) = sweep b
  /\ Rabs (delta_angle (angle c p1) (angle c p2)) = Rabs (sweep b).
Proof.
  intros Hp Hb H1 HA. destruct (arc_angle_congr _ _ _ _ _ _ Hp Hb HA) as (_ & C1 & C2).
  rewrite <- (sweep_ltb b). apply delta_angle_signed_sweep; [|now apply sweep_bound].
  eapply congr_trans; [exact C2|]. apply congr_plus; [now apply congr_sym|apply congr_refl].
Qed.

(** Partial sweeps. *)
Lemma partial_sweep p1 p2 b c r a t : p1 <> p2 -> b <> 0 -> Rabs b <= 1 -> is_arc p1 p2 b c r a ->
  0 < t < 1 ->
  let q := circle_pt c r (a + t * sweep b) in
  delta_angle_signed (angle c p1) (angle c q) (rltb b 0) = t * sweep b
  /\ delta_angle_signed (angle c q) (angle c p2) (rltb b 0) = (1 - t) * sweep b.
Proof.
  intros Hp Hb H1 HA Ht q. destruct (arc_angle_congr _ _ _ _ _ _ Hp Hb HA) as (Hr & C1 & C2).
  pose proof (sweep_bound b H1) as HS. pose proof (sweep_nonzero b Hb) as HN.
  assert (Cq : congr (angle c q) (a + t * sweep b)) by (apply angle_congr; exact Hr).
  assert (L : forall s, 0 < s -> rltb (s * sweep b) 0 = rltb b 0).
  { intros s Hs. rewrite <- (sweep_ltb b).
    destruct (rltb_spec (sweep b) 0); [apply rltb_true; nra|apply rltb_false; nra]. }
  split.
  - rewrite <- (L t) by lra. apply delta_angle_signed_sweep; [|nra].
    eapply congr_trans; [exact Cq|]. apply congr_plus; [now apply congr_sym|apply congr_refl].
  - rewrite <- (L (1 - t)) by lra. apply delta_angle_signed_sweep; [|nra].
    eapply congr_trans; [exact C2|].
    replace (a + sweep b) with ((a + t * sweep b) + (1 - t) * sweep b) by ring.
    apply congr_plus; [now apply congr_sym|apply congr_refl].
Qed.

Lemma is_neg_R v : bulge_is_neg v = rltb (pbulge v) 0.
Proof. reflexivity. Qed.

(** ** C13 *)
Lemma seg_midpoint_spec v1 v2 : seg_ok v1 v2 -> seg_at v1 v2 (1 / 2) (seg_midpoint v1 v2).
Proof.
  intros [Hb Hp]. unfold seg_midpoint. destruct (Req_dec (pbulge v1) 0) as [E|E].
  - rewrite (proj2 (bulge_ok_zero v1 Hb) E). apply seg_at_line; [exact E|].
    unfold midpoint, line_pt. rnum. apply vec2_eq; cbn [vx vy]; field.
  - destruct (bulge_is_zero v1) eqn:Z; [apply bulge_ok_zero in Z; [contradiction|exact Hb]|].
    specialize (Hp E). rewrite arc_radius_and_center_eq by assumption.
    destruct Hb as [Hb|[_ Hb]]; [contradiction|].
    destruct (computed_sweep _ _ _ _ _ _ Hp E Hb (computed_is_arc _ _ _ Hp E)) as [S _].
    rewrite is_neg_R, S. apply seg_at_arc; [exact Hp|exact E|]. rnum. unfold point_on_circle, circle_pt. rnum.
    replace (sweep (pbulge v1) / 2) with (1 / 2 * sweep (pbulge v1)) by field. reflexivity.
Qed.

(** Derivative of the parametrisation, up to a positive factor: lines have the chord; arcs the radius
    turned by a quarter turn in the direction of the sweep. *)
Lemma seg_tangent_spec v1 v2 t q : seg_ok v1 v2 -> seg_at v1 v2 t q ->
  (pbulge v1 = 0 -> seg_tangent_vector v1 v2 q = V2 (px v2 - px v1) (py v2 - py v1))
  /\ (pbulge v1 <> 0 -> forall c r a, is_arc (pos v1) (pos v2) (pbulge v1) c r a ->
        exists k, 0 < k /\
        vx (seg_tangent_vector v1 v2 q) = k * (sweep (pbulge v1) * r * - sin (a + t * sweep (pbulge v1)))
        /\ vy (seg_tangent_vector v1 v2 q) = k * (sweep (pbulge v1) * r * cos (a + t * sweep (pbulge v1)))).
Proof.
  intros [Hb Hp] Hat. unfold seg_tangent_vector. split.
  - intros E. rewrite (proj2 (bulge_ok_zero v1 Hb) E). reflexivity.
  - intros E c r a HA. destruct (bulge_is_zero v1) eqn:Z; [apply bulge_ok_zero in Z; [contradiction|exact Hb]|].
    specialize (Hp E). rewrite arc_radius_and_center_eq by assumption.
    destruct (arc_unique _ _ _ _ _ _ E HA) as [Hc Hr]. rewrite <- Hc.
    assert (Eq : q = circle_pt c r (a + t * sweep (pbulge v1))).
    { apply seg_at_arc in Hat; auto. rewrite Hat, <- Hc, <- Hr.
      destruct (arc_angle_congr _ _ _ _ _ _ Hp E HA) as (_ & C1 & _).
      apply circle_pt_congr. apply congr_plus; [exact C1|apply congr_refl]. }
    rewrite Eq. unfold circle_pt. cbn [vx vy]. unfold bulge_is_pos. rnum.
    pose proof (sweep_nonzero _ E) as HS.
    exists (/ Rabs (sweep (pbulge v1))). pose proof (Rabs_pos_lt _ HS) as HA'.
    split; [now apply Rinv_0_lt_compat|].
    pose proof (sweep_ltb (pbulge v1)) as HL.
    destruct (rltb_spec 0 (pbulge v1)) as [P|P].
    + assert (0 < sweep (pbulge v1)) by (unfold sweep; destruct (atan_sign (pbulge v1)) as (X & _); specialize (X P); lra).
      rewrite Rabs_pos_eq by lra. cbn [vx vy]. split; field; lra.
    + assert (sweep (pbulge v1) < 0) by (unfold sweep; destruct (atan_sign (pbulge v1)) as (_ & X & _); specialize (X ltac:(lra)); lra).
      rewrite Rabs_left by lra. cbn [vx vy]. split; field; lra.
Qed.

(** ** Length of a segment *)
Lemma seg_length_line v1 v2 : pbulge v1 = 0 ->
  vfuzzy_eq v1 v2 = false -> seg_length v1 v2 = dist (pos v1) (pos v2).
Proof.
  intros E F. unfold seg_length. rewrite F.
  assert (Z : bulge_is_zero v1 = true) by (rewrite bulge_is_zero_R, E, Rabs_R0; apply rltb_true; lra).
  rewrite Z. reflexivity.
Qed.

Lemma seg_length_arc v1 v2 c r a : seg_ok v1 v2 -> pbulge v1 <> 0 ->
  vfuzzy_eq v1 v2 = false -> is_arc (pos v1) (pos v2) (pbulge v1) c r a ->
  seg_length v1 v2 = r * Rabs (sweep (pbulge v1)).
Proof.
  intros [Hb Hp] E F HA. unfold seg_length. rewrite F.
  destruct (bulge_is_zero v1) eqn:Z; [apply bulge_ok_zero in Z; [contradiction|exact Hb]|].
  specialize (Hp E). rewrite arc_radius_and_center_eq by assumption.
  destruct (arc_unique _ _ _ _ _ _ E HA) as [Hc Hr]. rewrite <- Hc, <- Hr.
  destruct Hb as [Hb|[_ Hb]]; [contradiction|].
  destruct (computed_sweep _ _ _ _ _ _ Hp E Hb HA) as [_ S]. rnum. now rewrite S.
Qed.

(** ** C12: splitting *)
Lemma seg_split_line v1 v2 q eps : pbulge v1 = 0 ->
  seg_split_at_point v1 v2 q eps = SplitResult v1 (Vtx (vx q) (vy q) 0).
Proof.
  intros E. unfold seg_split_at_point.
  assert (Z : bulge_is_zero v1 = true) by (rewrite bulge_is_zero_R, E, Rabs_R0; apply rltb_true; lra).
  now rewrite Z.
Qed.

Lemma sweep_tan x : - (2 * PI) < x < 2 * PI -> sweep (tan (x / 4)) = x.
Proof. intros H. unfold sweep. rewrite atan_tan by lra. field. Qed.

Lemma seg_split_arc v1 v2 q eps t c r a :
  seg_ok v1 v2 -> pbulge v1 <> 0 -> 0 < t < 1 ->
  is_arc (pos v1) (pos v2) (pbulge v1) c r a -> q = circle_pt c r (a + t * sweep (pbulge v1)) ->
  v2fuzzy_eq_eps (pos v1) (pos v2) eps = false ->
  v2fuzzy_eq_eps (pos v1) q eps = false -> v2fuzzy_eq_eps (pos v2) q eps = false ->
  let s := seg_split_at_point v1 v2 q eps in
  pos (updated_start s) = pos v1 /\ pos (split_vertex s) = q
  /\ sweep (pbulge (updated_start s)) = t * sweep (pbulge v1)
  /\ sweep (pbulge (split_vertex s)) = (1 - t) * sweep (pbulge v1)
  /\ is_arc (pos v1) q (pbulge (updated_start s)) c r a
  /\ is_arc q (pos v2) (pbulge (split_vertex s)) c r (a + t * sweep (pbulge v1)).
Proof.
  intros [Hb Hp] E Ht HA Hq F0 F1 F2 s.
  destruct (bulge_is_zero v1) eqn:Z; [apply bulge_ok_zero in Z; [contradiction|exact Hb]|].
  specialize (Hp E). destruct Hb as [Hb|[_ Hb]]; [contradiction|].
  assert (Es : s = SplitResult (Vtx (px v1) (py v1) (tan (t * sweep (pbulge v1) / 4)))
                               (Vtx (vx q) (vy q) (tan ((1 - t) * sweep (pbulge v1) / 4)))).
  { unfold s, seg_split_at_point. rewrite Z, F0, F1, F2. cbn [orb].
    rewrite arc_radius_and_center_eq by assumption.
    destruct (arc_unique _ _ _ _ _ _ E HA) as [Hc Hr]. rewrite <- Hc.
    destruct (partial_sweep _ _ _ _ _ _ t Hp E Hb HA Ht) as [S1 S2]. rewrite <- Hq in S1, S2.
    rewrite is_neg_R, S1, S2. reflexivity. }
  rewrite Es. cbn [updated_start split_vertex]. unfold pos at 1 3. cbn [px py pbulge].
  pose proof (sweep_bound _ Hb) as HS. pose proof PI_pos.
  split; [reflexivity|]. split; [now destruct q|].
  assert (B1 : - (2 * PI) < t * sweep (pbulge v1) < 2 * PI) by nra.
  assert (B2 : - (2 * PI) < (1 - t) * sweep (pbulge v1) < 2 * PI) by nra.
  rewrite (sweep_tan _ B1), (sweep_tan _ B2).
  split; [reflexivity|]. split; [reflexivity|].
  destruct HA as (H0 & HA1 & HA2). unfold is_arc. rewrite (sweep_tan _ B1), (sweep_tan _ B2).
  split; [auto|]. split; [exact H0|]. split; [exact Hq|].
  rewrite HA2. f_equal. ring.
Qed.
