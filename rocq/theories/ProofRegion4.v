(** One loop as its slices (C51). *)
From Coq Require Import Reals ZArith Bool List Arith Lra Lia Psatz Permutation Sorted.
From Verif Require Import Num RNum Res ModelMath ModelSeg ModelPline ModelView ModelIntersects ModelBoolean.
From Verif Require Import Spec SpecGeom SpecBox SpecWinding SpecView SpecPruneR.
From Verif Require Import ProofR ProofBase ProofIter ProofArc ProofArc2 ProofSlice ProofMeasure ProofWinding ProofWinding2 ProofWinding6 ProofWinding7 ProofRegion ProofRegion2 ProofRegion3.
Import ListNotations.
Local Open Scope R_scope.

(** ** Pieces of proper segments are proper *)
Lemma cos_one x : cos x = 1 -> exists k, x = IZR k * (2 * PI).
Proof.
  intros H. assert (S0 : sin (x / 2) = 0).
  { assert (E : cos x = 1 - 2 * sin (x / 2) * sin (x / 2)) by (rewrite <- cos_2a_sin; f_equal; field). nra. }
  destruct (sin_eq_0_0 _ S0) as (k & E). exists k. lra.
Qed.


(** A circle does not contain the middle between two of its points. *)
Lemma circle_convex c r p q m : dist c p = r -> dist c q = r -> dist c m = r -> vx m = (vx p + vx q) / 2 -> vy m = (vy p + vy q) / 2 -> p = q.
Proof.
  intros Hp Hq Hm Ex Ey. unfold dist in *.
  assert (G : forall u v, sqrt u = r -> 0 <= u -> sqrt v = r -> 0 <= v -> u = v) by (intros u v H1 H2 H3 H4; apply sqrt_inj; congruence).
  assert (Q : forall z : vec2 R, 0 <= (vx c - vx z) * (vx c - vx z) + (vy c - vy z) * (vy c - vy z)).
  { intros z. pose proof (Rle_0_sqr (vx c - vx z)). pose proof (Rle_0_sqr (vy c - vy z)). unfold Rsqr in *. lra. }
  pose proof (G _ _ Hp (Q p) Hm (Q m)) as E1. pose proof (G _ _ Hq (Q q) Hm (Q m)) as E2. rewrite Ex, Ey in E1, E2.
  assert (E3 : (vx p - vx q) * (vx p - vx q) + (vy p - vy q) * (vy p - vy q) = 0) by nra.
  pose proof (Rle_0_sqr (vx p - vx q)). pose proof (Rle_0_sqr (vy p - vy q)). unfold Rsqr in *.
  assert (vx p - vx q = 0) by (apply Rsqr_0_uniq; unfold Rsqr; lra). assert (vy p - vy q = 0) by (apply Rsqr_0_uniq; unfold Rsqr; lra).
  apply vec2_eq; lra.
Qed.

Lemma dist_circle c r a : 0 <= r -> dist c (circle_pt c r a) = r.
Proof.
  intros H. unfold dist, circle_pt. cbn [vx vy]. replace (_ + _) with (r * r).
  - now apply sqrt_square.
  - rewrite <- (norm_cs r a) at 1. ring.
Qed.

Lemma chord_sqr c r a d : (vx (circle_pt c r (a + d)) - vx (circle_pt c r a)) * (vx (circle_pt c r (a + d)) - vx (circle_pt c r a))
  + (vy (circle_pt c r (a + d)) - vy (circle_pt c r a)) * (vy (circle_pt c r (a + d)) - vy (circle_pt c r a)) = 2 * (r * r) * (1 - cos d).
Proof.
  unfold circle_pt. cbn [vx vy].
  replace (cos d) with (cos (a + d) * cos a + sin (a + d) * sin a).
  - pose proof (sin2_cos2 a). pose proof (sin2_cos2 (a + d)). unfold Rsqr in *. set (ca := cos a) in *. set (sa := sin a) in *. set (cb := cos (a + d)) in *. set (sb := sin (a + d)) in *.
    clearbody ca sa cb sb.
    transitivity (r * r * ((sb * sb + cb * cb) + (sa * sa + ca * ca) - 2 * (cb * ca + sb * sa))); [ring|]. rewrite H, H0. ring.
  - rewrite <- cos_minus. f_equal. ring.
Qed.

Lemma seg_ends_neq a b t u q q' : seg_ok a b -> pos a <> pos b -> 0 <= t <= 1 -> 0 <= u <= 1 -> t <> u -> seg_at a b t q -> seg_at a b u q' -> q <> q'.
Proof. intros Hok Hd Ht Hu N H H' ->. apply N. now apply (seg_at_inj a b t u q'). Qed.

Lemma piece_facts a b t u w1 w2 : seg_ok a b -> pos a <> pos b -> 0 <= t -> t < u -> u <= 1 -> piece a b t u w1 w2 ->
  (pbulge w1 <> 0 -> pos w1 <> pos w2)
  /\ (pbulge w1 = 0 \/ (pbulge a <> 0 /\ Rabs (pbulge w1) = Rabs (tan ((u - t) * atan (pbulge a))) /\ Rabs (pbulge w1) <= 1)).
Proof.
  intros Hok Hd Ht Htu Hu P.
  destruct (seg_at_exists a b t Hok) as (q0 & Q0). destruct (seg_at_exists a b u Hok) as (q1 & Q1). destruct (seg_at_exists a b ((t + u) / 2) Hok) as (qm & Qm).
  assert (N : q0 <> q1) by (apply (seg_ends_neq a b t u); auto; lra).
  assert (P0 : seg_at w1 w2 0 q0) by (apply P; replace (t + 0 * (u - t)) with t by ring; exact Q0).
  assert (P1 : seg_at w1 w2 1 q1) by (apply P; replace (t + 1 * (u - t)) with u by ring; exact Q1).
  assert (Pm : seg_at w1 w2 (1 / 2) qm) by (apply P; replace (t + 1 / 2 * (u - t)) with ((t + u) / 2) by field; exact Qm).
  destruct (Req_dec (pbulge w1) 0) as [Ew|Ew].
  - (* line *) split; [intros; contradiction|left; exact Ew].
  - (* arc *)
    assert (W : exists c r g, 0 <= r /\ (forall s q, seg_at w1 w2 s q -> q = circle_pt c r (g + s * sweep (pbulge w1))) /\ pos w1 <> pos w2).
    { destruct P0 as [(E & _)|(_ & c & r & g & HA & E0)]; [contradiction|]. destruct HA as (Hr & Ha & Hb).
      assert (W0 : pos w1 = q0) by (rewrite Ha, E0; f_equal; ring).
      assert (NW : pos w1 <> pos w2).
      { intros E. destruct P1 as [(E' & _)|(_ & c' & r' & g' & (Hr' & Ha' & Hb') & E1)]; [contradiction|].
        apply N. rewrite <- W0, E1, E, Hb'. f_equal. ring. }
      exists (centre_of (pos w1) (pos w2) (pbulge w1)), (radius_of (pos w1) (pos w2) (pbulge w1)), (angle (centre_of (pos w1) (pos w2) (pbulge w1)) (pos w1)).
      split; [|split; [|exact NW]].
      - apply Rlt_le, radius_pos; assumption.
      - intros s q. now apply seg_at_arc. }
    destruct W as (c & r & g & Hr & W & NW). split; [intros _; exact NW|].
    destruct (Req_dec (pbulge a) 0) as [Ea|Ea].
    + exfalso. apply N. apply (circle_convex c r q0 q1 qm).
      * rewrite (W _ _ P0). now apply dist_circle.
      * rewrite (W _ _ P1). now apply dist_circle.
      * rewrite (W _ _ Pm). now apply dist_circle.
      * apply seg_at_line in Q0, Q1, Qm; try exact Ea. subst q0 q1 qm. cbn. field.
      * apply seg_at_line in Q0, Q1, Qm; try exact Ea. subst q0 q1 qm. cbn. field.
    + right. set (sg := sweep (pbulge w1)) in *. set (dl := (u - t) * sweep (pbulge a)).
      set (c' := centre_of (pos a) (pos b) (pbulge a)). set (r' := radius_of (pos a) (pos b) (pbulge a)). set (g' := angle c' (pos a) + t * sweep (pbulge a)).
      assert (Hr' : 0 < r') by (apply radius_pos; assumption).
      assert (Sa : sweep (pbulge a) <> 0) by now apply sweep_nonzero.
      assert (Sw : sg <> 0) by now apply sweep_nonzero.
      assert (Dn : dl <> 0) by (unfold dl; apply Rmult_integral_contrapositive; split; [lra|exact Sa]).
      assert (K : forall s, circle_pt c r (g + s * sg) = circle_pt c' r' (g' + s * dl)).
      { intros s. destruct (seg_at_exists a b (t + s * (u - t)) Hok) as (q & Q). pose proof (proj2 (P s q) Q) as Q'. rewrite <- (W _ _ Q').
        apply seg_at_arc in Q; auto. rewrite Q. fold c' r'. unfold g', dl. f_equal. ring. }
      assert (Z0 : circle_pt c r g = circle_pt c' r' g').
      { pose proof (K 0) as E. rewrite !Rmult_0_l, !Rplus_0_r in E. exact E. }
      assert (L : forall s, 2 * (r * r) * (1 - cos (s * sg)) = 2 * (r' * r') * (1 - cos (s * dl))).
      { intros s. rewrite <- (chord_sqr c r g), <- (chord_sqr c' r' g'). rewrite (K s), Z0. reflexivity. }
      assert (R0 : 0 < r).
      { destruct (Rle_lt_or_eq_dec 0 r Hr) as [|E]; [assumption|]. exfalso. apply NW.
        assert (A0 : seg_at w1 w2 0 (pos w1) /\ seg_at w1 w2 1 (pos w2)).
        { pose proof (computed_is_arc _ _ _ NW Ew) as (A1 & A2 & A3). split; apply seg_at_arc; auto; [rewrite A2 at 1|rewrite A3 at 1]; f_equal; ring. }
        destruct A0 as (A0 & A1). rewrite (W _ _ A0), (W _ _ A1), <- E. unfold circle_pt. apply vec2_eq; cbn; ring. }
      assert (RR : 0 < r * r) by nra. assert (RR' : 0 < r' * r') by nra.
      assert (C1 : forall k, cos (IZR k * (2 * PI)) = 1).
      { intros k. rewrite (congr_cos _ 0); [apply cos_0|]. exists k. ring. }
      pose proof PI_pos.
      (* one turn on one is whole turns on the other *)
      destruct (cos_one (2 * PI / sg * dl)) as (k & Ek).
      { pose proof (L (2 * PI / sg)) as E. replace (2 * PI / sg * sg) with (IZR 1 * (2 * PI)) in E by (field; exact Sw). rewrite C1 in E. nra. }
      destruct (cos_one (2 * PI / dl * sg)) as (m & Em).
      { pose proof (L (2 * PI / dl)) as E. replace (2 * PI / dl * dl) with (IZR 1 * (2 * PI)) in E by (field; exact Dn). rewrite C1 in E. nra. }
      assert (E1 : dl = IZR k * sg).
      { apply (Rmult_eq_reg_l (2 * PI / sg)); [|apply Rmult_integral_contrapositive; split; [lra|now apply Rinv_neq_0_compat]]. rewrite Ek. field. exact Sw. }
      assert (E2 : sg = IZR m * dl).
      { apply (Rmult_eq_reg_l (2 * PI / dl)); [|apply Rmult_integral_contrapositive; split; [lra|now apply Rinv_neq_0_compat]]. rewrite Em. field. exact Dn. }
      assert (KM : (k * m = 1)%Z).
      { apply eq_IZR. rewrite mult_IZR. apply (Rmult_eq_reg_r dl); [|exact Dn]. rewrite Rmult_1_l. rewrite E1 at 2. rewrite E2 at 1. ring_simplify. ring. }
      assert (KV : (m = 1 \/ m = -1)%Z) by (destruct (Z.mul_eq_1 m k ltac:(lia)); auto).
      assert (EB : Rabs (pbulge w1) = Rabs (tan ((u - t) * atan (pbulge a)))).
      { assert (AT : atan (pbulge w1) = IZR m * ((u - t) * atan (pbulge a))).
        { unfold sg, dl, sweep in E2. nra. }
        rewrite <- (tan_atan (pbulge w1)), AT. destruct KV as [-> | ->].
        - f_equal. f_equal. ring.
        - replace (IZR (-1) * ((u - t) * atan (pbulge a))) with (- ((u - t) * atan (pbulge a))) by (cbn; ring). now rewrite tan_neg, Rabs_Ropp. }
      split; [exact Ea|]. split; [exact EB|]. rewrite EB.
      assert (BB : - (PI / 4) <= (u - t) * atan (pbulge a) <= PI / 4).
        { destruct Hok as ([E|(_ & HB)] & _); [contradiction|]. pose proof (sweep_bound _ HB) as SB. unfold sweep in SB.
          assert (A1 : 0 < u - t <= 1) by lra.
          destruct (Rle_dec 0 (atan (pbulge a))) as [S1|S1].
          - assert (0 <= (u - t) * atan (pbulge a)) by (apply Rmult_le_pos; lra).
            assert ((u - t) * atan (pbulge a) <= 1 * atan (pbulge a)) by (apply Rmult_le_compat_r; lra). lra.
          - assert (0 <= (u - t) * (- atan (pbulge a))) by (apply Rmult_le_pos; lra).
            assert ((u - t) * (- atan (pbulge a)) <= 1 * (- atan (pbulge a))) by (apply Rmult_le_compat_r; lra). lra. }
        assert (TI : forall z, - (PI / 4) <= z <= PI / 4 -> -1 <= tan z <= 1).
        { assert (T1 : forall z, 0 <= z <= PI / 4 -> 0 <= tan z <= 1).
          { intros z (Z1 & Z2). split.
            - destruct Z1 as [Z1|<-]; [apply Rlt_le, tan_gt_0; lra|rewrite tan_0; lra].
            - rewrite <- tan_PI4. destruct Z2 as [Z2| ->]; [apply Rlt_le, tan_increasing; lra|lra]. }
          intros z Hz. destruct (Rle_dec 0 z) as [Z0'|Z0'].
          - pose proof (T1 z ltac:(lra)). lra.
          - pose proof (T1 (- z) ltac:(lra)) as TT. rewrite tan_neg in TT. lra. }
        pose proof (TI _ BB). apply Rabs_le. lra.
Qed.

Lemma piece_ok a b t u w1 w2 : seg_ok a b -> pos a <> pos b -> 0 <= t -> t < u -> u <= 1 -> part_ok a t u -> piece a b t u w1 w2 ->
  seg_ok w1 w2.
Proof.
  intros Hok Hd Ht Htu Hu HP P. destruct (piece_facts a b t u w1 w2 Hok Hd Ht Htu Hu P) as (E & [Z|(Na & EB & H1)]); (split; [|exact E]); [left; exact Z|right].
  split; [|exact H1]. rewrite EB. destruct HP as [Z|HP]; [contradiction|exact HP].
Qed.

Lemma piece_bulge a b t u w1 w2 : seg_ok a b -> pos a <> pos b -> 0 <= t -> t < u -> u <= 1 -> piece a b t u w1 w2 -> Rabs (pbulge w1) <= 1.
Proof.
  intros Hok Hd Ht Htu Hu P. destruct (piece_facts a b t u w1 w2 Hok Hd Ht Htu Hu P) as (_ & [-> | (_ & _ & H)]); [rewrite Rabs_R0; lra|exact H].
Qed.
