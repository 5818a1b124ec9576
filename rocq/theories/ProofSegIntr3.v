(** Intersections of two arcs of different circles, of two lines, and the order along an arc. *)
From Coq Require Import Reals Lra Bool.
From Verif Require Import Num RNum ModelMath ModelIntr ModelSeg ModelSegIntr SpecGeom SpecIntr SpecBox SpecSegIntr
  ProofR ProofArc ProofArc2 ProofIntr ProofBox ProofBox2 ProofClosest ProofSegIntr ProofSegIntr2.
Local Open Scope R_scope.

(** ** Order along an arc *)
Lemma arc_start_dist c r a x : 0 < r -> 0 <= x <= PI -> dist (circle_pt c r (a + x)) (circle_pt c r a) = 2 * r * sin (x / 2).
Proof.
  intros Hr Hx. assert (S0 : 0 <= sin (x / 2)) by (apply sin_ge_0; lra).
  apply Rsqr_inj; [apply sqrt_pos|nra|]. unfold Rsqr. rewrite dist_circle_sqr. replace (a + x - a) with x by ring.
  replace x with (2 * (x / 2)) at 1 by field. rewrite cos_2a_sin. ring.
Qed.

Lemma arc_order v1 v2 p q : seg_ok v1 v2 -> pbulge v1 <> 0 -> on_seg v1 v2 p -> on_seg v1 v2 q ->
  dist p (pos v1) <= dist q (pos v1) -> before v1 v2 p q.
Proof.
  intros Hok Hb (s & Hs & Sp) (t & Ht & Sq) D.
  assert (G : s <= t); [|exists s, t; repeat split; try assumption; lra].
  destruct (arc_sides v1 v2 Hok Hb) as (al & w & Hw & _ & _ & Hends).
  assert (Hr : 0 < radius_of (pos v1) (pos v2) (pbulge v1)) by (apply radius_pos; [apply Hok, Hb|exact Hb]).
  set (c := centre_of (pos v1) (pos v2) (pbulge v1)) in *. set (r := radius_of (pos v1) (pos v2) (pbulge v1)) in *.
  destruct (Rle_dec s t) as [L|L]; [exact L|exfalso]. apply Rnot_le_lt in L.
  assert (SS : sin (t * w / 2) < sin (s * w / 2)) by (apply sin_increasing_1; nra).
  destruct Hends as [(_ & E1 & _ & SA)|(_ & _ & E1 & SA)].
  - apply SA in Sp, Sq. rewrite Sp, Sq, E1, !arc_start_dist in D by nra. nra.
  - apply SA in Sp, Sq. 
    assert (F : forall z, 0 <= z <= 1 -> dist (circle_pt c r (al + (1 - z) * w)) (pos v1) = 2 * r * sin (z * w / 2)).
    { intros z Hz. rewrite E1, dist_sym. replace (al + w) with (al + (1 - z) * w + z * w) by ring. apply arc_start_dist; nra. }
    rewrite Sp, Sq, !F in D by lra. nra.
Qed.

Lemma line_before v1 v2 p q s t : pbulge v1 = 0 -> pos v1 <> pos v2 -> on_seg v1 v2 p -> on_seg v1 v2 q ->
  p = line_pt (pos v1) (pos v2) s -> q = line_pt (pos v1) (pos v2) t -> s <= t -> before v1 v2 p q.
Proof.
  intros Hb Hn (s' & Hs & Sp) (t' & Ht & Sq) Ep Eq L.
  pose proof Sp as Sp'. pose proof Sq as Sq'. apply seg_at_line in Sp', Sq'; [|assumption|assumption].
  rewrite Ep in Sp'. rewrite Eq in Sq'. apply line_pt_inj in Sp', Sq'; [|assumption|assumption]. subst s' t'.
  exists s, t. repeat split; try assumption; lra.
Qed.

Lemma near_line v1 v2 eps q t : pbulge v1 = 0 -> 0 < eps -> q = line_pt (pos v1) (pos v2) t ->
  in_range t (dist (pos v1) (pos v2)) eps -> near_seg v1 v2 eps q.
Proof.
  intros Hb He Eq [I1 I2]. set (L := dist (pos v1) (pos v2)) in *. assert (0 <= L) by apply dist_pos.
  assert (G : exists t', 0 <= t' <= 1 /\ Rabs (t - t') * L <= eps).
  { destruct (Rlt_dec t 0) as [T|T].
    - exists 0. split; [lra|]. rewrite Rminus_0_r, Rabs_left by lra. lra.
    - destruct (Rlt_dec 1 t) as [T1|T1].
      + exists 1. split; [lra|]. rewrite Rabs_right by lra. lra.
      + exists t. split; [lra|]. rewrite Rminus_diag_eq, Rabs_R0 by reflexivity. lra. }
  destruct G as (t' & Ht & D). exists (line_pt (pos v1) (pos v2) t'). split.
  - exists t'. split; [exact Ht|]. now apply seg_at_line.
  - left. split; [exact Hb|]. rewrite Eq, dist_line_pt. exact D.
Qed.

(** ** Arcs of different circles *)
Section ArcArc.
Variables (v1 v2 u1 u2 : vertex R) (eps tol : R).
Hypotheses (He : 0 < eps <= tol) (Okv : seg_ok v1 v2) (Oku : seg_ok u1 u2).
Hypotheses (Hbv : pbulge v1 <> 0) (Hbu : pbulge u1 <> 0).
Hypotheses (Wv : wide v1 v2 tol) (Wu : wide u1 u2 tol).
Let c1 := centre_of (pos v1) (pos v2) (pbulge v1).
Let r1 := radius_of (pos v1) (pos v2) (pbulge v1).
Let c2 := centre_of (pos u1) (pos u2) (pbulge u1).
Let r2 := radius_of (pos u1) (pos u2) (pbulge u1).
Hypothesis Hcon : eps * (r1 + r2) <= tol * dist c1 c2.

Notation both q := (near_seg v1 v2 tol q /\ near_seg u1 u2 tol q).
Notation sw1 q := (point_within_arc_sweep c1 (pos v1) (pos v2) (bulge_is_neg v1) q eps).
Notation sw2 q := (point_within_arc_sweep c2 (pos u1) (pos u2) (bulge_is_neg u1) q eps).
Notation on1 q := (point_lies_on_arc r1 c1 v1 v2 eps q).
Notation on2 q := (point_lies_on_arc r2 c2 u1 u2 eps q).

Definition slots_good (s : option (vec2 R) * option (vec2 R)) : Prop :=
  (forall e, fst s = Some e -> both e) /\ (forall e, snd s = Some e -> both e).

Lemma try_add_good s e : slots_good s -> both e -> slots_good (try_add_end_point s eps e).
Proof.
  intros [S1 S2] E. destruct s as [[a|] s2]; cbn in *.
  - destruct (v2fuzzy_eq_eps a e eps); [split; assumption|]. destruct s2; [split; assumption|].
    split; cbn; intros x Hx; [auto|]. injection Hx as <-. exact E.
  - split; cbn; intros x Hx; [injection Hx as <-; exact E|auto].
Qed.

Lemma u_end_good : (on1 (pos u1) = true -> both (pos u1)) /\ (on1 (pos u2) = true -> both (pos u2)).
Proof.
  destruct (near_ends u1 u2 tol Oku) as [E1 E2]; [lra|].
  split; intros H; (split; [|assumption]); eapply lies_near; eauto.
Qed.
Lemma v_end_good : (on2 (pos v1) = true -> both (pos v1)) /\ (on2 (pos v2) = true -> both (pos v2)).
Proof.
  destruct (near_ends v1 v2 tol Okv) as [E1 E2]; [lra|].
  split; intros H; (split; [assumption|]); eapply lies_near; eauto.
Qed.

Lemma sweep_good q : Rabs (dist q c1 - r1) <= tol -> Rabs (dist q c2 - r2) <= tol -> sw1 q && sw2 q = true -> both q.
Proof.
  intros D1 D2 H. apply andb_true_iff in H as [H1 H2].
  split; [apply (within_near v1 v2 Okv Hbv q eps tol)|apply (within_near u1 u2 Oku Hbu q eps tol)]; auto.
Qed.

Lemma max_tol d : 0 < d -> eps * (r1 + r2) <= tol * d -> eps * Rmax 1 ((r1 + r2) / d) <= tol.
Proof.
  intros Hd H. unfold Rmax. destruct (Rle_dec 1 ((r1 + r2) / d)) as [_|_]; [|lra].
  apply (Rmult_le_reg_r d); [exact Hd|]. replace (eps * ((r1 + r2) / d) * d) with (eps * (r1 + r2)) by (field; lra). exact H.
Qed.

Definition arcs_good (i : seg_intr R) : Prop :=
  match i with
  | SINoIntersect => True
  | SITangent q | SIOne q => both q
  | SITwo q1 q2 => both q1 /\ both q2
  | _ => False
  end.

Lemma arc_arc_two_sound q1 q2 : dist q1 c1 = r1 -> dist q1 c2 = r2 -> dist q2 c1 = r1 -> dist q2 c2 = r2 ->
  arcs_good (arc_arc_two v1 v2 u1 u2 eps r1 c1 r2 c2 q1 q2).
Proof.
  intros A1 A2 B1 B2. unfold arc_arc_two.
  destruct u_end_good as [U1 U2]. destruct v_end_good as [V1 V2].
  assert (S0 : slots_good (None, None)) by (split; cbn; discriminate).
  set (s1 := if on1 (pos u1) then try_add_end_point (None, None) eps (pos u1) else (None, None)).
  assert (S1 : slots_good s1). { unfold s1. destruct (on1 (pos u1)); [apply try_add_good; auto|exact S0]. }
  set (s2 := if on1 (pos u2) then try_add_end_point s1 eps (pos u2) else s1).
  assert (S2 : slots_good s2). { unfold s2. destruct (on1 (pos u2)); [apply try_add_good; auto|exact S1]. }
  set (s3 := if on2 (pos v1) then try_add_end_point s2 eps (pos v1) else s2).
  assert (S3 : slots_good s3). { unfold s3. destruct (on2 (pos v1)); [apply try_add_good; auto|exact S2]. }
  set (s4 := if on2 (pos v2) then try_add_end_point s3 eps (pos v2) else s3).
  assert (S4 : slots_good s4). { unfold s4. destruct (on2 (pos v2)); [apply try_add_good; auto|exact S3]. }
  clearbody s4. destruct S4 as [F1 F2]. destruct s4 as [o1 o2]. cbn in F1, F2.
  assert (Z : forall x, x - x = 0) by (intros; ring).
  assert (G1 : sw1 q1 && sw2 q1 = true -> both q1) by (apply sweep_good; [rewrite A1|rewrite A2]; rewrite Z, Rabs_R0; lra).
  assert (G2 : sw1 q2 && sw2 q2 = true -> both q2) by (apply sweep_good; [rewrite B1|rewrite B2]; rewrite Z, Rabs_R0; lra).
  destruct (sw1 q1 && sw2 q1), (sw1 q2 && sw2 q2); cbn [andb]; destruct o1 as [e1|], o2 as [e2|]; cbn [arcs_good]; auto;
    destruct (_ <? _)%num; cbn [arcs_good]; auto.
Qed.

Lemma arc_arc_sound : eps <= dist c1 c2 -> arcs_good (arc_arc_intr v1 v2 u1 u2 eps).
Proof.
  intros Hd. unfold arc_arc_intr.
  rewrite (arc_radius_and_center_eq v1 v2) by (try apply Okv; assumption).
  rewrite (arc_radius_and_center_eq u1 u2) by (try apply Oku; assumption).
  change (centre_of (pos v1) (pos v2) (pbulge v1)) with c1. change (radius_of (pos v1) (pos v2) (pbulge v1)) with r1.
  change (centre_of (pos u1) (pos u2) (pbulge u1)) with c2. change (radius_of (pos u1) (pos u2) (pbulge u1)) with r2.
  assert (R1 : 0 < r1) by (apply radius_pos; [apply Okv, Hbv|exact Hbv]).
  assert (R2 : 0 < r2) by (apply radius_pos; [apply Oku, Hbu|exact Hbu]).
  pose proof (circle_circle_spec r1 c1 r2 c2 eps (proj1 He)) as CC.
  destruct (circle_circle_intr r1 c1 r2 c2 eps) as [|q|q1 q2|]; [exact I| | |].
  - destruct CC as (_ & D); [lra|lra|].
    destruct u_end_good as [U1 U2]. destruct v_end_good as [V1 V2].
    destruct (on1 (pos u1)); [now apply U1|]. destruct (on1 (pos u2)); [now apply U2|].
    destruct (on2 (pos v1)); [now apply V1|]. destruct (on2 (pos v2)); [now apply V2|].
    destruct (sw1 q && sw2 q) eqn:W; [|exact I]. apply sweep_good; [| |exact W].
    + destruct D as [[D _]|(_ & a & _ & D & _)].
      * rewrite D, Rminus_diag_eq, Rabs_R0 by reflexivity. lra.
      * eapply Rle_trans; [exact D|]. apply max_tol; [lra|exact Hcon].
    + destruct D as [(_ & D & _)|(_ & a & _ & _ & D)].
      * rewrite D, Rminus_diag_eq, Rabs_R0 by reflexivity. lra.
      * eapply Rle_trans; [exact D|]. apply max_tol; [lra|exact Hcon].
  - destruct CC as (_ & A1 & A2 & B1 & B2 & _); [lra|lra|]. now apply arc_arc_two_sound.
  - destruct CC as [CC _]; lra.
Qed.

(** Circles that cut each other in two points: common points are reported, unless an end of one arc
    is near the other circle; something is reported in any case. *)
Lemma arc_arc_complete p1 p2 q : ~ is_point p1 p2 eps -> eps <= dist c1 c2 ->
  dist p1 c1 = r1 -> dist p1 c2 = r2 -> dist p2 c1 = r1 -> dist p2 c2 = r2 ->
  on_seg v1 v2 q -> on_seg u1 u2 q ->
  arc_arc_intr v1 v2 u1 u2 eps <> SINoIntersect
  /\ (reported (arc_arc_intr v1 v2 u1 u2 eps) q
      \/ Rabs (dist (pos u1) c1 - r1) < eps \/ Rabs (dist (pos u2) c1 - r1) < eps
      \/ Rabs (dist (pos v1) c2 - r2) < eps \/ Rabs (dist (pos v2) c2 - r2) < eps).
Proof.
  intros Hpt Hd A1 A2 B1 B2 Qv Qu. unfold arc_arc_intr.
  rewrite (arc_radius_and_center_eq v1 v2) by (try apply Okv; assumption).
  rewrite (arc_radius_and_center_eq u1 u2) by (try apply Oku; assumption).
  change (centre_of (pos v1) (pos v2) (pbulge v1)) with c1. change (radius_of (pos v1) (pos v2) (pbulge v1)) with r1.
  change (centre_of (pos u1) (pos u2) (pbulge u1)) with c2. change (radius_of (pos u1) (pos u2) (pbulge u1)) with r2.
  assert (R1 : 0 < r1) by (apply radius_pos; [apply Okv, Hbv|exact Hbv]).
  assert (R2 : 0 < r2) by (apply radius_pos; [apply Oku, Hbu|exact Hbu]).
  pose proof (circle_circle_two r1 c1 r2 c2 eps p1 p2 (proj1 He) (Rlt_le _ _ R1) (Rlt_le _ _ R2) Hd Hpt A1 A2 B1 B2) as (q1 & q2 & -> & U).
  destruct (on_within v1 v2 Okv Hbv q eps (proj1 He) Qv) as [W1 D1].
  destruct (on_within u1 u2 Oku Hbu q eps (proj1 He) Qu) as [W2 D2]. fold c1 r1 in W1, D1. fold c2 r2 in W2, D2.
  assert (W : sw1 q && sw2 q = true) by (rewrite W1, W2; reflexivity).
  unfold arc_arc_two. split.
  - set (s := if on2 (pos v2) then _ else _). clearbody s.
    destruct (U q D1 D2) as [<- | <-]; rewrite W; cbn [andb];
      [destruct (sw1 q2 && sw2 q2)|destruct (sw1 q1 && sw2 q1)]; destruct s as [[|] [|]]; try discriminate;
      destruct (_ <? _)%num; discriminate.
  - destruct (Rlt_dec (Rabs (dist (pos u1) c1 - r1)) eps) as [?|N1]; [auto|].
    destruct (Rlt_dec (Rabs (dist (pos u2) c1 - r1)) eps) as [?|N2]; [auto|].
    destruct (Rlt_dec (Rabs (dist (pos v1) c2 - r2)) eps) as [?|N3]; [auto|].
    destruct (Rlt_dec (Rabs (dist (pos v2) c2 - r2)) eps) as [?|N4]; [auto 6|]. left.
    assert (F1 : on1 (pos u1) = false) by (destruct (on1 (pos u1)) eqn:F; [apply lies_on_arc_R in F; fold c1 r1 in F; lra|reflexivity]).
    assert (F2 : on1 (pos u2) = false) by (destruct (on1 (pos u2)) eqn:F; [apply lies_on_arc_R in F; fold c1 r1 in F; lra|reflexivity]).
    assert (F3 : on2 (pos v1) = false) by (destruct (on2 (pos v1)) eqn:F; [apply lies_on_arc_R in F; fold c2 r2 in F; lra|reflexivity]).
    assert (F4 : on2 (pos v2) = false) by (destruct (on2 (pos v2)) eqn:F; [apply lies_on_arc_R in F; fold c2 r2 in F; lra|reflexivity]).
    rewrite F1, F2, F3, F4. cbv beta iota zeta.
    destruct (U q D1 D2) as [<- | <-]; rewrite W; cbn [andb];
      [destruct (sw1 q2 && sw2 q2)|destruct (sw1 q1 && sw2 q1)]; cbn; auto.
Qed.
End ArcArc.
