(** Segments that clearly have no part in common do not overlap for the code (C75). *)
From Coq Require Import Reals ZArith Bool List Arith Lra Lia Psatz.
From Verif Require Import Num RNum Res ModelMath ModelSeg ModelPline ModelIntr ModelSegIntr.
From Verif Require Import Spec SpecPline SpecGeom SpecBox SpecIntr SpecPolyOff SpecSame.
From Verif Require Import ProofR ProofBase ProofArc ProofArc2 ProofIntr ProofSegIntr2 ProofSegIntr5 ProofSegIntr6 ProofOffsetJoin2 ProofPolyOff ProofPolyOff2 ProofSame1 ProofSame2.
Import ListNotations.
Local Open Scope R_scope.

Lemma gap_delta eps r g x y : 0 < r -> 0 <= g -> eps <= r * g -> eps <= r * (2 * PI - g) -> congr (y - x) g \/ congr (y - x) (- g) ->
  eps <= Rabs ((r + r) / 2 * delta_angle x y).
Proof.
  intros Hr G H1 H2 C. pose proof PI_pos. destruct (delta_angle_spec x y) as (D & L & U). set (d := delta_angle x y) in *.
  rewrite Rabs_mult, (Rabs_right ((r + r) / 2)) by lra. replace ((r + r) / 2) with r by field.
  assert (K : exists k : Z, d = g + IZR k * (2 * PI) \/ d = - g + IZR k * (2 * PI)).
  { destruct D as (k & D). destruct C as [(j & C)|(j & C)]; exists (k + j)%Z; rewrite plus_IZR; [left|right]; rewrite D, C; ring. }
  assert (M : g <= Rabs d \/ 2 * PI - g <= Rabs d).
  { destruct K as (k & K). assert (T : (k = 0 \/ 1 <= k \/ k <= -1)%Z) by lia. remember (Rabs d) as q. destruct T as [-> |[T|T]].
    - left. destruct K as [K|K]; rewrite Heqq, K; [rewrite Rabs_right by lra; lra|].
      replace (- g + 0 * (2 * PI)) with (- g) by ring. rewrite Rabs_Ropp, Rabs_right by lra. lra.
    - apply IZR_le in T. right. assert (d <= q) by (subst q; apply RRle_abs). destruct K as [K|K]; nra.
    - apply IZR_le in T. right. assert (- d <= q) by (subst q; rewrite <- Rabs_Ropp; apply RRle_abs). destruct K as [K|K]; nra. }
  destruct M as [M|M]; apply (Rmult_le_compat_l r) in M; lra.
Qed.

Lemma gap_nonneg eps r g : 0 < eps -> 0 < r -> clear_gap eps r g -> 0 <= g.
Proof. intros He Hr [-> |(H & _)]; [lra|]. destruct (Rle_dec 0 g) as [|K]; [assumption|]. exfalso. apply Rnot_le_lt in K. assert (r * g < 0) by nra. lra. Qed.

Lemma zero_delta eps r x y : 0 < eps -> congr (y - x) 0 -> fuzzy_eq_zero_eps ((r + r) / 2 * delta_angle x y) eps = true.
Proof.
  intros He C. pose proof PI_pos. rewrite (delta_angle_unique x y 0); [|now apply congr_sym|lra]. rewrite Rmult_0_r. apply fz_R. rewrite Rabs_R0. exact He.
Qed.

Lemma congr_minus x y a b : congr x a -> congr y b -> congr (x - y) (a - b).
Proof. intros (k & ->) (j & ->). exists (k - j)%Z. rewrite minus_IZR. ring. Qed.
Lemma congr_shift x y s : congr x y -> congr (x + s) (y + s).
Proof. intros (k & ->). exists k. ring. Qed.

Section Arcs.
Context (v1 v2 u1 u2 : vertex R) (eps r a1 s1 a2 s2 g h : R) (c : vec2 R).
Context (He : 0 < eps) (Okv : seg_ok v1 v2) (Oku : seg_ok u1 u2) (Nv : ~ is_point (pos v1) (pos v2) eps) .
Context (Sv : arc_span v1 v2 c r a1 s1) (Su : arc_span u1 u2 c r a2 s2) (G : clear_gap eps r g) (H : clear_gap eps r h).
Context (E2 : a2 = a1 + s1 + g) (E1 : a1 + 2 * PI = a2 + s2 + h).

Lemma overlap_none : plain_intr (arc_arc_overlap v1 v2 u1 u2 eps r c r c).
Proof.
  pose proof PI_pos as HP. pose proof (not_point_dist _ _ _ Nv) as D.
  destruct (span_angles v1 v2 c r a1 s1 (bulge_is_neg v1) Okv Sv) as (Hr & B1 & L1 & x1 & X1 & C1).
  destruct (span_angles u1 u2 c r a2 s2 (bulge_is_neg v1) Oku Su) as (_ & B2 & L2 & x2 & X2 & C2).
  pose proof (proj1 Sv) as P1. pose proof (proj1 Su) as P2.
  pose proof (gap_nonneg _ _ _ He Hr G) as G0. pose proof (gap_nonneg _ _ _ He Hr H) as H0.
  rewrite eqb_reflx in X1. pose proof (f_equal fst X1) as N1. pose proof (f_equal snd X1) as W1. cbn [fst snd] in N1, W1.
  unfold arc_arc_overlap. cbv zeta. rewrite X2, N1, W1. set (neg := bulge_is_neg v1) in *. clearbody neg. rnum.
  assert (R1 : eps <= r * s1) by lra.
  assert (TG : eps <= r * (2 * PI - g)) by (replace (2 * PI - g) with (s1 + s2 + h) by lra; nra).
  assert (TH : eps <= r * (2 * PI - h)) by (replace (2 * PI - h) with (s1 + s2 + g) by lra; nra).
  assert (PL : forall b1 b2 x, (b1 = true \/ b2 = true \/ (b1 = false /\ b2 = false /\ plain_intr x)) ->
     plain_intr (match b1, b2 with true, true => SITwo (pos u1) (pos u2) | true, false => SIOne (pos v1) | false, true => SIOne (pos u1) | false, false => x end)).
  { intros b1 b2 x K. destruct b1, b2; try (split; discriminate). destruct K as [K|[K|(_ & _ & K)]]; [discriminate..|exact K]. }
  apply PL. clear PL. destruct neg.
  - assert (F1 : congr (x2 + - s2 - x1) g).
    { replace g with (a2 + s2 + - s2 - (a1 + s1)) by lra. apply congr_minus; [now apply congr_shift|exact C1]. }
    assert (F2 : congr (x1 + - s1 - x2) h).
    { apply (congr_trans _ (a1 + s1 + - s1 - (a2 + s2))); [apply congr_minus; [now apply congr_shift|exact C2]|]. exists (-1)%Z. lra. }
    destruct G as [G1|(G1 & G2)]; [left; apply zero_delta; [exact He|]; rewrite <- G1; exact F1|].
    destruct H as [H1|(H1 & H2)]; [right; left; apply zero_delta; [exact He|]; rewrite <- H1; exact F2|]. right. right.
    split; [apply not_fz_R, (gap_delta eps r g); auto|]. split; [apply not_fz_R, (gap_delta eps r h); auto|].
    assert (A1 : Rabs (- s1) = s1) by (rewrite Rabs_Ropp, Rabs_right; lra). assert (A2 : Rabs (- s2) = s2) by (rewrite Rabs_Ropp, Rabs_right; lra).
    rewrite (within_no x2 x1 (- s1) (s1 + g + s2)).
    2:{ lra. } 2:{ rewrite Rmin_right by lra. apply congr_sym. replace (s1 + g + s2) with (a2 + s2 - (a1 + s1 + - s1)) by lra. apply congr_minus; [exact C2|now apply congr_shift]. } 2:{ lra. }
    rewrite (within_no (x2 + - s2) x1 (- s1) (s1 + g)).
    2:{ lra. } 2:{ rewrite Rmin_right by lra. apply congr_sym. replace (s1 + g) with (a2 + s2 + - s2 - (a1 + s1 + - s1)) by lra. apply congr_minus; now apply congr_shift. } 2:{ lra. }
    rewrite (within_no x1 x2 (- s2) (s1 + s2 + h)).
    2:{ lra. } 2:{ rewrite Rmin_right by lra. apply congr_sym. apply (congr_trans _ (a1 + s1 - (a2 + s2 + - s2))); [apply congr_minus; [exact C1|now apply congr_shift]|]. exists (-1)%Z. lra. } 2:{ lra. }
    cbn [andb]. split; discriminate.
  - assert (F1 : congr (x2 + s2 - x1) (- h)).
    { apply (congr_trans _ (a2 + s2 - a1)); [apply congr_minus; [now apply congr_shift|exact C1]|]. exists 1%Z. lra. }
    assert (F2 : congr (x1 + s1 - x2) (- g)).
    { replace (- g) with (a1 + s1 - a2) by lra. apply congr_minus; [now apply congr_shift|exact C2]. }
    destruct H as [H1|(H1 & H2)]; [left; apply zero_delta; [exact He|]; replace 0 with (- h) by lra; exact F1|].
    destruct G as [G1|(G1 & G2)]; [right; left; apply zero_delta; [exact He|]; replace 0 with (- g) by lra; exact F2|]. right. right.
    split; [apply not_fz_R, (gap_delta eps r h); auto|]. split; [apply not_fz_R, (gap_delta eps r g); auto|].
    assert (A1 : Rabs s1 = s1) by (rewrite Rabs_right; lra). assert (A2 : Rabs s2 = s2) by (rewrite Rabs_right; lra).
    rewrite (within_no x2 x1 s1 (s1 + g)).
    2:{ lra. } 2:{ rewrite Rmin_left by lra. apply congr_sym. replace (s1 + g) with (a2 - a1) by lra. now apply congr_minus. } 2:{ lra. }
    rewrite (within_no (x2 + s2) x1 s1 (s1 + g + s2)).
    2:{ lra. } 2:{ rewrite Rmin_left by lra. apply congr_sym. replace (s1 + g + s2) with (a2 + s2 - a1) by lra. apply congr_minus; [now apply congr_shift|exact C1]. } 2:{ lra. }
    rewrite (within_no x1 x2 s2 (s2 + h)).
    2:{ lra. } 2:{ rewrite Rmin_left by lra. apply congr_sym. apply (congr_trans _ (a1 - a2)); [now apply congr_minus|]. exists (-1)%Z. lra. } 2:{ lra. }
    cbn [andb]. split; discriminate.
Qed.
End Arcs.

Lemma line_arc_plain p0 p1 w1 w2 ul eps : plain_intr (line_arc_intr (N := RNum) p0 p1 w1 w2 ul eps).
Proof.
  unfold line_arc_intr. destruct (seg_arc_radius_and_center w1 w2) as (r, c). destruct (line_circle_intr p0 p1 r c eps) as [|t|t t'].
  - split; discriminate.
  - destruct (point_lies_on_arc _ _ _ _ _ _); [split; discriminate|]. destruct (point_lies_on_arc _ _ _ _ _ _); [split; discriminate|]. destruct (point_in_sweep _ _ _ _ _ _ _); split; discriminate.
  - destruct (point_in_sweep p0 p1 c w1 w2 eps t) as [q|], (point_in_sweep p0 p1 c w1 w2 eps t') as [q'|];
      repeat (match goal with |- context [point_lies_on_arc ?r ?c ?a ?b ?e ?q] => destruct (point_lies_on_arc r c a b e q) end); try (split; discriminate);
      repeat (match goal with |- context [if ?b then _ else _] => destruct b end); split; discriminate.
Qed.

Lemma parted_plain eps v1 v2 u1 u2 : 0 < eps -> seg_ok v1 v2 -> seg_ok u1 u2 -> ~ is_point (pos v1) (pos v2) eps -> parted eps v1 v2 u1 u2 ->
  plain_intr (pline_seg_intr v1 v2 u1 u2 eps).
Proof.
  intros He Okv Oku N (L & A). destruct (Req_dec (pbulge v1) 0) as [Zv|Zv], (Req_dec (pbulge u1) 0) as [Zu|Zu].
  - destruct (L Zv Zu) as [K|K].
    + unfold pline_seg_intr. rewrite (is_zero_line _ Zv), (is_zero_line _ Zu). cbn [andb].
      destruct (line_line_nonparallel _ _ _ _ _ He K) as (s & t & _ & _ & [(_ & ->)|(_ & ->)]); split; discriminate.
    + rewrite (lines_apart _ _ _ _ _ He Zv Zu K). split; discriminate.
  - unfold pline_seg_intr. rewrite (is_zero_line _ Zv), (bulge_nonzero_is _ _ Oku Zu). cbn [andb]. apply line_arc_plain.
  - unfold pline_seg_intr. rewrite (is_zero_line _ Zu), (bulge_nonzero_is _ _ Okv Zv). cbn [andb]. apply line_arc_plain.
  - assert (HPv : pos v1 <> pos v2) by (apply Okv, Zv). assert (HPu : pos u1 <> pos u2) by (apply Oku, Zu).
    unfold pline_seg_intr. rewrite (bulge_nonzero_is _ _ Okv Zv), (bulge_nonzero_is _ _ Oku Zu). cbn [andb].
    unfold arc_arc_intr. rewrite (arc_radius_and_center_eq v1 v2 HPv Zv), (arc_radius_and_center_eq u1 u2 HPu Zu).
    destruct (A Zv Zu) as [(c1 & r1 & a1 & c2 & r2 & a2 & A1 & A2 & D)|(c & r & a1 & s1 & a2 & s2 & g & h & A1 & A2 & G & H & E2 & E1)].
    + destruct (arc_unique _ _ _ _ _ _ Zv A1) as (<- & <-). destruct (arc_unique _ _ _ _ _ _ Zu A2) as (<- & <-).
      destruct (circle_circle_intr r1 c1 r2 c2 eps) eqn:E.
      * split; discriminate.
      * repeat (match goal with |- context [if ?b then _ else _] => destruct b end); split; discriminate.
      * unfold arc_arc_two. cbv zeta.
        match goal with |- plain_intr (if ?b then _ else _) => destruct b end;
          match goal with |- plain_intr (match ?s with _ => _ end) => destruct s as ([e1|] & [e2|]) end;
          repeat (match goal with |- context [if ?b then _ else _] => destruct b end); split; discriminate.
      * exfalso. apply circle_circle_overlap in E as (E & E'). destruct D; lra.
    + assert (U : exists b, is_arc (pos v1) (pos v2) (pbulge v1) c r b) by (destruct A1 as (_ & [(_ & K)|(_ & K)]); eauto). destruct U as (b & U).
      assert (U' : exists b, is_arc (pos u1) (pos u2) (pbulge u1) c r b) by (destruct A2 as (_ & [(_ & K)|(_ & K)]); eauto). destruct U' as (b' & U').
      destruct (arc_unique _ _ _ _ _ _ Zv U) as (<- & <-). destruct (arc_unique _ _ _ _ _ _ Zu U') as (<- & <-).
      assert (DZ : dist c c = 0) by (unfold dist; rewrite !Rminus_eq_0, Rmult_0_l, Rplus_0_l; apply sqrt_0).
      rewrite (proj2 (circle_circle_overlap r c r c eps)) by (rewrite DZ, Rminus_eq_0, Rabs_R0; auto).
      now apply (overlap_none v1 v2 u1 u2 eps r a1 s1 a2 s2 g h c).
Qed.
