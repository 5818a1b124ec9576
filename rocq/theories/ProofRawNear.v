(** Geometry for C48: moving the ends of a segment moves its points no farther than the ends. *)
From Coq Require Import Reals ZArith Bool List Arith Lra Lia Psatz.
From Verif Require Import Num RNum Res ModelMath ModelIntr ModelSeg ModelPline ModelOffset.
From Verif Require Import Spec SpecGeom SpecIntr SpecBox SpecOffset SpecOffsetJoin SpecRawNear.
From Verif Require Import ProofR ProofBase ProofArc ProofIntr.
Import ListNotations.
Local Open Scope R_scope.

(** A point of an arc is obtained from its chord by shrinking and turning, by amounts that depend on the
    bulge and the parameter only. *)
Definition shrink (b s : R) : R := sin (s * sweep b / 2) / sin (sweep b / 2).
Definition turned (k ph : R) (u : vec2 R) : vec2 R := V2 (k * (cos ph * vx u - sin ph * vy u)) (k * (sin ph * vx u + cos ph * vy u)).
Definition vplus (p u : vec2 R) : vec2 R := V2 (vx p + vx u) (vy p + vy u).

Lemma half_sweep_pos b : b <> 0 -> Rabs b <= 1 -> 0 < Rabs (sweep b / 2) <= PI / 2.
Proof.
  intros Hb H1. pose proof PI_pos. assert (N : sweep b <> 0) by now apply sweep_nonzero.
  split; [apply Rabs_pos_lt; lra|]. unfold sweep in *. apply Rabs_le.
  assert (A1 : atan 1 = PI / 4) by apply atan_1.
  assert (B : -1 <= b <= 1) by (revert H1; unfold Rabs; destruct (Rcase_abs b); lra).
  assert (atan b <= atan 1). { destruct (Rle_lt_or_eq_dec b 1) as [L|E]; [lra|left; now apply atan_increasing|rewrite E; lra]. }
  assert (- atan 1 <= atan b). { rewrite <- atan_opp. destruct (Rle_lt_or_eq_dec (-(1)) b) as [L|E]; [lra|left; now apply atan_increasing|rewrite E; lra]. }
  lra.
Qed.

Lemma sin_half_nonzero b : b <> 0 -> Rabs b <= 1 -> sin (sweep b / 2) <> 0.
Proof.
  intros Hb H1 E. destruct (half_sweep_pos b Hb H1) as [P Q]. pose proof PI_pos.
  destruct (Rcase_abs (sweep b / 2)) as [L|L].
  - rewrite Rabs_left in P, Q by lra. assert (sin (sweep b / 2) < 0) by (apply sin_lt_0_var; lra). lra.
  - rewrite Rabs_right in P, Q by lra. assert (0 < sin (sweep b / 2)) by (apply sin_gt_0; lra). lra.
Qed.

Lemma sin_ratio s h : 0 <= s <= 1 -> 0 < h <= PI / 2 -> 0 <= sin (s * h) / sin h <= 1.
Proof.
  intros Hs Hh. pose proof PI_pos. assert (P : 0 < sin h) by (apply sin_gt_0; lra).
  assert (Q : 0 <= sin (s * h)) by (apply sin_ge_0; nra).
  assert (L : sin (s * h) <= sin h). { apply sin_incr_1; nra. }
  split; [apply Rmult_le_pos; [exact Q|left; now apply Rinv_0_lt_compat]|].
  apply Rmult_le_reg_r with (sin h); [exact P|]. unfold Rdiv. rewrite Rmult_assoc, Rinv_l by lra. lra.
Qed.

Lemma shrink_bound b s : b <> 0 -> Rabs b <= 1 -> 0 <= s <= 1 -> 0 <= shrink b s <= 1.
Proof.
  intros Hb H1 Hs. destruct (half_sweep_pos b Hb H1) as [P Q]. unfold shrink.
  destruct (Rcase_abs (sweep b / 2)) as [L|L].
  - rewrite Rabs_left in P, Q by lra.
    replace (sin (s * sweep b / 2) / sin (sweep b / 2)) with (sin (s * - (sweep b / 2)) / sin (- (sweep b / 2))).
    + apply sin_ratio; lra.
    + replace (s * - (sweep b / 2)) with (- (s * sweep b / 2)) by field. rewrite !sin_neg. field. now apply sin_half_nonzero.
  - rewrite Rabs_right in P, Q by lra. replace (s * sweep b / 2) with (s * (sweep b / 2)) by field. apply sin_ratio; lra.
Qed.

Lemma circle_diff c r x y : vec (circle_pt c r x) (circle_pt c r y) =
  V2 (- (2 * r * sin ((y - x) / 2) * sin ((x + y) / 2))) (2 * r * sin ((y - x) / 2) * cos ((x + y) / 2)).
Proof.
  unfold vec, circle_pt. cbn [vx vy]. apply vec2_eq; cbn [vx vy].
  - replace (vx c + r * cos y - (vx c + r * cos x)) with (r * (cos y - cos x)) by ring. rewrite form2.
    replace ((y - x) / 2) with ((y - x) / 2) by reflexivity. replace ((y + x) / 2) with ((x + y) / 2) by (f_equal; ring). ring.
  - replace (vy c + r * sin y - (vy c + r * sin x)) with (r * (sin y - sin x)) by ring. rewrite form4.
    replace ((y + x) / 2) with ((x + y) / 2) by (f_equal; ring). ring.
Qed.

Lemma turned_shrunk b s r al : b <> 0 -> Rabs b <= 1 ->
  turned (shrink b s) ((s - 1) * sweep b / 2) (V2 (- (2 * r * sin (sweep b / 2) * sin (al + sweep b / 2))) (2 * r * sin (sweep b / 2) * cos (al + sweep b / 2)))
  = V2 (- (2 * r * sin (s * sweep b / 2) * sin (al + s * sweep b / 2))) (2 * r * sin (s * sweep b / 2) * cos (al + s * sweep b / 2)).
Proof.
  intros Hb H1. pose proof (sin_half_nonzero b Hb H1) as N. unfold turned, shrink. cbn [vx vy].
  set (ph := (s - 1) * sweep b / 2). replace (al + s * sweep b / 2) with ((al + sweep b / 2) + ph) by (unfold ph; field).
  generalize (al + sweep b / 2) as A. intros A. rewrite sin_plus, cos_plus. apply vec2_eq; cbn [vx vy]; field; exact N.
Qed.

Lemma arc_from_start p1 p2 b c r a s : b <> 0 -> Rabs b <= 1 -> is_arc p1 p2 b c r a ->
  circle_pt c r (a + s * sweep b) = vplus p1 (turned (shrink b s) ((s - 1) * sweep b / 2) (vec p1 p2)).
Proof.
  intros Hb H1 (_ & E1 & E2). rewrite E1, E2.
  rewrite circle_diff. replace ((a + sweep b - a) / 2) with (sweep b / 2) by field. replace ((a + (a + sweep b)) / 2) with (a + sweep b / 2) by field.
  rewrite turned_shrunk by assumption.
  pose proof (circle_diff c r a (a + s * sweep b)) as D. replace ((a + s * sweep b - a) / 2) with (s * sweep b / 2) in D by field.
  replace ((a + (a + s * sweep b)) / 2) with (a + s * sweep b / 2) in D by field. rewrite <- D.
  unfold vplus, vec. cbn [vx vy]. apply vec2_eq; cbn [vx vy]; ring.
Qed.

Lemma arc_from_end p1 p2 b c r a s : b <> 0 -> Rabs b <= 1 -> is_arc p1 p2 b c r a ->
  circle_pt c r (a + s * sweep b) = vplus p2 (turned (shrink b (1 - s)) (s * sweep b / 2) (vec p2 p1)).
Proof.
  intros Hb H1 HA.
  assert (HN : is_arc p2 p1 (- b) c r (a + sweep b)).
  { destruct HA as (R0 & E1 & E2). split; [exact R0|]. split; [exact E2|].
    replace (sweep (- b)) with (- sweep b) by (unfold sweep; rewrite atan_opp; ring). rewrite E1. f_equal. ring. }
  assert (Hb' : - b <> 0) by lra. assert (H1' : Rabs (- b) <= 1) by now rewrite Rabs_Ropp.
  pose proof (arc_from_start p2 p1 (- b) c r (a + sweep b) (1 - s) Hb' H1' HN) as E.
  assert (SN : sweep (- b) = - sweep b) by (unfold sweep; rewrite atan_opp; ring).
  rewrite SN in E. replace (a + sweep b + (1 - s) * - sweep b) with (a + s * sweep b) in E by ring. rewrite E.
  f_equal. f_equal.
  - unfold shrink. rewrite SN. replace ((1 - s) * - sweep b / 2) with (- ((1 - s) * sweep b / 2)) by field. replace (- sweep b / 2) with (- (sweep b / 2)) by field.
    rewrite !sin_neg. field. now apply sin_half_nonzero.
  - field.
Qed.

(** A point of an arc from both of its ends at once. *)
Lemma arc_moves p1 p2 p2' b c r a c' r' a' s : b <> 0 -> Rabs b <= 1 -> 0 <= s <= 1 ->
  is_arc p1 p2 b c r a -> is_arc p1 p2' b c' r' a' ->
  dist (circle_pt c r (a + s * sweep b)) (circle_pt c' r' (a' + s * sweep b)) <= dist p2 p2'.
Proof.
  intros Hb H1 Hs HA HA'. rewrite (arc_from_start _ _ _ _ _ _ s Hb H1 HA), (arc_from_start _ _ _ _ _ _ s Hb H1 HA').
  pose proof (shrink_bound b s Hb H1 Hs) as K. set (k := shrink b s) in *. set (ph := (s - 1) * sweep b / 2).
  assert (E : dist (vplus p1 (turned k ph (vec p1 p2))) (vplus p1 (turned k ph (vec p1 p2'))) = k * dist p2 p2').
  { apply dist_eq_sqr; [apply Rmult_le_pos; [lra|apply dist_pos]|].
    replace (k * dist p2 p2' * (k * dist p2 p2')) with (k * k * (dist p2 p2' * dist p2 p2')) by ring. rewrite dist_sqr.
    unfold vplus, turned, vec. cbn [vx vy]. pose proof (sin2_cos2 ph) as SC. unfold Rsqr in SC.
    transitivity (k * k * ((vx p2 - vx p2') * (vx p2 - vx p2') + (vy p2 - vy p2') * (vy p2 - vy p2')) * (sin ph * sin ph + cos ph * cos ph)); [ring|rewrite SC; ring]. }
  rewrite E. pose proof (dist_pos p2 p2'). nra.
Qed.

Lemma arc_moves' p1 p2 p1' b c r a c' r' a' s : b <> 0 -> Rabs b <= 1 -> 0 <= s <= 1 ->
  is_arc p1 p2 b c r a -> is_arc p1' p2 b c' r' a' ->
  dist (circle_pt c r (a + s * sweep b)) (circle_pt c' r' (a' + s * sweep b)) <= dist p1 p1'.
Proof.
  intros Hb H1 Hs HA HA'. rewrite (arc_from_end _ _ _ _ _ _ s Hb H1 HA), (arc_from_end _ _ _ _ _ _ s Hb H1 HA').
  assert (Hs' : 0 <= 1 - s <= 1) by lra. pose proof (shrink_bound b (1 - s) Hb H1 Hs') as K. set (k := shrink b (1 - s)) in *. set (ph := s * sweep b / 2).
  assert (E : dist (vplus p2 (turned k ph (vec p2 p1))) (vplus p2 (turned k ph (vec p2 p1'))) = k * dist p1 p1').
  { apply dist_eq_sqr; [apply Rmult_le_pos; [lra|apply dist_pos]|].
    replace (k * dist p1 p1' * (k * dist p1 p1')) with (k * k * (dist p1 p1' * dist p1 p1')) by ring. rewrite dist_sqr.
    unfold vplus, turned, vec. cbn [vx vy]. pose proof (sin2_cos2 ph) as SC. unfold Rsqr in SC.
    transitivity (k * k * ((vx p1 - vx p1') * (vx p1 - vx p1') + (vy p1 - vy p1') * (vy p1 - vy p1')) * (sin ph * sin ph + cos ph * cos ph)); [ring|rewrite SC; ring]. }
  rewrite E. pose proof (dist_pos p1 p1'). nra.
Qed.
