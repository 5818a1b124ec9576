(** Arcs as cones of directions, and the points at distance [e] from a convex set (C70). *)
From Coq Require Import Reals ZArith Bool List Arith Lra Lia Psatz.
From Verif Require Import Num RNum Res ModelMath ModelSeg.
From Verif Require Import Spec SpecGeom SpecIntr SpecOffset.
From Verif Require Import ProofR ProofIntr ProofArc.
Import ListNotations.
Local Open Scope R_scope.

Definition dot (u v : vec2 R) : R := vx u * vx v + vy u * vy v.
Definition unit (u : vec2 R) : Prop := dot u u = 1.
Definition turn (a : R) : vec2 R := V2 (cos a) (sin a).
(** [v] is a combination of [u] and [w] with coefficients that are not negative. *)
Definition cone (u w v : vec2 R) : Prop := exists al be, 0 <= al /\ 0 <= be /\ v = V2 (al * vx u + be * vx w) (al * vy u + be * vy w).

Lemma turn_unit a : unit (turn a).
Proof. unfold unit, dot, turn. cbn [vx vy]. pose proof (sin2_cos2 a) as H. unfold Rsqr in H. lra. Qed.

Lemma circle_moved c r a : circle_pt c r a = moved c (turn a) r.
Proof. reflexivity. Qed.

Lemma moved_inj c u v r : r <> 0 -> moved c u r = moved c v r -> u = v.
Proof.
  intros Hr E. pose proof (f_equal vx E) as X. pose proof (f_equal vy E) as Y. unfold moved in X, Y. cbn [vx vy] in X, Y.
  apply vec2_eq; apply Rmult_eq_reg_l with r; lra.
Qed.

Lemma cross_turn a b : cross (turn a) (turn b) = sin (b - a).
Proof. unfold cross, turn. cbn [vx vy]. rewrite sin_minus. ring. Qed.

(** Two independent directions: the coefficients of a third. *)
Lemma cone_of u w v : cross u w <> 0 -> 0 <= cross v w / cross u w -> 0 <= cross u v / cross u w -> cone u w v.
Proof.
  intros H A B. exists (cross v w / cross u w), (cross u v / cross u w). split; [exact A|]. split; [exact B|].
  apply vec2_eq; cbn [vx vy]; unfold cross in *; field; exact H.
Qed.

Lemma quot_same_sign x y : 0 <= x * y -> y <> 0 -> 0 <= x / y.
Proof.
  intros H N. replace (x / y) with (x * y / (y * y)) by (field; exact N). apply Rmult_le_pos; [exact H|]. apply Rlt_le, Rinv_0_lt_compat. destruct (Rdichotomy _ _ N); nra.
Qed.

Section Sweep.
Variables (al si : R).
Hypotheses (B : - PI < si < PI) (Nz : si <> 0).

Lemma sin_si : 0 < si * sin si.
Proof.
  destruct (Rdichotomy _ _ Nz) as [L|L].
  - assert (sin si < 0) by (apply sin_lt_0_var; lra). nra.
  - assert (0 < sin si) by (apply sin_gt_0; lra). nra.
Qed.

Lemma part_sign t : 0 <= t <= 1 -> 0 <= sin (t * si) * sin si.
Proof.
  intros Ht. destruct (Rdichotomy _ _ Nz) as [L|L].
  - assert (sin si < 0) by (apply sin_lt_0_var; lra). assert (sin (t * si) <= 0). { rewrite <- (Ropp_involutive (t * si)), sin_neg. assert (0 <= sin (- (t * si))) by (apply sin_ge_0; nra). lra. } nra.
  - assert (0 < sin si) by (apply sin_gt_0; lra). assert (0 <= sin (t * si)) by (apply sin_ge_0; nra). nra.
Qed.

(** The directions an arc passes. *)
Lemma sweep_cone t : 0 <= t <= 1 -> cone (turn al) (turn (al + si)) (turn (al + t * si)).
Proof.
  intros Ht. pose proof sin_si as P.
  apply cone_of; rewrite ?cross_turn.
  - replace (al + si - al) with si by ring. intros E. rewrite E in P. lra.
  - replace (al + si - (al + t * si)) with ((1 - t) * si) by ring. replace (al + si - al) with si by ring. apply quot_same_sign; [apply part_sign; lra|]. intros E. rewrite E in P. lra.
  - replace (al + t * si - al) with (t * si) by ring. replace (al + si - al) with si by ring. apply quot_same_sign; [apply part_sign; lra|]. intros E. rewrite E in P. lra.
Qed.

Lemma cone_sweep v : unit v -> cone (turn al) (turn (al + si)) v -> exists t, 0 <= t <= 1 /\ v = turn (al + t * si).
Proof.
  intros U (x & y & Hx & Hy & E). pose proof PI_pos as HP. pose proof sin_si as P.
  (* the angle from the first direction *)
  set (C := dot (turn al) v). set (S := cross (turn al) v).
  assert (CS : C * C + S * S = 1).
  { transitivity (dot (turn al) (turn al) * dot v v); [unfold C, S, dot, cross; ring|]. rewrite U. pose proof (turn_unit al) as T. unfold unit in T. rewrite T. ring. }
  assert (HCS : V2 C S <> V2 0 0). { intros Q. pose proof (f_equal vx Q). pose proof (f_equal vy Q). cbn [vx vy] in *. rewrite H, H0 in CS. lra. }
  assert (exists ph, - PI < ph <= PI /\ cos ph = C /\ sin ph = S) as (ph & Bp & Ec & Es).
  { destruct (angle_spec (V2 0 0) (V2 C S) HCS) as (rr & E1 & E2 & E3 & E4). cbn [vx vy] in E1.
    replace ((C - 0) * (C - 0) + (S - 0) * (S - 0)) with 1 in E1 by (rewrite !Rminus_0_r; lra). rewrite sqrt_1 in E1. subst rr.
    exists (angle (V2 0 0) (V2 C S)). split; [exact E4|]. pose proof (f_equal vx E3) as X. pose proof (f_equal vy E3) as Y. unfold circle_pt in X, Y. cbn [vx vy] in X, Y. split; lra. }
  assert (EV : v = turn (al + ph)).
  { unfold turn. rewrite cos_plus, sin_plus, Ec, Es. unfold C, S, dot, cross, turn. cbn [vx vy]. pose proof (sin2_cos2 al) as Q. unfold Rsqr in Q.
    apply vec2_eq; cbn [vx vy].
    - transitivity ((sin al * sin al + cos al * cos al) * vx v); [rewrite Q; ring|ring].
    - transitivity ((sin al * sin al + cos al * cos al) * vy v); [rewrite Q; ring|ring]. }
  assert (S1 : sin ph = y * sin si).
  { rewrite Es. unfold S. rewrite E. unfold cross. cbn [vx vy]. pose proof (cross_turn al (al + si)) as Q. replace (al + si - al) with si in Q by ring. rewrite <- Q. unfold cross. ring. }
  assert (S2 : sin (si - ph) = x * sin si).
  { pose proof (cross_turn (al + ph) (al + si)) as Q. replace (al + si - (al + ph)) with (si - ph) in Q by ring. rewrite <- Q, <- EV, E. unfold cross at 1. cbn [vx vy].
    pose proof (cross_turn al (al + si)) as Q'. replace (al + si - al) with si in Q' by ring. rewrite <- Q'. unfold cross. ring. }
  exists (ph / si). split; [|rewrite EV; f_equal; field; exact Nz].
  destruct (Rdichotomy _ _ Nz) as [L|L].
  - assert (Ss : sin si < 0) by (apply sin_lt_0_var; lra).
    assert (P1 : sin ph <= 0) by (rewrite S1; nra). assert (P2 : sin (si - ph) <= 0) by (rewrite S2; nra).
    assert (Q1 : ph <= 0 \/ ph = PI). { destruct (Rle_dec ph 0) as [|N]; [now left|]. right. apply Rle_antisym; [lra|]. apply Rnot_lt_le. intros G. assert (0 < sin ph) by (apply sin_gt_0; lra). lra. }
    destruct Q1 as [Q1| ->].
    + assert (Q2 : si <= ph). { apply Rnot_lt_le. intros G. assert (0 < sin (si - ph)) by (apply sin_gt_0; lra). lra. }
      split; [apply quot_same_sign; nra|]. apply Rmult_le_reg_r with (- si); [lra|]. unfold Rdiv. replace (ph * / si * - si) with (- ph) by (field; lra). lra.
    + exfalso. rewrite <- (Ropp_involutive (sin (si - PI))), <- sin_neg in P2. replace (- (si - PI)) with (PI + - si) in P2 by ring. assert (Z : sin (PI + - si) = - sin (- si)) by (rewrite Rplus_comm; apply neg_sin). rewrite Z, sin_neg in P2. assert (x = 0) by (apply Rle_antisym; [nra|exact Hx]). assert (y = 0). { rewrite sin_PI in S1. apply Rmult_eq_reg_r with (sin si); lra. }
      subst x y. unfold unit, dot in U. rewrite E in U. cbn [vx vy] in U. lra.
  - assert (Ss : 0 < sin si) by (apply sin_gt_0; lra).
    assert (P1 : 0 <= sin ph) by (rewrite S1; nra). assert (P2 : 0 <= sin (si - ph)) by (rewrite S2; nra).
    assert (Q1 : 0 <= ph). { apply Rnot_lt_le. intros G. assert (sin ph < 0) by (apply sin_lt_0_var; lra). lra. }
    assert (Q2 : ph <= si). { apply Rnot_lt_le. intros G. assert (sin (si - ph) < 0) by (apply sin_lt_0_var; lra). lra. }
    split; [apply quot_same_sign; nra|]. apply Rmult_le_reg_r with si; [lra|]. unfold Rdiv. replace (ph * / si * si) with ph by (field; lra). lra.
Qed.
End Sweep.

(** ** Directions a convex set lies behind *)
Section Behind.
Variables (e : R) (K : vec2 R -> Prop).
Hypothesis He : 0 < e.

Definition behind (p u : vec2 R) : Prop := K p /\ unit u /\ forall y, K y -> dot u (vec p y) <= 0.

Lemma behind_far p u y : behind p u -> K y -> e <= dist (moved p u e) y.
Proof.
  intros (_ & U & B) Ky. specialize (B y Ky). apply Rsqr_incr_0_var; [|apply sqrt_pos]. unfold Rsqr. rewrite dist_sqr. unfold unit, dot, vec, moved in *. cbn [vx vy] in *.
  set (a := vx y - vx p) in *. set (b := vy y - vy p) in *.
  replace (vx p + e * vx u - vx y) with (e * vx u - a) by (unfold a; ring). replace (vy p + e * vy u - vy y) with (e * vy u - b) by (unfold b; ring).
  replace (_ + _) with (e * e * (vx u * vx u + vy u * vy u) - 2 * e * (vx u * a + vy u * b) + (a * a + b * b)) by ring. rewrite U.
  pose proof (Rle_0_sqr a) as A. pose proof (Rle_0_sqr b) as B'. unfold Rsqr in *. assert (0 <= e * - (vx u * a + vy u * b)) by (apply Rmult_le_pos; lra). lra.
Qed.

(** Moving apart: both the points and the directions count. *)
Lemma behind_apart p u q v : behind p u -> behind q v ->
  dist p q * dist p q + e * e * (2 - 2 * dot u v) <= dist (moved p u e) (moved q v e) * dist (moved p u e) (moved q v e).
Proof.
  intros (Kp & U & B) (Kq & V & B'). specialize (B q Kq). specialize (B' p Kp). rewrite !dist_sqr. unfold unit, dot, vec, moved in *. cbn [vx vy] in *.
  set (a := vx q - vx p) in *. set (b := vy q - vy p) in *.
  replace (vx p - vx q) with (- a) in * by (unfold a; ring). replace (vy p - vy q) with (- b) in * by (unfold b; ring).
  replace (vx p + e * vx u - (vx q + e * vx v)) with (e * (vx u - vx v) - a) by (unfold a; ring). replace (vy p + e * vy u - (vy q + e * vy v)) with (e * (vy u - vy v) - b) by (unfold b; ring).
  assert (0 <= e * - (vx u * a + vy u * b)) by (apply Rmult_le_pos; lra). assert (0 <= e * - (vx v * - a + vy v * - b)) by (apply Rmult_le_pos; lra).
  replace ((e * (vx u - vx v) - a) * (e * (vx u - vx v) - a) + (e * (vy u - vy v) - b) * (e * (vy u - vy v) - b))
    with (e * e * ((vx u * vx u + vy u * vy u) + (vx v * vx v + vy v * vy v) - 2 * (vx u * vx v + vy u * vy v)) + (a * a + b * b) + 2 * (e * - (vx u * a + vy u * b)) + 2 * (e * - (vx v * - a + vy v * - b))) by ring.
  rewrite U, V. lra.
Qed.

Lemma unit_dot u v : unit u -> unit v -> dot u v <= 1.
Proof. unfold unit, dot. intros U V. pose proof (Rle_0_sqr (vx u - vx v)) as A. pose proof (Rle_0_sqr (vy u - vy v)) as B. unfold Rsqr in *. lra. Qed.

Lemma unit_dot_eq u v : unit u -> unit v -> 1 <= dot u v -> u = v.
Proof.
  unfold unit, dot. intros U V D. pose proof (Rle_0_sqr (vx u - vx v)) as A. pose proof (Rle_0_sqr (vy u - vy v)) as B. unfold Rsqr in *.
  assert (Za : (vx u - vx v) * (vx u - vx v) = 0) by lra. assert (Zb : (vy u - vy v) * (vy u - vy v) = 0) by lra.
  apply Rsqr_0_uniq in Za, Zb. apply vec2_eq; lra.
Qed.

Lemma behind_dist p u q v : behind p u -> behind q v -> dist p q <= dist (moved p u e) (moved q v e).
Proof.
  intros P Q. pose proof (behind_apart p u q v P Q) as A. destruct P as (_ & U & _). destruct Q as (_ & V & _). pose proof (unit_dot u v U V).
  apply Rsqr_incr_0_var; [|apply sqrt_pos]. unfold Rsqr. assert (0 <= e * e * (2 - 2 * dot u v)) by (apply Rmult_le_pos; [apply Rle_0_sqr|lra]). lra.
Qed.

Lemma behind_eq p u q v : behind p u -> behind q v -> moved p u e = moved q v e -> p = q /\ u = v.
Proof.
  intros P Q E. pose proof (behind_apart p u q v P Q) as A. rewrite E in A. replace (dist (moved q v e) (moved q v e)) with 0 in A by (symmetry; apply dist_eq_sqr; [lra|ring]).
  destruct P as (_ & U & _). destruct Q as (_ & V & _). pose proof (unit_dot u v U V) as D. assert (EE : 0 < e * e) by (apply Rmult_lt_0_compat; exact He).
  assert (0 <= e * e * (2 - 2 * dot u v)) by (apply Rmult_le_pos; lra). pose proof (Rle_0_sqr (dist p q)) as S. unfold Rsqr in S. rewrite Rmult_0_r in A.
  split.
  - assert (Z : dist p q * dist p q = 0) by lra. rewrite dist_sqr in Z. pose proof (Rle_0_sqr (vx p - vx q)) as S1. pose proof (Rle_0_sqr (vy p - vy q)) as S2. unfold Rsqr in *.
    assert (Za : (vx p - vx q) * (vx p - vx q) = 0) by lra. assert (Zb : (vy p - vy q) * (vy p - vy q) = 0) by lra. apply Rsqr_0_uniq in Za, Zb. apply vec2_eq; lra.
  - apply unit_dot_eq; auto. apply Rnot_lt_le. intros L. assert (0 < e * e * (2 - 2 * dot u v)) by (apply Rmult_lt_0_compat; lra). lra.
Qed.
End Behind.
