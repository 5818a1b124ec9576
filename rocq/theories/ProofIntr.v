(** Primitive intersections over the reals (C20, C21, C22). *)
From Coq Require Import Reals ZArith Bool List Lra Lia Psatz.
From Verif Require Import Num RNum ModelMath ModelIntr ModelSeg SpecGeom SpecIntr ProofR ProofArc.
Local Open Scope R_scope.


Lemma fuzzy_in_range_R a mn mx eps : fuzzy_in_range_eps a mn mx eps = true <-> mn < a + eps /\ a < mx + eps.
Proof.
  unfold fuzzy_in_range_eps, fuzzy_gt_eps, fuzzy_lt_eps. rewrite andb_true_iff. rnum. rewrite !rltb_true. tauto.
Qed.

Lemma v2length_R (a : vec2 R) : v2length a = sqrt (vx a * vx a + vy a * vy a).
Proof. reflexivity. Qed.

Lemma dist_v2length p q : v2length (v2sub q p) = dist p q.
Proof. unfold v2length, v2dot, v2sub, dist. rnum. f_equal. ring. Qed.

(** ** C20 *)

Lemma line_line_nonparallel v1 v2 u1 u2 eps : 0 < eps -> eps <= Rabs (cross (vec v1 v2) (vec u1 u2)) ->
  exists s t, line_pt v1 v2 s = line_pt u1 u2 t
    /\ (forall s' t', line_pt v1 v2 s' = line_pt u1 u2 t' -> s' = s /\ t' = t)
    /\ ((in_range s (dist v1 v2) eps /\ in_range t (dist u1 u2) eps)
         /\ line_line_intr v1 v2 u1 u2 eps = LLTrueIntersect s t
       \/ ~ (in_range s (dist v1 v2) eps /\ in_range t (dist u1 u2) eps)
          /\ line_line_intr v1 v2 u1 u2 eps = LLFalseIntersect s t).
Proof.
  intros He Hc.
  assert (Hz : cross (vec v1 v2) (vec u1 u2) <> 0).
  { intros Z. rewrite Z, Rabs_R0 in Hc. lra. }
  set (D := cross (vec v1 v2) (vec u1 u2)) in *.
  set (w := vec u1 v1).
  exists (cross (vec u1 u2) w / D), (cross (vec v1 v2) w / D).
  unfold cross, vec in D. unfold w, cross, vec. clear w. cbn [vx vy] in *.
  set (s := _ / D). set (t := ((_ - _) * (vy v1 - vy u1) - _) / D).
  split; [|split].
  - unfold line_pt. apply vec2_eq; cbn [vx vy]; unfold s, t, D; field; exact Hz.
  - intros s' t' E. unfold line_pt in E. injection E as E1 E2.
    assert (B1 : s' * (vx v2 - vx v1) = vx u1 + t' * (vx u2 - vx u1) - vx v1) by lra.
    assert (B2 : s' * (vy v2 - vy v1) = vy u1 + t' * (vy u2 - vy u1) - vy v1) by lra.
    assert (B3 : t' * (vx u2 - vx u1) = vx v1 + s' * (vx v2 - vx v1) - vx u1) by lra.
    assert (B4 : t' * (vy u2 - vy u1) = vy v1 + s' * (vy v2 - vy v1) - vy u1) by lra.
    assert (A1 : s' * D = (vx u2 - vx u1) * (vy v1 - vy u1) - (vy u2 - vy u1) * (vx v1 - vx u1)).
    { unfold D. transitivity (s' * (vx v2 - vx v1) * (vy u2 - vy u1) - s' * (vy v2 - vy v1) * (vx u2 - vx u1)); [ring|].
      rewrite B1, B2. ring. }
    assert (A2 : t' * D = (vx v2 - vx v1) * (vy v1 - vy u1) - (vy v2 - vy v1) * (vx v1 - vx u1)).
    { unfold D. transitivity (t' * (vy u2 - vy u1) * (vx v2 - vx v1) - t' * (vx u2 - vx u1) * (vy v2 - vy v1)); [ring|].
      rewrite B3, B4. ring. }
    unfold s, t. rewrite <- A1, <- A2. unfold Rdiv. rewrite !Rmult_assoc, !Rinv_r, !Rmult_1_r by exact Hz. auto.
  - unfold line_line_intr.
    assert (E0 : fuzzy_eq_zero_eps (v2perp_dot (v2sub v2 v1) (v2sub u2 u1)) eps = false).
    { unfold fuzzy_eq_zero_eps, v2perp_dot, v2sub. rnum. apply rltb_false. exact Hc. }
    rewrite E0. cbn [negb].
    change (v2perp_dot (v2sub u2 u1) (v2sub v1 u1) / v2perp_dot (v2sub v2 v1) (v2sub u2 u1))%num with s.
    change (v2perp_dot (v2sub v2 v1) (v2sub v1 u1) / v2perp_dot (v2sub v2 v1) (v2sub u2 u1))%num with t.
    rewrite !dist_v2length. rnum.
    assert (IR : forall a L, in_range a L eps <-> fuzzy_in_range_eps (a * L) 0 L eps = true).
    { intros a L. rewrite fuzzy_in_range_R. unfold in_range. split; intros [A B]; split; lra. }
    destruct (fuzzy_in_range_eps (s * dist v1 v2) 0 (dist v1 v2) eps) eqn:F1;
      destruct (fuzzy_in_range_eps (t * dist u1 u2) 0 (dist u1 u2) eps) eqn:F2; cbn [negb orb].
    + left. rewrite !IR. auto.
    + right. rewrite !IR, F1, F2. split; [intros [_ H]; discriminate|reflexivity].
    + right. rewrite !IR, F1, F2. split; [intros [H _]; discriminate|reflexivity].
    + right. rewrite !IR, F1, F2. split; [intros [H _]; discriminate|reflexivity].
Qed.

(** The parallel branch. *)
Lemma line_line_parallel_kind v1 v2 u1 u2 eps : 0 < eps -> Rabs (cross (vec v1 v2) (vec u1 u2)) < eps ->
  (forall s t, line_line_intr v1 v2 u1 u2 eps <> LLFalseIntersect s t)
  /\ (forall t0 t1, line_line_intr v1 v2 u1 u2 eps = LLOverlapping t0 t1 -> 0 <= t0 /\ t0 < t1 /\ t1 <= 1).
Proof.
  intros He Hc. unfold line_line_intr.
  assert (E0 : fuzzy_eq_zero_eps (v2perp_dot (v2sub v2 v1) (v2sub u2 u1)) eps = true).
  { unfold fuzzy_eq_zero_eps, v2perp_dot, v2sub. rnum. apply rltb_true. exact Hc. }
  rewrite E0. cbn [negb].
  destruct (negb _ || negb _); [split; intros; discriminate|].
  set (L := v2length (v2sub u2 u1)).
  assert (HL : 0 <= L) by (apply sqrt_pos).
  destruct (v2fuzzy_eq_eps v1 v2 eps); destruct (v2fuzzy_eq_eps u1 u2 eps); cbn [andb].
  - destruct (v2fuzzy_eq_eps v1 u1 eps); split; intros; discriminate.
  - destruct (fuzzy_in_range_eps _ _ _ _); split; intros; discriminate.
  - destruct (fuzzy_in_range_eps _ _ _ _); split; intros; discriminate.
  - destruct (if fuzzy_eq_zero_eps (vx (v2sub u2 u1)) eps then _ else _) as [a0 a1].
    assert (exists b0 b1, (if nltb a1 a0 then (a1, a0) else (a0, a1)) = (b0, b1) /\ b0 <= b1) as (b0 & b1 & -> & Hb).
    { rnum. destruct (rltb_spec a1 a0); eexists; eexists; (split; [reflexivity|lra]). }
    unfold fuzzy_lt_eps, fuzzy_gt_eps, fuzzy_eq_zero_eps. rnum.
    destruct (rltb_spec (b0 * L) (L + eps)) as [H1|H1]; cbn [negb orb]; [|split; intros; discriminate].
    destruct (rltb_spec 0 (b1 * L + eps)) as [H2|H2]; cbn [negb]; [|split; intros; discriminate].
    destruct (rltb_spec (Rabs ((Rmin b1 1 - Rmax b0 0) * L)) eps) as [H3|H3]; [split; intros; discriminate|].
    split; [intros; discriminate|]. intros t0 t1 E. injection E as <- <-.
    split; [apply Rmax_r|]. split; [|apply Rmin_r].
    destruct (Rlt_dec (Rmax b0 0) (Rmin b1 1)) as [G|G]; [exact G|exfalso].
    assert (K : Rabs ((Rmin b1 1 - Rmax b0 0) * L) = (Rmax b0 0 - Rmin b1 1) * L).
    { rewrite Rabs_left1 by nra. ring. }
    rewrite K in H3. unfold Rmax, Rmin in *.
    destruct (Rle_dec b0 0), (Rle_dec b1 1); nra.
Qed.

(** Exactly collinear segments: everything is a parameter on the second segment. *)
Lemma collinear_param u1 u2 q : u1 <> u2 -> cross (vec u1 u2) (vec u1 q) = 0 ->
  exists a, q = line_pt u1 u2 a.
Proof.
  unfold cross, vec. cbn [vx vy]. intros Hu H.
  destruct (Req_dec (vx u2 - vx u1) 0) as [Z|Z].
  - assert (Y : vy u2 - vy u1 <> 0).
    { intros Y. apply Hu. apply vec2_eq; lra. }
    exists ((vy q - vy u1) / (vy u2 - vy u1)). unfold line_pt. apply vec2_eq; cbn [vx vy].
    + rewrite Z in *. assert (vx q - vx u1 = 0) by (apply (Rmult_eq_reg_l (vy u2 - vy u1)); [lra|exact Y]). lra.
    + field. exact Y.
  - exists ((vx q - vx u1) / (vx u2 - vx u1)). unfold line_pt. apply vec2_eq; cbn [vx vy].
    + field. exact Z.
    + apply (Rmult_eq_reg_l (vx u2 - vx u1)); [|exact Z].
      transitivity ((vx u2 - vx u1) * vy u1 + (vx q - vx u1) * (vy u2 - vy u1)); [lra|field; exact Z].
Qed.

Lemma line_pt_inj u1 u2 a b : u1 <> u2 -> line_pt u1 u2 a = line_pt u1 u2 b -> a = b.
Proof.
  intros Hu E. unfold line_pt in E. injection E as E1 E2.
  destruct (vec2_neq _ _ Hu) as [N|N].
  - apply (Rmult_eq_reg_r (vx u2 - vx u1)); lra.
  - apply (Rmult_eq_reg_r (vy u2 - vy u1)); lra.
Qed.

Lemma line_pt_comb u1 u2 a b s :
  line_pt (line_pt u1 u2 a) (line_pt u1 u2 b) s = line_pt u1 u2 (a + s * (b - a)).
Proof. unfold line_pt. cbn [vx vy]. f_equal; ring. Qed.

Lemma dist_line_pt u1 u2 a b : dist (line_pt u1 u2 a) (line_pt u1 u2 b) = Rabs (a - b) * dist u1 u2.
Proof.
  unfold dist, line_pt. cbn [vx vy].
  match goal with |- sqrt ?x = _ => replace x with ((a - b) * (a - b) * ((vx u1 - vx u2) * (vx u1 - vx u2) + (vy u1 - vy u2) * (vy u1 - vy u2))) by ring end.
  rewrite sqrt_mult_alt by (apply Rle_0_sqr). f_equal. change ((a - b) * (a - b)) with (Rsqr (a - b)). apply sqrt_Rsqr_abs.
Qed.

Lemma v2fuzzy_R (a b : vec2 R) eps :
  v2fuzzy_eq_eps a b eps = true <-> Rabs (vx a - vx b) < eps /\ Rabs (vy a - vy b) < eps.
Proof. unfold v2fuzzy_eq_eps, fuzzy_eq_eps. rewrite andb_true_iff. rnum. rewrite !rltb_true. tauto. Qed.

Lemma v2fuzzy_dist_true a b eps : v2fuzzy_eq_eps a b eps = true -> dist a b < 3 / 2 * eps.
Proof.
  intros H. apply v2fuzzy_R in H as [H1 H2]. pose proof (Rabs_pos (vx a - vx b)). 
  apply Rabs_def2 in H1. apply Rabs_def2 in H2.
  unfold dist. rewrite <- (sqrt_square (3 / 2 * eps)) by lra. apply sqrt_lt_1; [apply sumsq_nonneg|nra|].
  set (x := vx a - vx b) in *. set (y := vy a - vy b) in *. nra.
Qed.

Lemma v2fuzzy_dist_false a b eps : 0 < eps -> v2fuzzy_eq_eps a b eps = false -> eps <= dist a b.
Proof.
  intros He H. destruct (Rle_dec eps (dist a b)) as [G|G]; [exact G|exfalso].
  assert (D : dist a b < eps) by lra. clear G.
  assert (v2fuzzy_eq_eps a b eps = true); [|congruence]. apply v2fuzzy_R.
  unfold dist in D. rewrite <- (sqrt_square eps) in D by lra. apply sqrt_lt_0_alt in D.
  set (x := vx a - vx b) in *. set (y := vy a - vy b) in *.
  split; apply Rabs_def1; nra.
Qed.

Lemma fuzzy_false_neq a b eps : 0 < eps -> v2fuzzy_eq_eps a b eps = false -> a <> b.
Proof.
  intros He H E. subst b. assert (v2fuzzy_eq_eps a a eps = true); [|congruence].
  apply v2fuzzy_R. rewrite !Rminus_diag_eq by reflexivity. rewrite Rabs_R0. lra.
Qed.

Lemma line_line_collinear v1 v2 u1 u2 eps :
  0 < eps ->
  cross (vec u1 u2) (vec u1 v1) = 0 -> cross (vec u1 u2) (vec u1 v2) = 0 ->
  v2fuzzy_eq_eps v1 v2 eps = false -> v2fuzzy_eq_eps u1 u2 eps = false ->
  match line_line_intr v1 v2 u1 u2 eps with
  | LLOverlapping t0 t1 =>
      (forall t, t0 <= t <= t1 -> exists s, 0 <= s <= 1 /\ line_pt v1 v2 s = line_pt u1 u2 t)
      /\ (forall s t, 0 <= s <= 1 -> 0 <= t <= 1 -> line_pt v1 v2 s = line_pt u1 u2 t -> t0 <= t <= t1)
  | LLNoIntersect =>
      forall s t, 0 <= s <= 1 -> 0 <= t <= 1 -> line_pt v1 v2 s <> line_pt u1 u2 t
  | LLTrueIntersect s t =>
      dist (line_pt v1 v2 s) (line_pt u1 u2 t) <= 3 * eps
      /\ (s = 0 \/ s = 1) /\ in_range t (dist u1 u2) eps
  | LLFalseIntersect _ _ => False
  end.
Proof.
  intros He C1 C2 Fv Fu.
  pose proof (fuzzy_false_neq _ _ _ He Fu) as Hu.
  destruct (collinear_param u1 u2 v1 Hu C1) as (a0 & E1).
  destruct (collinear_param u1 u2 v2 Hu C2) as (a1 & E2).
  assert (P1 : v2perp_dot (v2sub v2 v1) (v2sub u2 u1) = 0).
  { rewrite E1, E2. unfold v2perp_dot, v2sub, line_pt. rnum. ring. }
  assert (P2 : v2perp_dot (v2sub v2 v1) (v2sub v1 u1) = 0).
  { rewrite E1, E2. unfold v2perp_dot, v2sub, line_pt. rnum. ring. }
  assert (P3 : v2perp_dot (v2sub u2 u1) (v2sub v1 u1) = 0).
  { rewrite E1. unfold v2perp_dot, v2sub, line_pt. rnum. ring. }
  assert (Z : fuzzy_eq_zero_eps 0 eps = true).
  { unfold fuzzy_eq_zero_eps. rnum. apply rltb_true. rewrite Rabs_R0. exact He. }
  unfold line_line_intr. rewrite P1, P2, P3, Z, Fv, Fu. cbn [negb orb andb].
  rewrite !dist_v2length. set (L := dist u1 u2).
  assert (EA : (if fuzzy_eq_zero_eps (vx (v2sub u2 u1)) eps
          then ((vy (v2sub v1 u1) / vy (v2sub u2 u1))%num, (vy (v2sub v2 u1) / vy (v2sub u2 u1))%num)
          else ((vx (v2sub v1 u1) / vx (v2sub u2 u1))%num, (vx (v2sub v2 u1) / vx (v2sub u2 u1))%num)) = (a0, a1)).
  { unfold fuzzy_eq_zero_eps, v2sub. rnum. rewrite E1, E2. unfold line_pt. cbn [vx vy].
    destruct (rltb_spec (Rabs (vx u2 - vx u1)) eps) as [X|X].
    - assert (Y : vy u2 - vy u1 <> 0).
      { intros Y. assert (v2fuzzy_eq_eps u1 u2 eps = true); [|congruence]. apply v2fuzzy_R.
        rewrite Rabs_minus_sym. split; [exact X|]. replace (vy u1 - vy u2) with 0 by lra. rewrite Rabs_R0. exact He. }
      f_equal; field; exact Y.
    - assert (Y : vx u2 - vx u1 <> 0).
      { intros Y. rewrite Y, Rabs_R0 in X. lra. }
      f_equal; field; exact Y. }
  rewrite EA. clear EA P1 P2 P3 Z C1 C2.
  assert (HL : eps <= L) by (apply v2fuzzy_dist_false; assumption).
  assert (Hv : eps <= Rabs (a0 - a1) * L).
  { unfold L. rewrite <- dist_line_pt, <- E1, <- E2. apply v2fuzzy_dist_false; assumption. }
  assert (Hline : forall s, line_pt v1 v2 s = line_pt u1 u2 (a0 + s * (a1 - a0))).
  { intros s. rewrite E1, E2. apply line_pt_comb. }
  assert (Hmeet : forall s t, line_pt v1 v2 s = line_pt u1 u2 t <-> t = a0 + s * (a1 - a0)).
  { intros s t. rewrite Hline. split; [intros E; symmetry; exact (line_pt_inj _ _ _ _ Hu E)|intros ->; reflexivity]. }
  assert (Dv1u1 : v2fuzzy_eq_eps v1 u1 eps = true -> Rabs a0 * L < 3 / 2 * eps).
  { intros H. apply v2fuzzy_dist_true in H. rewrite E1 in H.
    assert (U : u1 = line_pt u1 u2 0) by (unfold line_pt; apply vec2_eq; cbn; ring).
    assert (D : dist (line_pt u1 u2 a0) u1 = Rabs (a0 - 0) * dist u1 u2) by (rewrite <- dist_line_pt; f_equal; exact U).
    rewrite D, Rminus_0_r in H. exact H. }
  assert (Dv1u2 : v2fuzzy_eq_eps v1 u2 eps = true -> Rabs (a0 - 1) * L < 3 / 2 * eps).
  { intros H. apply v2fuzzy_dist_true in H. rewrite E1 in H.
    assert (U : u2 = line_pt u1 u2 1) by (unfold line_pt; apply vec2_eq; cbn; ring).
    assert (D : dist (line_pt u1 u2 a0) u2 = Rabs (a0 - 1) * dist u1 u2) by (rewrite <- dist_line_pt; f_equal; exact U).
    rewrite D in H. exact H. }
  assert (Nv1u1 : v2fuzzy_eq_eps v1 u1 eps = false -> eps <= Rabs a0 * L).
  { intros H. apply v2fuzzy_dist_false in H; [|exact He]. rewrite E1 in H.
    assert (U : u1 = line_pt u1 u2 0) by (unfold line_pt; apply vec2_eq; cbn; ring).
    assert (D : dist (line_pt u1 u2 a0) u1 = Rabs (a0 - 0) * dist u1 u2) by (rewrite <- dist_line_pt; f_equal; exact U).
    rewrite D, Rminus_0_r in H. exact H. }
  assert (Nv1u2 : v2fuzzy_eq_eps v1 u2 eps = false -> eps <= Rabs (a0 - 1) * L).
  { intros H. apply v2fuzzy_dist_false in H; [|exact He]. rewrite E1 in H.
    assert (U : u2 = line_pt u1 u2 1) by (unfold line_pt; apply vec2_eq; cbn; ring).
    assert (D : dist (line_pt u1 u2 a0) u2 = Rabs (a0 - 1) * dist u1 u2) by (rewrite <- dist_line_pt; f_equal; exact U).
    rewrite D in H. exact H. }
  assert (Dist : forall s t, dist (line_pt v1 v2 s) (line_pt u1 u2 t) = Rabs (a0 + s * (a1 - a0) - t) * L).
  { intros s t. rewrite Hline. apply dist_line_pt. }
  clear E1 E2 Hline. clearbody L.
  unfold fuzzy_lt_eps, fuzzy_gt_eps, fuzzy_eq_zero_eps. rnum.
  assert (HLp : 0 < L) by lra.
  assert (HB : exists b0 b1, (if rltb a1 a0 then (a1, a0) else (a0, a1)) = (b0, b1)
             /\ ((a0 <= a1 /\ b0 = a0 /\ b1 = a1) \/ (a1 < a0 /\ b0 = a1 /\ b1 = a0))).
  { destruct (rltb_spec a1 a0); eexists; eexists; (split; [reflexivity|]); [right|left]; repeat split; lra. }
  destruct HB as (b0 & b1 & -> & HB).
  assert (Hle : b0 <= b1) by lra.
  assert (HBL : eps <= (b1 - b0) * L).
  { destruct HB as [(H & -> & ->)|(H & -> & ->)]; [rewrite Rabs_left1 in Hv by lra|rewrite Rabs_right in Hv by lra]; lra. }
  destruct (rltb_spec (b0 * L) (L + eps)) as [H1|H1]; cbn [negb orb].
  2:{ intros s t Hs Ht E. apply Hmeet in E.
      assert (Hb0 : 1 < b0) by nra. destruct HB as [(H & -> & ->)|(H & -> & ->)]; nra. }
  destruct (rltb_spec 0 (b1 * L + eps)) as [H2|H2]; cbn [negb].
  2:{ intros s t Hs Ht E. apply Hmeet in E.
      assert (Hb1 : b1 < 0) by nra. destruct HB as [(H & -> & ->)|(H & -> & ->)]; nra. }
  set (t0 := Rmax b0 0). set (t1 := Rmin b1 1).
  destruct (rltb_spec (Rabs ((t1 - t0) * L)) eps) as [H3|H3].
  - (* a single touching point *)
    split; [|split; [destruct (v2fuzzy_eq_eps v1 u1 eps || v2fuzzy_eq_eps v1 u2 eps); auto|];
             unfold in_range, t0, Rmax; destruct (Rle_dec b0 0); nra].
    rewrite Dist.
    assert (Hs1 : let s := if v2fuzzy_eq_eps v1 u1 eps || v2fuzzy_eq_eps v1 u2 eps then 0 else 1 in
              (s = 0 /\ (Rabs a0 * L < 3 / 2 * eps \/ Rabs (a0 - 1) * L < 3 / 2 * eps))
              \/ (s = 1 /\ eps <= Rabs a0 * L /\ eps <= Rabs (a0 - 1) * L)).
    { destruct (v2fuzzy_eq_eps v1 u1 eps) eqn:K1; cbn [orb]; [left; auto|].
      destruct (v2fuzzy_eq_eps v1 u2 eps) eqn:K2; [left; auto|]. right. split; [reflexivity|]. split; [now apply Nv1u1|now apply Nv1u2]. }
    cbv zeta in Hs1. set (s := if v2fuzzy_eq_eps v1 u1 eps || v2fuzzy_eq_eps v1 u2 eps then 0 else 1) in *.
    clearbody s.
    assert (AbsL : forall x y, Rabs x * L < y <-> x * L < y /\ - (x * L) < y).
    { intros x y. rewrite <- (Rabs_pos_eq L) at 1 by lra. rewrite <- Rabs_mult. split.
      - intros H. apply Rabs_def2 in H. lra.
      - intros H. apply Rabs_def1; lra. }
    assert (AbsL' : forall x y, y <= Rabs x * L <-> y <= x * L \/ y <= - (x * L)).
    { intros x y. split.
      - intros H. destruct (Rle_dec y (x * L)); [auto|]. destruct (Rle_dec y (- (x * L))); [auto|].
        exfalso. assert (Rabs x * L < y) by (apply AbsL; lra). lra.
      - intros H. destruct (Rle_dec y (Rabs x * L)) as [G|G]; [exact G|].
        assert (G' : Rabs x * L < y) by lra. apply AbsL in G'. lra. }
    assert (Goal_ : Rabs (a0 + s * (a1 - a0) - t0) * L < 3 * eps); [|lra].
    apply AbsL. rewrite !AbsL, !AbsL' in Hs1.
    rewrite Rabs_mult, (Rabs_pos_eq L), AbsL in H3 by lra.
    assert (Sgn : forall x y, (x <= y -> x * L <= y * L) /\ (x < y -> x * L < y * L)) by (intros; split; intros; nra).
    destruct HB as [(H & Eb0 & Eb1)|(H & Eb0 & Eb1)]; unfold t0, t1, Rmax, Rmin in *; rewrite Eb0, Eb1 in *;
      repeat match goal with
      | |- context [Rle_dec ?x ?y] => destruct (Rle_dec x y)
      | H : context [Rle_dec ?x ?y] |- _ => destruct (Rle_dec x y)
      end;
      repeat match goal with
      | H : ?x <= ?y |- _ => lazymatch goal with
           | _ : x * L <= y * L |- _ => fail
           | _ => match x with 0 => idtac | a0 => idtac | a1 => idtac | 1 => idtac end;
                  match y with 0 => idtac | a0 => idtac | a1 => idtac | 1 => idtac end;
                  pose proof (proj1 (Sgn x y) H)
           end
      | H : ~ ?x <= ?y |- _ => apply Rnot_le_lt in H; pose proof (proj2 (Sgn _ _) H)
      end;
      (destruct Hs1 as [(Es & K)|(Es & K)]; rewrite Es in *; lra).
  - assert (Hord : t0 < t1).
    { destruct (Rlt_dec t0 t1) as [G|G]; [exact G|exfalso].
      rewrite Rabs_left1 in H3 by nra. unfold t0, t1, Rmax, Rmin in *.
      destruct (Rle_dec b0 0), (Rle_dec b1 1); nra. }
    assert (T0 : b0 <= t0 /\ 0 <= t0 /\ (t0 = b0 \/ t0 = 0)) by (unfold t0, Rmax; destruct (Rle_dec b0 0); lra).
    assert (T1 : t1 <= b1 /\ t1 <= 1 /\ (t1 = b1 \/ t1 = 1)) by (unfold t1, Rmin; destruct (Rle_dec b1 1); lra).
    assert (Hpos : 0 < b1 - b0) by nra.
    split.
    + intros t Ht. exists ((t - a0) / (a1 - a0)). rewrite Hmeet. 
      destruct HB as [(H & -> & ->)|(H & -> & ->)].
      * split; [|field; lra]. split.
        -- apply Rmult_le_pos; [lra|left; apply Rinv_0_lt_compat; lra].
        -- apply (Rmult_le_reg_r (a1 - a0)); [lra|]. unfold Rdiv. rewrite Rmult_assoc, Rinv_l by lra. lra.
      * split; [|field; lra]. replace ((t - a0) / (a1 - a0)) with ((a0 - t) / (a0 - a1)) by (field; lra). split.
        -- apply Rmult_le_pos; [lra|left; apply Rinv_0_lt_compat; lra].
        -- apply (Rmult_le_reg_r (a0 - a1)); [lra|]. unfold Rdiv. rewrite Rmult_assoc, Rinv_l by lra. lra.
    + intros s t Hs Ht E. apply Hmeet in E. destruct HB as [(H & -> & ->)|(H & -> & ->)]; nra.
Qed.

(** ** C21 *)
Lemma parametric_spec p0 p1 q eps : p0 <> p1 -> cross (vec p0 p1) (vec p0 q) = 0 ->
  line_pt p0 p1 (parametric_from_point p0 p1 q eps) = q.
Proof.
  intros Hp Hc. destruct (collinear_param _ _ _ Hp Hc) as (t & E).
  assert (G : parametric_from_point p0 p1 q eps = t); [|now rewrite G].
  unfold parametric_from_point. rewrite E. unfold line_pt. rnum.
  destruct (vec2_neq _ _ Hp) as [N|N].
  - destruct (rltb_spec (Rabs (vx p1 - vx p0)) (Rabs (vy p1 - vy p0))) as [L|L].
    + assert (vy p1 - vy p0 <> 0). { intros Z. rewrite Z, Rabs_R0 in L. pose proof (Rabs_pos (vx p1 - vx p0)). lra. }
      field. assumption.
    + field. lra.
  - destruct (rltb_spec (Rabs (vx p1 - vx p0)) (Rabs (vy p1 - vy p0))) as [L|L].
    + field. lra.
    + assert (vx p1 - vx p0 <> 0).
      { intros Z. rewrite Z, Rabs_R0 in L. apply N. destruct (Req_dec (vy p0 - vy p1) 0) as [K|K]; [exact K|].
        assert (0 < Rabs (vy p1 - vy p0)) by (apply Rabs_pos_lt; lra). lra. }
      field. assumption.
Qed.

(** Distance of a point from the line through two points. *)
Definition line_dist (p0 p1 c : vec2 R) : R := Rabs (cross (vec p0 p1) (vec p0 c)) / dist p0 p1.

Definition on_line (a b k : R) (q c : vec2 R) : Prop := a * (vx q - vx c) + b * (vy q - vy c) + k = 0.

Lemma on_line_pt a b k p0 p1 c t : on_line a b k p0 c -> on_line a b k p1 c -> on_line a b k (line_pt p0 p1 t) c.
Proof.
  unfold on_line, line_pt. cbn [vx vy]. intros H0 H1.
  transitivity ((1 - t) * (a * (vx p0 - vx c) + b * (vy p0 - vy c) + k) + t * (a * (vx p1 - vx c) + b * (vy p1 - vy c) + k)); [ring|].
  rewrite H0, H1. ring.
Qed.

Lemma on_line_cross a b k p0 p1 q c : (a <> 0 \/ b <> 0) ->
  on_line a b k p0 c -> on_line a b k p1 c -> on_line a b k q c -> cross (vec p0 p1) (vec p0 q) = 0.
Proof.
  unfold on_line, cross, vec. cbn [vx vy]. intros H H0 H1 H2.
  assert (A1 : a * (vx p1 - vx p0) = - (b * (vy p1 - vy p0))) by lra.
  assert (A2 : a * (vx q - vx p0) = - (b * (vy q - vy p0))) by lra.
  destruct H as [H|H].
  - apply (Rmult_eq_reg_l a); [|exact H].
    transitivity (a * (vx p1 - vx p0) * (vy q - vy p0) - (vy p1 - vy p0) * (a * (vx q - vx p0))); [ring|].
    rewrite A1, A2. ring.
  - apply (Rmult_eq_reg_l b); [|exact H].
    transitivity ((vx p1 - vx p0) * (b * (vy q - vy p0)) - (b * (vy p1 - vy p0)) * (vx q - vx p0)); [ring|].
    replace (b * (vy q - vy p0)) with (- (a * (vx q - vx p0))) by lra.
    replace (b * (vy p1 - vy p0)) with (- (a * (vx p1 - vx p0))) by lra. ring.
Qed.

(** The distance from the implicit equation. *)
Lemma line_dist_implicit a b k p0 p1 c : (a <> 0 \/ b <> 0) -> p0 <> p1 ->
  on_line a b k p0 c -> on_line a b k p1 c ->
  Rabs k / sqrt (a * a + b * b) = line_dist p0 p1 c.
Proof.
  intros Hab Hp H0 H1. pose proof (sumsq_pos a b Hab) as Hn. pose proof (sqrt_lt_R0 _ Hn) as Hs.
  assert (Hd : 0 < dist p0 p1) by (apply sqrt_lt_R0; apply sumsq_pos; apply (vec2_neq _ _ Hp)).
  unfold line_dist. apply (Rmult_eq_reg_r (sqrt (a * a + b * b) * dist p0 p1)).
  2:{ apply Rgt_not_eq. apply Rmult_lt_0_compat; assumption. }
  transitivity (Rabs k * dist p0 p1); [field; lra|].
  transitivity (Rabs (cross (vec p0 p1) (vec p0 c)) * sqrt (a * a + b * b)); [|field; lra].
  (* square both sides *)
  apply Rsqr_inj.
  - apply Rmult_le_pos; [apply Rabs_pos|lra].
  - apply Rmult_le_pos; [apply Rabs_pos|lra].
  - rewrite !Rsqr_mult, <- !Rsqr_abs, Rsqr_sqrt by lra. unfold dist. rewrite Rsqr_sqrt by apply sumsq_nonneg.
    unfold on_line, cross, vec in *. cbn [vx vy] in *.
    set (X := vx p1 - vx p0). set (Y := vy p1 - vy p0). set (x := vx p0 - vx c) in *. set (y := vy p0 - vy c) in *.
    assert (AX : a * X + b * Y = 0) by (unfold X, Y, x, y in *; lra).
    assert (Ek : k = - (a * x + b * y)) by lra.
    replace ((vx p0 - vx p1) * (vx p0 - vx p1) + (vy p0 - vy p1) * (vy p0 - vy p1)) with (X * X + Y * Y) by (unfold X, Y; ring).
    replace (X * (vy c - vy p0) - Y * (vx c - vx p0)) with (Y * x - X * y) by (unfold x, y; ring).
    rewrite Ek. unfold Rsqr.
    (* (ax+by)^2 (X^2+Y^2) - (Yx-Xy)^2 (a^2+b^2) is a multiple of aX+bY *)
    transitivity (((a * x + b * y) * X) * ((a * x + b * y) * X) + ((a * x + b * y) * Y) * ((a * x + b * y) * Y)); [ring|].
    replace ((a * x + b * y) * X) with (x * (a * X + b * Y) - b * (Y * x - X * y)) by ring.
    replace ((a * x + b * y) * Y) with (y * (a * X + b * Y) + a * (Y * x - X * y)) by ring.
    rewrite AX. ring.
Qed.

(** Solving the implicit line against the circle. *)
Lemma foot_props a b k c : (a <> 0 \/ b <> 0) ->
  let n := a * a + b * b in
  let q := V2 (- a * k / n + vx c) (- b * k / n + vy c) in
  on_line a b k q c /\ dist q c = Rabs k / sqrt n.
Proof.
  intros Hab n q. pose proof (sumsq_pos a b Hab) as Hn. fold n in Hn. split.
  - unfold on_line, q. cbn [vx vy]. replace (- a * k / n + vx c - vx c) with (- a * k / n) by ring.
    replace (- b * k / n + vy c - vy c) with (- b * k / n) by ring. unfold n in *. field. lra.
  - unfold dist, q. cbn [vx vy].
    match goal with |- sqrt ?x = _ => replace x with ((k * k) / n) by (unfold n in *; field; lra) end.
    rewrite sqrt_div_alt by exact Hn. f_equal. change (k * k) with (Rsqr k). apply sqrt_Rsqr_abs.
Qed.

Lemma chord_solutions a b k c r : (a <> 0 \/ b <> 0) ->
  let n := a * a + b * b in
  let mult := sqrt (Rabs ((r * r - k * k / n) / n)) in
  Rabs k / sqrt n < r ->
  let q1 := V2 (- a * k / n + vx c + b * mult) (- b * k / n + vy c - a * mult) in
  let q2 := V2 (- a * k / n + vx c - b * mult) (- b * k / n + vy c + a * mult) in
  0 < mult /\ on_line a b k q1 c /\ on_line a b k q2 c /\ dist q1 c = r /\ dist q2 c = r /\ q1 <> q2
  /\ (forall q, on_line a b k q c -> dist q c = r -> q = q1 \/ q = q2).
Proof.
  intros Hab n mult Hr q1 q2. pose proof (sumsq_pos a b Hab) as Hn. fold n in Hn.
  pose proof (sqrt_lt_R0 _ Hn) as Hs.
  assert (Hsn : sqrt n * sqrt n = n) by (apply sqrt_sqrt; lra).
  assert (Hk : k * k / n < r * r).
  { assert (0 <= Rabs k / sqrt n) by (apply Rmult_le_pos; [apply Rabs_pos|left; apply Rinv_0_lt_compat; lra]).
    assert (E : (Rabs k / sqrt n) * (Rabs k / sqrt n) = k * k / n).
    { transitivity ((Rabs k * Rabs k) / (sqrt n * sqrt n)); [field; lra|]. rewrite Hsn. f_equal.
      rewrite <- Rabs_mult. apply Rabs_pos_eq. nra. }
    rewrite <- E. nra. }
  assert (Hr0 : 0 < r).
  { assert (0 <= Rabs k / sqrt n) by (apply Rmult_le_pos; [apply Rabs_pos|left; apply Rinv_0_lt_compat; lra]). lra. }
  assert (Hd : 0 < (r * r - k * k / n) / n) by (apply Rdiv_lt_0_compat; lra).
  assert (Hm : mult * mult = (r * r - k * k / n) / n).
  { unfold mult. rewrite (Rabs_pos_eq _ (Rlt_le _ _ Hd)). apply sqrt_sqrt. lra. }
  assert (Hmp : 0 < mult).
  { unfold mult. apply sqrt_lt_R0. rewrite (Rabs_pos_eq _ (Rlt_le _ _ Hd)). exact Hd. }
  assert (Hmn : n * (mult * mult) = r * r - k * k / n) by (rewrite Hm; field; lra).
  clearbody mult.
  assert (OL : forall sg, on_line a b k (V2 (- a * k / n + vx c + sg * b * mult) (- b * k / n + vy c - sg * a * mult)) c).
  { intros sg. unfold on_line. cbn [vx vy]. unfold n in *. field. lra. }
  assert (DL : forall sg, sg * sg = 1 -> dist (V2 (- a * k / n + vx c + sg * b * mult) (- b * k / n + vy c - sg * a * mult)) c = r).
  { intros sg Hsg. unfold dist. cbn [vx vy]. rewrite <- (sqrt_square r) by lra. f_equal.
    match goal with |- ?x = _ => transitivity (k * k / n + sg * sg * (n * (mult * mult))) end.
    - unfold n in *. field. lra.
    - rewrite Hsg, Hmn. ring. }
  assert (Q1 : q1 = V2 (- a * k / n + vx c + 1 * b * mult) (- b * k / n + vy c - 1 * a * mult)) by (unfold q1; f_equal; ring).
  assert (Q2 : q2 = V2 (- a * k / n + vx c + (-1) * b * mult) (- b * k / n + vy c - (-1) * a * mult)) by (unfold q2; f_equal; ring).
  split; [exact Hmp|]. split; [rewrite Q1; apply OL|]. split; [rewrite Q2; apply OL|].
  split; [rewrite Q1; apply DL; ring|]. split; [rewrite Q2; apply DL; ring|]. split.
  - intros E. unfold q1, q2 in E. injection E as E1 E2. destruct Hab as [H|H].
    + assert (a * mult = 0) by lra. apply Rmult_integral in H0. lra.
    + assert (b * mult = 0) by lra. apply Rmult_integral in H0. lra.
  - intros q Hq Hdq.
    set (X := vx q - vx c). set (Y := vy q - vy c).
    assert (L : a * X + b * Y + k = 0) by exact Hq.
    assert (Hrr : X * X + Y * Y = r * r).
    { unfold dist in Hdq. fold X Y in Hdq. rewrite <- Hdq. symmetry. apply sqrt_sqrt. apply sumsq_nonneg. }
    set (mu := (b * X - a * Y) / n).
    assert (EX : X = - a * k / n + b * mu).
    { unfold mu. assert (k = - (a * X + b * Y)) by lra. rewrite H. unfold n in *. field. lra. }
    assert (EY : Y = - b * k / n - a * mu).
    { unfold mu. assert (k = - (a * X + b * Y)) by lra. rewrite H. unfold n in *. field. lra. }
    assert (Emu : mu * mu = mult * mult).
    { apply (Rmult_eq_reg_l n); [|lra]. rewrite Hmn, <- Hrr.
      assert (E : X * X + Y * Y = k * k / n + n * (mu * mu)).
      { transitivity ((- a * k / n + b * mu) * (- a * k / n + b * mu) + (- b * k / n - a * mu) * (- b * k / n - a * mu)).
        - rewrite <- EX, <- EY. reflexivity.
        - clearbody mu. unfold n in *. field. lra. }
      lra. }
    assert (mu = mult \/ mu = - mult).
    { assert ((mu - mult) * (mu + mult) = 0) by nra. apply Rmult_integral in H. destruct H; [left|right]; lra. }
    unfold X, Y in EX, EY. destruct H as [-> | ->]; [left|right]; unfold q1, q2; apply vec2_eq; cbn [vx vy]; lra.
Qed.

Lemma line_dist_min p0 p1 c t : p0 <> p1 -> line_dist p0 p1 c <= dist (line_pt p0 p1 t) c.
Proof.
  intros Hp. assert (Hd : 0 < dist p0 p1) by (apply sqrt_lt_R0; apply sumsq_pos; apply (vec2_neq _ _ Hp)).
  unfold line_dist. apply (Rmult_le_reg_r (dist p0 p1)); [exact Hd|].
  unfold Rdiv. rewrite Rmult_assoc, Rinv_l, Rmult_1_r by lra.
  apply Rsqr_incr_0_var; [|apply Rmult_le_pos; [apply sqrt_pos|lra]].
  rewrite Rsqr_mult, <- Rsqr_abs. unfold dist. rewrite !Rsqr_sqrt by apply sumsq_nonneg.
  unfold cross, vec, line_pt, Rsqr. cbn [vx vy].
  set (X := vx p1 - vx p0). set (Y := vy p1 - vy p0).
  set (u := vx p0 + t * X - vx c). set (w := vy p0 + t * Y - vy c).
  replace ((vx p0 - vx p1) * (vx p0 - vx p1) + (vy p0 - vy p1) * (vy p0 - vy p1)) with (X * X + Y * Y) by (unfold X, Y; ring).
  replace (X * (vy c - vy p0) - Y * (vx c - vx p0)) with (Y * u - X * w) by (unfold u, w; ring).
  assert (0 <= (u * X + w * Y) * (u * X + w * Y)) by (apply Rle_0_sqr).
  apply Rminus_le. match goal with |- ?l <= 0 => replace l with (- ((u * X + w * Y) * (u * X + w * Y))) by ring end. lra.
Qed.

Lemma line_circle_spec p0 p1 r c eps :
  0 < eps -> v2fuzzy_eq_eps p0 p1 eps = false ->
  (vx p1 - vx p0 = 0 \/ 1 / 100000000 <= Rabs (vx p1 - vx p0)) ->
  match line_circle_intr p0 p1 r c eps with
  | LCNoIntersect => r + eps < line_dist p0 p1 c
  | LCTangentIntersect t =>
      let q := line_pt p0 p1 t in
      dist q c = line_dist p0 p1 c /\ Rabs (dist q c - r) < eps
      /\ (vx q - vx c) * (vx p1 - vx p0) + (vy q - vy c) * (vy p1 - vy p0) = 0
  | LCTwoIntersects t0 t1 =>
      t0 <= t1 /\ line_dist p0 p1 c <= r + eps
      /\ (line_dist p0 p1 c <> r + eps ->
          t0 < t1 /\ dist (line_pt p0 p1 t0) c = r /\ dist (line_pt p0 p1 t1) c = r
          /\ (forall t, dist (line_pt p0 p1 t) c = r -> t = t0 \/ t = t1) /\ line_dist p0 p1 c <= r - eps)
  end.
Proof.
  intros He Hf Hdx. pose proof (fuzzy_false_neq _ _ _ He Hf) as Hp.
  unfold line_circle_intr. rewrite Hf.
  assert (HABC : exists a b k,
     (if fuzzy_eq_zero (vx p1 - vx p0)%num
       then (none_, nzero, (- ((vx (v2sub p1 c) + vx (v2sub p0 c)) / ntwo))%num)
       else ((vy p1 - vy p0) / (vx p1 - vx p0), - none_, vy (v2sub p1 c) - (vy p1 - vy p0) / (vx p1 - vx p0) * vx (v2sub p1 c))%num)
      = (a, b, k) /\ (a <> 0 \/ b <> 0) /\ on_line a b k p0 c /\ on_line a b k p1 c).
  { unfold fuzzy_eq_zero, fuzzy_eq_zero_eps, v2sub, on_line. rnum.
    destruct (rltb_spec (Rabs (vx p1 - vx p0)) (1 / 100000000)) as [L|L].
    - destruct Hdx as [Z|Z]; [|lra]. do 3 eexists. split; [reflexivity|]. split; [left; lra|]. split; lra.
    - assert (N : vx p1 - vx p0 <> 0). { intros Z. rewrite Z, Rabs_R0 in L. lra. }
      do 3 eexists. split; [reflexivity|]. split; [right; lra|]. split; field; exact N. }
  destruct HABC as (a & b & k & -> & Hab & O0 & O1). rnum.
  set (n := a * a + b * b). pose proof (sumsq_pos a b Hab) as Hn. fold n in Hn.
  pose proof (line_dist_implicit a b k p0 p1 c Hab Hp O0 O1) as HD. fold n in HD. rewrite HD.
  set (D := line_dist p0 p1 c) in *.
  destruct (rltb_spec (r + eps) D) as [L1|L1]; [exact L1|].
  destruct (foot_props a b k c Hab) as [OF DF]. fold n in OF, DF.
  unfold fuzzy_eq_eps. rnum.
  assert (Hpar : forall q, on_line a b k q c -> line_pt p0 p1 (parametric_from_point p0 p1 q eps) = q).
  { intros q Hq. apply parametric_spec; [exact Hp|]. eapply on_line_cross; eauto. }
  destruct (rltb_spec (Rabs (D - r)) eps) as [L2|L2].
  - cbv zeta. set (q := V2 (- a * k / n + vx c) (- b * k / n + vy c)) in *.
    rewrite (Hpar q OF). split; [rewrite DF; exact HD|]. split; [rewrite DF, HD; exact L2|].
    unfold q. cbn [vx vy]. unfold on_line in O0, O1.
    assert (A : a * (vx p1 - vx p0) + b * (vy p1 - vy p0) = 0) by lra.
    replace (- a * k / n + vx c - vx c) with (a * (- k / n)) by (field; lra).
    replace (- b * k / n + vy c - vy c) with (b * (- k / n)) by (field; lra).
    transitivity ((a * (vx p1 - vx p0) + b * (vy p1 - vy p0)) * (- k / n)); [ring|]. rewrite A. ring.
  - unfold min_max. rnum.
    set (mult := sqrt (Rabs ((r * r - k * k / n) / n))).
    set (q1 := V2 (- a * k / n + vx c + b * mult) (- b * k / n + vy c - a * mult)).
    set (q2 := V2 (- a * k / n + vx c - b * mult) (- b * k / n + vy c + a * mult)).
    set (s1 := parametric_from_point p0 p1 q1 eps). set (s2 := parametric_from_point p0 p1 q2 eps).
    assert (G : D <> r + eps -> s1 <> s2 /\ dist (line_pt p0 p1 s1) c = r /\ dist (line_pt p0 p1 s2) c = r
              /\ (forall t, dist (line_pt p0 p1 t) c = r -> t = s1 \/ t = s2) /\ D <= r - eps).
    { intros HN. assert (Hr0 : D <= r - eps).
      { destruct (Rlt_dec D r) as [G|G].
        - rewrite Rabs_left in L2 by lra. lra.
        - rewrite Rabs_pos_eq in L2 by lra. lra. }
      assert (Hr : Rabs k / sqrt n < r) by (rewrite HD; lra).
      pose proof (chord_solutions a b k c r Hab Hr) as CS. cbv zeta in CS.
      fold n in CS. fold mult in CS. fold q1 in CS. fold q2 in CS.
      destruct CS as (Hm & Q1 & Q2 & D1 & D2 & NQ & C).
      pose proof (Hpar q1 Q1) as P1. pose proof (Hpar q2 Q2) as P2. fold s1 in P1. fold s2 in P2.
      split. { intros E. apply NQ. rewrite <- P1, <- P2, E. reflexivity. }
      split; [rewrite P1; exact D1|]. split; [rewrite P2; exact D2|]. split; [|exact Hr0].
      intros t Ht. destruct (C (line_pt p0 p1 t) (on_line_pt _ _ _ _ _ _ _ O0 O1) Ht) as [E|E]; [left|right].
      - rewrite <- P1 in E. now apply line_pt_inj in E.
      - rewrite <- P2 in E. now apply line_pt_inj in E. }
    destruct (rltb_spec s1 s2) as [L3|L3].
    + split; [lra|]. split; [lra|]. intros HN. destruct (G HN) as (G1 & G2 & G3 & G4 & G5). repeat split; auto.
    + split; [lra|]. split; [lra|]. intros HN. destruct (G HN) as (G1 & G2 & G3 & G4 & G5). repeat split; auto; try lra.
      intros t Ht. destruct (G4 t Ht); auto.
Qed.

Lemma line_circle_point p0 p1 r c eps : v2fuzzy_eq_eps p0 p1 eps = true ->
  let m := V2 ((vx p0 + vx p1) / 2) ((vy p0 + vy p1) / 2) in
  (line_circle_intr p0 p1 r c eps = LCTangentIntersect 0 <-> Rabs (dist m c * dist m c - r * r) < eps)
  /\ (line_circle_intr p0 p1 r c eps = LCNoIntersect <-> eps <= Rabs (dist m c * dist m c - r * r)).
Proof.
  intros H m. unfold line_circle_intr. rewrite H. unfold fuzzy_eq_eps. rnum.
  assert (E : dist m c * dist m c = ((vx p0 + vx p1) / 2 - vx c) * ((vx p0 + vx p1) / 2 - vx c) + ((vy p0 + vy p1) / 2 - vy c) * ((vy p0 + vy p1) / 2 - vy c)).
  { unfold dist. rewrite sqrt_sqrt by apply sumsq_nonneg. reflexivity. }
  rewrite E. destruct (rltb_spec (Rabs (((vx p0 + vx p1) / 2 - vx c) * ((vx p0 + vx p1) / 2 - vx c) + ((vy p0 + vy p1) / 2 - vy c) * ((vy p0 + vy p1) / 2 - vy c) - r * r)) eps) as [L|L].
  - split; split; auto; try discriminate. intros. lra.
  - split; split; auto; try discriminate. intros. lra. intros. lra.
Qed.

(** At a distance of exactly r + eps the code takes the absolute value of a negative discriminant and
    reports two points that are not on the circle. *)
Lemma line_circle_edge :
  exists p0 p1 r c eps t0 t1, 0 < r /\ 0 < eps <= 1 / 100000
    /\ line_circle_intr p0 p1 r c eps = LCTwoIntersects t0 t1
    /\ r + eps < dist (line_pt p0 p1 t0) c.
Proof.
  set (e := 1 / 100000).
  set (mult := sqrt (Rabs ((1 * 1 - (1 + e) * (1 + e) / (0 * 0 + -1 * -1)) / (0 * 0 + -1 * -1)))).
  assert (Hm : 0 < mult).
  { apply sqrt_lt_R0. apply Rabs_pos_lt. unfold e. lra. }
  exists (V2 (-1) (1 + e)), (V2 1 (1 + e)), 1, (V2 0 0), e, ((1 - mult) / 2), ((1 + mult) / 2).
  split; [lra|]. split; [unfold e; lra|]. split.
  - unfold line_circle_intr.
    assert (F : v2fuzzy_eq_eps (V2 (-1) (1 + e)) (V2 1 (1 + e)) e = false).
    { unfold v2fuzzy_eq_eps, fuzzy_eq_eps. rnum. rewrite (proj2 (rltb_false _ _)); [reflexivity|].
      rewrite Rabs_left by lra. unfold e. lra. }
    rewrite F. unfold fuzzy_eq_zero, fuzzy_eq_zero_eps, v2sub, fuzzy_eq_eps. rnum.
    rewrite (proj2 (rltb_false (Rabs (1 - -1)) _)) by (rewrite Rabs_pos_eq; lra).
    replace ((1 + e - (1 + e)) / (1 - -1)) with 0 by (unfold e; lra).
    replace (1 + e - 0 - 0 * (1 - 0)) with (1 + e) by ring.
    change (- (1)) with (-1). replace (- (1)) with (-1) by ring.
    assert (S : sqrt (0 * 0 + -1 * -1) = 1) by (replace (0 * 0 + -1 * -1) with 1 by ring; apply sqrt_1).
    rewrite S. replace (Rabs (1 + e) / 1) with (1 + e) by (rewrite Rabs_pos_eq by (unfold e; lra); field).
    rewrite (proj2 (rltb_false (1 + e) (1 + e))) by lra.
    rewrite (proj2 (rltb_false (Rabs (1 + e - 1)) e)) by (rewrite Rabs_pos_eq by (unfold e; lra); lra).
    fold mult. unfold parametric_from_point, min_max. rnum.
    replace (Rabs (1 + e - (1 + e))) with 0 by (rewrite Rminus_diag_eq by reflexivity; symmetry; apply Rabs_R0).
    rewrite !(proj2 (rltb_false (Rabs (1 - -1)) 0)) by apply Rabs_pos.
    match goal with |- context [rltb ?a ?b] => replace a with ((1 - mult) / 2) by field; replace b with ((1 + mult) / 2) by field end.
    rewrite (proj2 (rltb_true ((1 - mult) / 2) ((1 + mult) / 2))) by lra. reflexivity.
  - unfold line_pt, dist. cbn [vx vy].
    rewrite <- (sqrt_square (1 + e)) at 1 by (unfold e; lra).
    apply sqrt_lt_1_alt. split; [unfold e; lra|].
    replace (-1 + (1 - mult) / 2 * (1 - -1) - 0) with (- mult) by field.
    replace (1 + e + (1 - mult) / 2 * (1 + e - (1 + e)) - 0) with (1 + e) by ring. nra.
Qed.

(** ** C22 *)
Lemma dist_triangle p q m : dist p q <= dist p m + dist m q.
Proof.
  pose proof (triangle (vx p) (vy p) (vx q) (vy q) (vx m) (vy m)) as H. unfold dist_euc, Rsqr in H. exact H.
Qed.
Lemma dist_sym p q : dist p q = dist q p.
Proof. unfold dist. f_equal. ring. Qed.
Lemma dist_pos p q : 0 <= dist p q.
Proof. apply sqrt_pos. Qed.

Lemma tang_bound r1 r2 d eps : 0 < d -> 0 < eps -> 0 <= r1 -> 0 <= r2 ->
  d < r1 + r2 + eps -> Rabs (r1 - r2) < d + eps ->
  let a := (r1 * r1 - r2 * r2 + d * d) / (2 * d) in
  r1 * r1 < a * a ->
  Rabs (Rabs a - r1) <= eps * Rmax 1 ((r1 + r2) / d).
Proof.
  intros Hd He H1 H2 L1 L2 a Ha.
  assert (Ea : 2 * d * a = r1 * r1 - r2 * r2 + d * d) by (unfold a; field; lra). clearbody a.
  set (M := Rmax 1 ((r1 + r2) / d)).
  assert (M1 : 1 <= M) by apply Rmax_l.
  assert (M2 : r1 + r2 <= M * d).
  { assert (Q : (r1 + r2) / d <= M) by apply Rmax_r. apply (Rmult_le_compat_r d) in Q; [|lra].
    unfold Rdiv in Q. rewrite Rmult_assoc, Rinv_l, Rmult_1_r in Q by lra. exact Q. }
  clearbody M. apply Rabs_def2 in L2. destruct L2 as [L2 L3].
  assert (Habs : r1 < Rabs a).
  { unfold Rabs. destruct (Rcase_abs a); nra. }
  rewrite (Rabs_pos_eq (Rabs a - r1)) by lra.
  apply (Rmult_le_reg_l (2 * d)); [lra|].
  unfold Rabs in *. destruct (Rcase_abs a) as [C|C].
  - (* -a > r1 *)
    assert (F : 2 * d * (- a - r1) = (r2 - r1 - d) * (r1 + r2 + d)) by lra. rewrite F.
    assert (P : 0 < r2 - r1 - d) by nra.
    assert (Q : r1 + r2 + d <= 2 * (M * d)) by lra.
    assert (r2 - r1 - d <= eps) by lra. nra.
  - assert (F : 2 * d * (a - r1) = (d - r1 - r2) * (d - r1 + r2)) by lra. rewrite F.
    destruct (Rlt_dec 0 (d - r1 - r2)) as [P|P].
    + assert (d - r1 - r2 <= eps) by lra. assert (0 <= d - r1 + r2 <= 2 * (M * d)) by nra. nra.
    + assert (G : 0 < (d - r1 - r2) * (d - r1 + r2)) by nra.
      assert (K : d - r1 + r2 < 0) by nra.
      replace ((d - r1 - r2) * (d - r1 + r2)) with ((r1 + r2 - d) * (r1 - r2 - d)) by ring.
      assert (0 <= r1 + r2 - d <= 2 * (M * d)) by lra. assert (0 <= r1 - r2 - d <= eps) by lra. nra.
Qed.

Lemma dist_sqr p q : dist p q * dist p q = (vx p - vx q) * (vx p - vx q) + (vy p - vy q) * (vy p - vy q).
Proof. unfold dist. apply sqrt_sqrt. apply sumsq_nonneg. Qed.

Lemma dist_eq_sqr p q r : 0 <= r -> (vx p - vx q) * (vx p - vx q) + (vy p - vy q) * (vy p - vy q) = r * r -> dist p q = r.
Proof. intros H E. unfold dist. rewrite E. now apply sqrt_square. Qed.

Lemma circle_circle_spec r1 c1 r2 c2 eps : 0 < eps -> 0 <= r1 -> 0 <= r2 ->
  match circle_circle_intr r1 c1 r2 c2 eps with
  | CCOverlapping => dist c1 c2 < eps /\ Rabs (r1 - r2) < eps
  | CCNoIntersect => forall q, ~ (dist q c1 = r1 /\ dist q c2 = r2)
  | CCTwoIntersects q1 q2 =>
      ~ is_point q1 q2 eps /\ dist q1 c1 = r1 /\ dist q1 c2 = r2 /\ dist q2 c1 = r1 /\ dist q2 c2 = r2
      /\ (forall q, dist q c1 = r1 -> dist q c2 = r2 -> q = q1 \/ q = q2)
  | CCTangentIntersect q =>
      eps <= dist c1 c2
      /\ ((dist q c1 = r1 /\ dist q c2 = r2
           /\ forall p p', dist p c1 = r1 -> dist p c2 = r2 -> dist p' c1 = r1 -> dist p' c2 = r2 -> is_point p p' eps)
          \/ ((forall q', ~ (dist q' c1 = r1 /\ dist q' c2 = r2))
              /\ exists a, q = line_pt c1 c2 a
                 /\ Rabs (dist q c1 - r1) <= eps * Rmax 1 ((r1 + r2) / dist c1 c2)
                 /\ Rabs (dist q c2 - r2) <= eps * Rmax 1 ((r1 + r2) / dist c1 c2)))
  end.
Proof.
  intros He H1 H2. unfold circle_circle_intr.
  assert (ED : v2dot (v2sub c2 c1) (v2sub c2 c1) = dist c1 c2 * dist c1 c2).
  { rewrite dist_sqr. unfold v2dot, v2sub. rnum. ring. }
  assert (ES : nsqrt (v2dot (v2sub c2 c1) (v2sub c2 c1)) = dist c1 c2).
  { rewrite ED. rnum. apply sqrt_square. apply dist_pos. }
  rewrite ES, ED. set (d := dist c1 c2). pose proof (dist_pos c1 c2) as Hd0. fold d in Hd0.
  unfold fuzzy_eq_zero_eps, fuzzy_eq_eps, fuzzy_lt_eps, fuzzy_gt_eps. rnum.
  rewrite (Rabs_pos_eq d) by exact Hd0.
  assert (Tri : forall q, dist q c1 = r1 -> dist q c2 = r2 -> d <= r1 + r2 /\ Rabs (r1 - r2) <= d).
  { intros q Q1 Q2. pose proof (dist_triangle c1 c2 q) as T1. pose proof (dist_triangle q c1 c2) as T2.
    pose proof (dist_triangle q c2 c1) as T3. rewrite (dist_sym c1 q) in T1. rewrite (dist_sym c2 c1) in T2.
    fold d in T1, T2, T3. rewrite Q1, Q2 in *. split; [lra|]. apply Rabs_le. lra. }
  destruct (rltb_spec d eps) as [L0|L0].
  { destruct (rltb_spec (Rabs (r1 - r2)) eps) as [L|L]; [split; [exact L0|exact L]|].
    intros q [Q1 Q2]. destruct (Tri q Q1 Q2). lra. }
  destruct (rltb_spec d (r1 + r2 + eps)) as [L1|L1]; cbn [negb orb].
  2:{ intros q [Q1 Q2]. destruct (Tri q Q1 Q2). lra. }
  destruct (rltb_spec (Rabs (r1 - r2)) (d + eps)) as [L2|L2]; cbn [negb].
  2:{ intros q [Q1 Q2]. destruct (Tri q Q1 Q2). lra. }
  assert (Hd : 0 < d) by lra.
  set (X := vx c2 - vx c1). set (Y := vy c2 - vy c1).
  assert (Hdd : d * d = X * X + Y * Y) by (unfold d, X, Y; rewrite dist_sqr; ring).
  set (a := (r1 * r1 - r2 * r2 + d * d) / (2 * d)).
  assert (Ea : 2 * (a * d) = r1 * r1 - r2 * r2 + d * d) by (unfold a; field; lra).
  (* components of a common point *)
  assert (Comp : forall q, dist q c1 = r1 -> dist q c2 = r2 ->
     (vx q - vx c1) * X + (vy q - vy c1) * Y = a * d
     /\ (vx q - vx c1) * (vx q - vx c1) + (vy q - vy c1) * (vy q - vy c1) = r1 * r1).
  { intros q Q1 Q2. pose proof (dist_sqr q c1) as S1. pose proof (dist_sqr q c2) as S2. rewrite Q1 in S1. rewrite Q2 in S2.
    split; [|lra]. replace (vx q - vx c2) with (vx q - vx c1 - X) in S2 by (unfold X; ring).
    replace (vy q - vy c2) with (vy q - vy c1 - Y) in S2 by (unfold Y; ring).
    set (x := vx q - vx c1) in *. set (y := vy q - vy c1) in *. nra. }
  destruct (rltb_spec (r1 * r1 - a * a) 0) as [L3|L3].
  - (* tangent by negative discriminant *)
    split; [lra|]. right. split.
    + intros q [Q1 Q2]. destruct (Comp q Q1 Q2) as [K1 K2].
      set (x := vx q - vx c1) in *. set (y := vy q - vy c1) in *.
      assert (0 <= (x * Y - y * X) * (x * Y - y * X)) by apply Rle_0_sqr.
      assert (LI : (x * X + y * Y) * (x * X + y * Y) + (x * Y - y * X) * (x * Y - y * X) = (x * x + y * y) * (X * X + Y * Y)) by ring.
      rewrite K1, K2, <- Hdd in LI.
      assert (0 < (a * a - r1 * r1) * (d * d)) by (apply Rmult_lt_0_compat; nra). lra.
    + exists (a / d). unfold v2add, v2scale, v2sub. rnum. fold X Y.
      assert (EL : V2 (vx c1 + a / d * X) (vy c1 + a / d * Y) = line_pt c1 c2 (a / d)) by reflexivity.
      split; [exact EL|].
      assert (D1 : dist (V2 (vx c1 + a / d * X) (vy c1 + a / d * Y)) c1 = Rabs a).
      { apply dist_eq_sqr; [apply Rabs_pos|]. cbn [vx vy]. rewrite <- Rabs_mult, Rabs_pos_eq by (apply Rle_0_sqr).
        transitivity ((a * a) * (X * X + Y * Y) / (d * d)); [field; lra|]. rewrite <- Hdd. field. lra. }
      assert (D2 : dist (V2 (vx c1 + a / d * X) (vy c1 + a / d * Y)) c2 = Rabs (d - a)).
      { apply dist_eq_sqr; [apply Rabs_pos|]. cbn [vx vy]. rewrite <- Rabs_mult, Rabs_pos_eq by (apply Rle_0_sqr).
        replace (vx c1 + a / d * X - vx c2) with ((a / d - 1) * X) by (unfold X; ring).
        replace (vy c1 + a / d * Y - vy c2) with ((a / d - 1) * Y) by (unfold Y; ring).
        transitivity ((a - d) * (a - d) * (X * X + Y * Y) / (d * d)); [field; lra|]. rewrite <- Hdd. field. lra. }
      rewrite D1, D2. split.
      * apply tang_bound; try assumption. fold a. lra.
      * rewrite (Rplus_comm r1 r2).
        assert (Eda : d - a = (r2 * r2 - r1 * r1 + d * d) / (2 * d)) by (unfold a; field; lra).
        rewrite Eda. apply tang_bound; try assumption; try lra.
        -- rewrite Rabs_minus_sym. exact L2.
        -- rewrite <- Eda. nra.
  - set (h := sqrt (r1 * r1 - a * a)).
    assert (Hh : h * h = r1 * r1 - a * a) by (apply sqrt_sqrt; lra).
    unfold v2add, v2scale, v2sub. rnum. fold X Y.
    set (q1 := V2 (vx c1 + a / d * X + h / d * Y) (vy c1 + a / d * Y - h / d * X)).
    set (q2 := V2 (vx c1 + a / d * X - h / d * Y) (vy c1 + a / d * Y + h / d * X)).
    assert (OnC : forall sg, sg * sg = 1 ->
      let q := V2 (vx c1 + a / d * X + sg * (h / d * Y)) (vy c1 + a / d * Y - sg * (h / d * X)) in
      dist q c1 = r1 /\ dist q c2 = r2).
    { intros sg Hsg q. split; apply dist_eq_sqr; try assumption; unfold q; cbn [vx vy].
      - transitivity ((a * a + sg * sg * (h * h)) * (X * X + Y * Y) / (d * d)); [field; lra|].
        rewrite Hsg, Hh, <- Hdd. field. lra.
      - replace (vx c1 + a / d * X + sg * (h / d * Y) - vx c2) with ((a - d) / d * X + sg * (h / d * Y)) by (unfold X; field; lra).
        replace (vy c1 + a / d * Y - sg * (h / d * X) - vy c2) with ((a - d) / d * Y - sg * (h / d * X)) by (unfold Y; field; lra).
        transitivity (((a - d) * (a - d) + sg * sg * (h * h)) * (X * X + Y * Y) / (d * d)); [field; lra|].
        rewrite Hsg, Hh, <- Hdd. transitivity ((a - d) * (a - d) + 1 * (r1 * r1 - a * a)); [field; lra|]. lra. }
    assert (Q1 : q1 = V2 (vx c1 + a / d * X + 1 * (h / d * Y)) (vy c1 + a / d * Y - 1 * (h / d * X))) by (unfold q1; f_equal; ring).
    assert (Q2 : q2 = V2 (vx c1 + a / d * X + (-1) * (h / d * Y)) (vy c1 + a / d * Y - (-1) * (h / d * X))) by (unfold q2; f_equal; ring).
    destruct (OnC 1 ltac:(ring)) as [A1 A2]. rewrite <- Q1 in A1, A2.
    destruct (OnC (-1) ltac:(ring)) as [B1 B2]. rewrite <- Q2 in B1, B2.
    assert (U : forall q, dist q c1 = r1 -> dist q c2 = r2 -> q = q1 \/ q = q2).
    { intros q E1 E2. destruct (Comp q E1 E2) as [K1 K2].
      set (x := vx q - vx c1) in *. set (y := vy q - vy c1) in *.
      set (w := x * Y - y * X).
      assert (LI : (x * X + y * Y) * (x * X + y * Y) + w * w = (x * x + y * y) * (X * X + Y * Y)) by (unfold w; ring).
      rewrite K1, K2, <- Hdd in LI.
      assert (W : (w - h * d) * (w + h * d) = 0).
      { transitivity (w * w - h * h * (d * d)); [ring|]. rewrite Hh. lra. }
      assert (Ex : x = (a * d * X + w * Y) / (d * d)).
      { rewrite <- K1. unfold w. rewrite Hdd. field. rewrite <- Hdd. nra. }
      assert (Ey : y = (a * d * Y - w * X) / (d * d)).
      { rewrite <- K1. unfold w. rewrite Hdd. field. rewrite <- Hdd. nra. }
      clearbody w. apply Rmult_integral in W. destruct W as [W|W]; [left|right].
      * assert (w = h * d) by lra. subst w. unfold x, y in Ex, Ey. apply vec2_eq; unfold q1; cbn [vx vy].
        -- transitivity (vx c1 + (a * d * X + h * d * Y) / (d * d)); [lra|field; lra].
        -- transitivity (vy c1 + (a * d * Y - h * d * X) / (d * d)); [lra|field; lra].
      * assert (w = - (h * d)) by lra. subst w. unfold x, y in Ex, Ey. apply vec2_eq; unfold q2; cbn [vx vy].
        -- transitivity (vx c1 + (a * d * X + - (h * d) * Y) / (d * d)); [lra|field; lra].
        -- transitivity (vy c1 + (a * d * Y - - (h * d) * X) / (d * d)); [lra|field; lra]. }
    destruct (v2fuzzy_eq_eps q1 q2 eps) eqn:F.
    + split; [lra|]. left. split; [exact A1|]. split; [exact A2|]. intros p p' P1 P2 P3 P4.
      pose proof F as F'. rewrite v2fuzzy_R in F. unfold is_point.
      destruct (U p P1 P2) as [-> | ->], (U p' P3 P4) as [-> | ->].
      * rewrite !Rminus_diag_eq, Rabs_R0 by reflexivity. lra.
      * rewrite (Rabs_minus_sym (vx q2)), (Rabs_minus_sym (vy q2)). exact F.
      * exact F.
      * rewrite !Rminus_diag_eq, Rabs_R0 by reflexivity. lra.
    + split; [intros PT; unfold is_point in PT; rewrite (Rabs_minus_sym (vx q2)), (Rabs_minus_sym (vy q2)) in PT; apply v2fuzzy_R in PT; congruence|].
      repeat split; auto.
Qed.

(** ** Statements for the property files *)
(** Circles with two common points that do not count as one. *)
Lemma circle_circle_two r1 c1 r2 c2 eps p1 p2 : 0 < eps -> 0 <= r1 -> 0 <= r2 -> eps <= dist c1 c2 -> ~ is_point p1 p2 eps ->
  dist p1 c1 = r1 -> dist p1 c2 = r2 -> dist p2 c1 = r1 -> dist p2 c2 = r2 ->
  exists q1 q2, circle_circle_intr r1 c1 r2 c2 eps = CCTwoIntersects q1 q2
    /\ forall q, dist q c1 = r1 -> dist q c2 = r2 -> q = q1 \/ q = q2.
Proof.
  intros He R1 R2 Hd Hpt A1 A2 B1 B2. pose proof (circle_circle_spec r1 c1 r2 c2 eps He R1 R2) as CC.
  destruct (circle_circle_intr r1 c1 r2 c2 eps) as [|q|q1 q2|].
  - exfalso. now apply (CC p1).
  - exfalso. destruct CC as (_ & [(_ & _ & CC)|[CC _]]); [apply Hpt; now apply CC|now apply (CC p1)].
  - exists q1, q2. split; [reflexivity|tauto].
  - exfalso. lra.
Qed.

Lemma is_point_R p q eps : is_point p q eps <-> v2fuzzy_eq_eps p q eps = true.
Proof.
  rewrite v2fuzzy_R. unfold is_point. rewrite (Rabs_minus_sym (vx q)), (Rabs_minus_sym (vy q)). tauto.
Qed.

Lemma not_point_R p q eps : ~ is_point p q eps -> v2fuzzy_eq_eps p q eps = false.
Proof. intros H. destruct (v2fuzzy_eq_eps p q eps) eqn:E; [|reflexivity]. exfalso. apply H. now apply is_point_R. Qed.

Lemma line_dist_attained p0 p1 c : p0 <> p1 -> exists t, dist (line_pt p0 p1 t) c = line_dist p0 p1 c.
Proof.
  intros Hp. pose proof (vec2_neq _ _ Hp) as N.
  set (X := vx p1 - vx p0). set (Y := vy p1 - vy p0).
  assert (HN : 0 < X * X + Y * Y) by (apply sumsq_pos; unfold X, Y; destruct N; [left|right]; lra).
  assert (Hd : dist p0 p1 = sqrt (X * X + Y * Y)) by (unfold dist, X, Y; f_equal; ring).
  exists (((vx c - vx p0) * X + (vy c - vy p0) * Y) / (X * X + Y * Y)).
  unfold line_dist. rewrite Hd.
  assert (0 < sqrt (X * X + Y * Y)) by now apply sqrt_lt_R0.
  apply dist_eq_sqr.
  - apply Rmult_le_pos; [apply Rabs_pos|]. left. now apply Rinv_0_lt_compat.
  - unfold line_pt, cross, vec. cbn [vx vy]. fold X Y.
    set (u := vx c - vx p0). set (w := vy c - vy p0).
    replace (vx p0 + (u * X + w * Y) / (X * X + Y * Y) * X - vx c) with ((u * X + w * Y) / (X * X + Y * Y) * X - u) by (unfold u; ring).
    replace (vy p0 + (u * X + w * Y) / (X * X + Y * Y) * Y - vy c) with ((u * X + w * Y) / (X * X + Y * Y) * Y - w) by (unfold w; ring).
    transitivity ((X * w - Y * u) * (X * w - Y * u) / (X * X + Y * Y)); [field; lra|].
    set (z := X * w - Y * u). set (n := X * X + Y * Y) in *.
    transitivity (Rabs z * Rabs z / (sqrt n * sqrt n)).
    + rewrite sqrt_sqrt by lra. rewrite <- Rabs_mult, Rabs_pos_eq by apply Rle_0_sqr. reflexivity.
    + field. lra.
Qed.

Lemma line_circle_main p0 p1 r c eps :
  0 < eps -> ~ is_point p0 p1 eps ->
  (vx p1 - vx p0 = 0 \/ 1 / 100000000 <= Rabs (vx p1 - vx p0)) ->
  match line_circle_intr p0 p1 r c eps with
  | LCNoIntersect => exists d, r + eps < d /\ forall t, d <= dist (line_pt p0 p1 t) c
  | LCTangentIntersect t =>
      (forall t', dist (line_pt p0 p1 t) c <= dist (line_pt p0 p1 t') c)
      /\ Rabs (dist (line_pt p0 p1 t) c - r) < eps
  | LCTwoIntersects t0 t1 =>
      t0 <= t1 /\ (exists t, dist (line_pt p0 p1 t) c <= r + eps)
      /\ ((exists t, dist (line_pt p0 p1 t) c < r + eps) ->
          t0 < t1 /\ dist (line_pt p0 p1 t0) c = r /\ dist (line_pt p0 p1 t1) c = r
          /\ (forall t, dist (line_pt p0 p1 t) c = r -> t = t0 \/ t = t1)
          /\ (exists t, dist (line_pt p0 p1 t) c <= r - eps))
  end.
Proof.
  intros He Hf Hdx. apply not_point_R in Hf. pose proof (fuzzy_false_neq _ _ _ He Hf) as Hp.
  pose proof (line_circle_spec p0 p1 r c eps He Hf Hdx) as S.
  destruct (line_circle_intr p0 p1 r c eps) as [|t|t0 t1].
  - exists (line_dist p0 p1 c). split; [exact S|]. intros t. now apply line_dist_min.
  - destruct S as (S1 & S2 & _). split; [|exact S2]. intros t'. rewrite S1. now apply line_dist_min.
  - destruct S as (S1 & S2 & S3). split; [exact S1|]. split.
    + destruct (line_dist_attained p0 p1 c Hp) as [t Ht]. exists t. lra.
    + intros [t Ht]. pose proof (line_dist_min p0 p1 c t Hp). destruct S3 as (S3 & S4 & S5 & S6 & S7); [lra|].
      repeat (split; [assumption|]). destruct (line_dist_attained p0 p1 c Hp) as [t' Ht']. exists t'. lra.
Qed.

(** Nearly vertical lines are replaced by the vertical line through the middle of the two points. *)
Lemma line_circle_near_vertical p0 p1 r c eps :
  1 / 100000000 <= eps -> ~ is_point p0 p1 eps -> Rabs (vx p1 - vx p0) < 1 / 100000000 ->
  let xm := (vx p0 + vx p1) / 2 in
  line_circle_intr p0 p1 r c eps = line_circle_intr (V2 xm (vy p0)) (V2 xm (vy p1)) r c eps.
Proof.
  intros He Hf Hdx xm. pose proof (not_point_R _ _ _ Hf) as F1.
  assert (Hy : eps <= Rabs (vy p1 - vy p0)).
  { destruct (Rle_dec eps (Rabs (vy p1 - vy p0))) as [G|G]; [exact G|]. exfalso. apply Hf. split; lra. }
  assert (F2 : v2fuzzy_eq_eps (V2 xm (vy p0)) (V2 xm (vy p1)) eps = false).
  { apply not_point_R. intros [_ Q]. cbn [vy] in Q. lra. }
  unfold line_circle_intr. rewrite F1, F2. cbn [vx vy].
  unfold fuzzy_eq_zero, fuzzy_eq_zero_eps, v2sub. rnum.
  rewrite (proj2 (rltb_true _ _) Hdx).
  replace (Rabs (xm - xm)) with 0 by (rewrite Rminus_diag_eq by reflexivity; symmetry; apply Rabs_R0).
  rewrite (proj2 (rltb_true 0 (1 / 100000000))) by lra.
  replace ((xm - vx c + (xm - vx c)) / 2) with ((vx p1 - vx c + (vx p0 - vx c)) / 2) by (unfold xm; field).
  unfold parametric_from_point. cbn [vx vy]. rnum.
  replace (Rabs (xm - xm)) with 0 by (rewrite Rminus_diag_eq by reflexivity; symmetry; apply Rabs_R0).
  rewrite !(proj2 (rltb_true (Rabs (vx p1 - vx p0)) (Rabs (vy p1 - vy p0)))) by lra.
  rewrite !(proj2 (rltb_true 0 (Rabs (vy p1 - vy p0)))) by lra.
  reflexivity.
Qed.

Lemma line_line_collinear_main v1 v2 u1 u2 eps :
  0 < eps ->
  cross (vec u1 u2) (vec u1 v1) = 0 -> cross (vec u1 u2) (vec u1 v2) = 0 ->
  ~ is_point v1 v2 eps -> ~ is_point u1 u2 eps ->
  match line_line_intr v1 v2 u1 u2 eps with
  | LLOverlapping t0 t1 =>
      (forall t, t0 <= t <= t1 -> exists s, 0 <= s <= 1 /\ line_pt v1 v2 s = line_pt u1 u2 t)
      /\ (forall s t, 0 <= s <= 1 -> 0 <= t <= 1 -> line_pt v1 v2 s = line_pt u1 u2 t -> t0 <= t <= t1)
  | LLNoIntersect =>
      forall s t, 0 <= s <= 1 -> 0 <= t <= 1 -> line_pt v1 v2 s <> line_pt u1 u2 t
  | LLTrueIntersect s t =>
      dist (line_pt v1 v2 s) (line_pt u1 u2 t) <= 3 * eps
      /\ (s = 0 \/ s = 1) /\ in_range t (dist u1 u2) eps
  | LLFalseIntersect _ _ => False
  end.
Proof.
  intros He C1 C2 F1 F2. apply line_line_collinear; auto using not_point_R.
Qed.

(** *** Witnesses *)
Ltac rabs_lra := unfold Rabs; repeat destruct (Rcase_abs _); lra.
Ltac rdec1 :=
  match goal with
  | |- context [rltb ?a ?b] =>
      first [ rewrite (proj2 (rltb_true a b)) by rabs_lra
            | rewrite (proj2 (rltb_false a b)) by rabs_lra ]
  end.

(** Two perpendicular short segments crossing at their middles are reported as touching at the end of
    the first one. *)
Lemma line_line_short :
  let v1 := V2 (-1 / 1000) 0 in let v2 := V2 (1 / 1000) 0 in
  let u1 := V2 0 (-1 / 1000) in let u2 := V2 0 (1 / 1000) in
  let eps := 1 / 100000 in
  line_pt v1 v2 (1 / 2) = line_pt u1 u2 (1 / 2)
  /\ line_line_intr v1 v2 u1 u2 eps = LLTrueIntersect 1 (1 / 2)
  /\ dist (line_pt v1 v2 1) (line_pt u1 u2 (1 / 2)) = 100 * eps.
Proof.
  cbv zeta. split; [unfold line_pt; cbn [vx vy]; f_equal; lra|]. split.
  - unfold line_line_intr.
    assert (L1 : v2length (v2sub (V2 (1 / 1000) 0) (V2 (-1 / 1000) 0)) = 1 / 500).
    { rewrite dist_v2length. apply dist_eq_sqr; cbn [vx vy]; lra. }
    assert (L2 : v2length (v2sub (V2 0 (1 / 1000)) (V2 0 (-1 / 1000))) = 1 / 500).
    { rewrite dist_v2length. apply dist_eq_sqr; cbn [vx vy]; lra. }
    rewrite L1, L2. unfold fuzzy_eq_zero_eps, v2perp_dot, v2fuzzy_eq_eps, fuzzy_eq_eps, v2sub, fuzzy_lt_eps, fuzzy_gt_eps. rnum.
    repeat (rdec1; cbn [negb andb orb]).
    rewrite Rmax_left by lra. rewrite Rmin_left by lra. repeat (rdec1; cbn [negb andb orb]).
    f_equal. field.
  - apply dist_eq_sqr; unfold line_pt; cbn [vx vy]; lra.
Qed.

Lemma circle_circle_far :
  exists q, circle_circle_intr 1 (V2 0 0) (1 - 15 / 1000000) (V2 (11 / 1000000) 0) (1 / 100000) = CCTangentIntersect q
    /\ 1 / 3 < dist q (V2 0 0) - 1.
Proof.
  unfold circle_circle_intr.
  assert (ES : nsqrt (v2dot (v2sub (V2 (11 / 1000000) 0) (V2 0 0)) (v2sub (V2 (11 / 1000000) 0) (V2 0 0))) = 11 / 1000000).
  { unfold v2dot, v2sub. rnum. replace ((11 / 1000000 - 0) * (11 / 1000000 - 0) + (0 - 0) * (0 - 0)) with (11 / 1000000 * (11 / 1000000)) by lra.
    apply sqrt_square. lra. }
  rewrite ES. unfold fuzzy_eq_zero_eps, fuzzy_eq_eps, fuzzy_lt_eps, fuzzy_gt_eps, v2dot, v2sub. rnum.
  repeat (rdec1; cbn [negb andb orb]).
  eexists. split; [reflexivity|]. unfold v2add, v2scale. rnum.
  match goal with |- _ < dist (V2 ?a ?b) _ - 1 => rewrite (dist_eq_sqr (V2 a b) (V2 0 0) a) end; cbn [vx vy]; lra.
Qed.

(** *** Concrete cases *)
Lemma line_line_cross_example :
  line_line_intr (V2 0 0) (V2 4 4) (V2 0 2) (V2 4 2) (1 / 100000) = LLTrueIntersect (1 / 2) (1 / 2)
  /\ line_line_intr (V2 0 0) (V2 1 0) (V2 3 1) (V2 3 2) (1 / 100000) = LLFalseIntersect 3 (-1).
Proof.
  split.
  - destruct (line_line_nonparallel (V2 0 0) (V2 4 4) (V2 0 2) (V2 4 2) (1 / 100000)) as (s & t & _ & U & K); [lra| |].
    { unfold cross, vec. cbn [vx vy]. rabs_lra. }
    destruct (U (1 / 2) (1 / 2)) as [<- <-]. { unfold line_pt. cbn [vx vy]. f_equal; lra. }
    destruct K as [[_ K]|[K _]]; [exact K|]. exfalso. apply K.
    assert (D1 : 0 < dist (V2 0 0) (V2 4 4)) by (apply sqrt_lt_R0; cbn [vx vy]; lra).
    assert (D2 : 0 < dist (V2 0 2) (V2 4 2)) by (apply sqrt_lt_R0; cbn [vx vy]; lra).
    split; unfold in_range; lra.
  - destruct (line_line_nonparallel (V2 0 0) (V2 1 0) (V2 3 1) (V2 3 2) (1 / 100000)) as (s & t & _ & U & K); [lra| |].
    { unfold cross, vec. cbn [vx vy]. rabs_lra. }
    destruct (U 3 (-1)) as [<- <-]. { unfold line_pt. cbn [vx vy]. f_equal; lra. }
    destruct K as [[[K _] _]|[_ K]]; [|exact K]. exfalso. unfold in_range in K.
    assert (D1 : dist (V2 0 0) (V2 1 0) = 1) by (apply dist_eq_sqr; cbn [vx vy]; lra). rewrite D1 in K. lra.
Qed.

Lemma line_line_overlap_example :
  line_line_intr (V2 0 0) (V2 4 0) (V2 6 0) (V2 2 0) (1 / 100000) = LLOverlapping (1 / 2) 1.
Proof.
  unfold line_line_intr.
  assert (L1 : v2length (v2sub (V2 4 0) (V2 0 0)) = 4).
  { rewrite dist_v2length. apply dist_eq_sqr; cbn [vx vy]; lra. }
  assert (L2 : v2length (v2sub (V2 2 0) (V2 6 0)) = 4).
  { rewrite dist_v2length. apply dist_eq_sqr; cbn [vx vy]; lra. }
  rewrite L1, L2. unfold fuzzy_eq_zero_eps, v2perp_dot, v2fuzzy_eq_eps, fuzzy_eq_eps, v2sub, fuzzy_lt_eps, fuzzy_gt_eps. rnum.
  repeat (rdec1; cbn [negb andb orb]).
  rewrite Rmax_left by lra. rewrite Rmin_right by lra. repeat (rdec1; cbn [negb andb orb]).
  f_equal; lra.
Qed.

Lemma line_circle_example :
  line_circle_intr (V2 (-2) 0) (V2 2 0) 1 (V2 0 0) (1 / 100000) = LCTwoIntersects (1 / 4) (3 / 4)
  /\ line_circle_intr (V2 (-2) 3) (V2 2 3) 1 (V2 0 0) (1 / 100000) = LCNoIntersect
  /\ line_circle_intr (V2 1 (-1)) (V2 1 1) 1 (V2 0 0) (1 / 100000) = LCTangentIntersect (1 / 2).
Proof.
  unfold line_circle_intr, v2fuzzy_eq_eps, fuzzy_eq_eps, fuzzy_eq_zero, fuzzy_eq_zero_eps, v2sub. rnum.
  assert (S1 : sqrt (1 * 1 + 0 * 0) = 1) by (replace (1 * 1 + 0 * 0) with 1 by ring; apply sqrt_1).
  assert (S2 : sqrt (0 / 4 * (0 / 4) + -1 * -1) = 1) by (replace (0 / 4 * (0 / 4) + -1 * -1) with 1 by field; apply sqrt_1).
  repeat (rdec1; cbn [negb andb orb]).
  replace ((0 - 0) / (2 - -2)) with 0 by field. replace ((3 - 3) / (2 - -2)) with 0 by field.
  replace (0 * 0 + - (1) * - (1)) with 1 by ring. rewrite S1, sqrt_1.
  repeat (rdec1; cbn [negb andb orb]).
  replace (Rabs (0 - 0 - 0 * (2 - 0)) / 1) with 0 by (replace (0 - 0 - 0 * (2 - 0)) with 0 by ring; rewrite Rabs_R0; field).
  replace (Rabs (3 - 0 - 0 * (2 - 0)) / 1) with 3 by (replace (3 - 0 - 0 * (2 - 0)) with 3 by ring; rewrite Rabs_pos_eq by lra; field).
  replace (Rabs (- ((1 - 0 + (1 - 0)) / 2)) / 1) with 1 by (replace (- ((1 - 0 + (1 - 0)) / 2)) with (-1) by field; rewrite Rabs_left by lra; field).
  repeat (rdec1; cbn [negb andb orb]).
  unfold parametric_from_point, min_max. rnum. repeat (rdec1; cbn [negb andb orb]).
  replace (sqrt (Rabs ((1 * 1 - (0 - 0 - 0 * (2 - 0)) * (0 - 0 - 0 * (2 - 0)) / 1) / 1))) with 1.
  2:{ replace ((1 * 1 - (0 - 0 - 0 * (2 - 0)) * (0 - 0 - 0 * (2 - 0)) / 1) / 1) with 1 by field. rewrite Rabs_R1. symmetry. apply sqrt_1. }
  repeat (rdec1; cbn [negb andb orb]).
  split; [f_equal; field|]. split; [reflexivity|f_equal; field].
Qed.

Lemma circle_circle_example :
  circle_circle_intr 5 (V2 0 0) 5 (V2 6 0) (1 / 100000) = CCTwoIntersects (V2 3 (-4)) (V2 3 4)
  /\ circle_circle_intr 1 (V2 0 0) 1 (V2 6 0) (1 / 100000) = CCNoIntersect
  /\ circle_circle_intr 1 (V2 0 0) 1 (V2 0 0) (1 / 100000) = CCOverlapping
  /\ circle_circle_intr 1 (V2 0 0) 5 (V2 6 0) (1 / 100000) = CCTangentIntersect (V2 1 0).
Proof.
  unfold circle_circle_intr, v2sub, v2dot, fuzzy_eq_zero_eps, fuzzy_eq_eps, fuzzy_lt_eps, fuzzy_gt_eps. rnum.
  replace (sqrt ((6 - 0) * (6 - 0) + (0 - 0) * (0 - 0))) with 6.
  2:{ symmetry. replace ((6 - 0) * (6 - 0) + (0 - 0) * (0 - 0)) with (6 * 6) by ring. apply sqrt_square. lra. }
  replace (sqrt ((0 - 0) * (0 - 0) + (0 - 0) * (0 - 0))) with 0.
  2:{ symmetry. replace ((0 - 0) * (0 - 0) + (0 - 0) * (0 - 0)) with 0 by ring. apply sqrt_0. }
  repeat (rdec1; cbn [negb andb orb]).
  match goal with |- context [sqrt ?a] => replace (sqrt a) with 4 end.
  2:{ symmetry. transitivity (sqrt (4 * 4)); [f_equal; field|]. apply sqrt_square. lra. }
  match goal with |- context [sqrt ?a] => replace (sqrt a) with 0 end.
  2:{ symmetry. transitivity (sqrt 0); [f_equal; field|]. apply sqrt_0. }
  unfold v2add, v2scale, v2fuzzy_eq_eps, fuzzy_eq_eps. rnum. repeat (rdec1; cbn [negb andb orb]).
  repeat split; f_equal; f_equal; field.
Qed.

Lemma circle_circle_overlap r1 c1 r2 c2 eps :
  circle_circle_intr r1 c1 r2 c2 eps = CCOverlapping <-> dist c1 c2 < eps /\ Rabs (r1 - r2) < eps.
Proof.
  unfold circle_circle_intr.
  assert (ES : nsqrt (v2dot (v2sub c2 c1) (v2sub c2 c1)) = dist c1 c2).
  { unfold v2dot, v2sub, dist. rnum. f_equal. ring. }
  rewrite ES. unfold fuzzy_eq_zero_eps, fuzzy_eq_eps. rnum. rewrite (Rabs_pos_eq (dist c1 c2)) by apply dist_pos.
  destruct (rltb_spec (dist c1 c2) eps) as [L|L].
  - destruct (rltb_spec (Rabs (r1 - r2)) eps) as [K|K]; [tauto|]. split; [discriminate|tauto].
  - split; [|tauto]. destruct (negb _ || negb _); [discriminate|].
    destruct (rltb _ _); [discriminate|]. destruct (v2fuzzy_eq_eps _ _ _); discriminate.
Qed.

Lemma line_line_short_ex :
  exists v1 v2 u1 u2 eps s t,
    line_pt v1 v2 (1 / 2) = line_pt u1 u2 (1 / 2)
    /\ line_line_intr v1 v2 u1 u2 eps = LLTrueIntersect s t
    /\ dist (line_pt v1 v2 s) (line_pt u1 u2 t) = 100 * eps /\ 0 < eps.
Proof.
  destruct line_line_short as (A & B & C). do 7 eexists. split; [exact A|]. split; [exact B|]. split; [exact C|lra].
Qed.

Lemma circle_circle_far_ex :
  exists r1 c1 r2 c2 eps q,
    0 < eps <= 1 / 100000 /\ 0 < r1 <= 1 /\ 0 < r2 <= 1
    /\ circle_circle_intr r1 c1 r2 c2 eps = CCTangentIntersect q /\ 1 / 3 < dist q c1 - r1.
Proof.
  destruct circle_circle_far as (q & A & B).
  exists 1, (V2 0 0), (1 - 15 / 1000000), (V2 (11 / 1000000) 0), (1 / 100000), q.
  repeat split; try lra; assumption.
Qed.

Lemma line_circle_point_main p0 p1 r c eps :
  is_point p0 p1 eps ->
  let m := V2 ((vx p0 + vx p1) / 2) ((vy p0 + vy p1) / 2) in
  (line_circle_intr p0 p1 r c eps = LCTangentIntersect 0 <-> Rabs (dist m c * dist m c - r * r) < eps)
  /\ (line_circle_intr p0 p1 r c eps = LCNoIntersect <-> eps <= Rabs (dist m c * dist m c - r * r)).
Proof. intros H. apply line_circle_point. now apply is_point_R. Qed.
