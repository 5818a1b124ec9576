(** Small circles around the end of a segment (C64). *)
From Coq Require Import Reals ZArith Bool List Arith Lra Lia Psatz Classical.
From Verif Require Import Num RNum Res ModelMath ModelSeg ModelPline Spec SpecGeom SpecBox SpecWinding.
From Verif Require Import ProofR ProofBase ProofIter ProofArc ProofArc2 ProofSlice ProofMeasure ProofWalk ProofIntr ProofWinding ProofWinding2 ProofWinding3 ProofWinding4 ProofWinding6 ProofWinding7 ProofSegIntr5 ProofNest ProofJordan ProofJordan2.
Import ListNotations.
Local Open Scope R_scope.

(** Crossing the curve of [s] at the angle [th] of the circle of radius [rho] around [z]. *)
Definition crosses (s : seg) (z : vec2 R) (rho th : R) : Prop :=
  exists d g, 0 < d /\ (g = 1 \/ g = -1) /\ forall k, 0 < k < d ->
    0 < g * sideof s (circle_pt z rho (th + k)) /\ g * sideof s (circle_pt z rho (th - k)) < 0.

Lemma sign_change be ga : ga <> 0 -> exists d g, 0 < d /\ (g = 1 \/ g = -1) /\ forall k, 0 < k < d ->
  0 < g * (be * (cos k - 1) + ga * sin k) /\ g * (be * (cos (- k) - 1) + ga * sin (- k)) < 0.
Proof.
  intros Hg. set (B := Rabs be + 1). assert (HB : 0 < B) by (unfold B; pose proof (Rabs_pos be); lra). pose proof (Rabs_pos_lt _ Hg) as HG.
  pose proof PI_RGT_0 as HP. pose proof PI2_1 as HP1.
  exists (Rmin 1 (Rabs ga / B)), (if Rlt_dec 0 ga then 1 else -1).
  split; [apply Rmin_pos; [lra|apply Rdiv_lt_0_compat; lra]|]. split; [destruct (Rlt_dec 0 ga); auto|].
  intros k Hk. pose proof (Rmin_l 1 (Rabs ga / B)). pose proof (Rmin_r 1 (Rabs ga / B)).
  assert (S0 : 0 < sin k) by (apply sin_gt_0; lra). assert (Sk : sin k < k) by (apply sin_lt_x; lra).
  assert (C0 : 0 < cos k) by (apply cos_gt_0; lra). assert (C1 : cos k < 1) by (apply cos_under; lra).
  (* 1 - cos k <= sin k ^ 2 < sin k * |ga| / B *)
  assert (Q : 1 - cos k <= sin k * sin k). { pose proof (sin2_cos2 k) as S. unfold Rsqr in S. nra. }
  assert (KB : k * B < Rabs ga). { apply Rmult_lt_reg_r with (/ B); [now apply Rinv_0_lt_compat|]. replace (k * B * / B) with k by (field; lra). fold (Rabs ga / B). lra. }
  assert (M : Rabs (be * (cos k - 1)) < Rabs ga * sin k).
  { rewrite Rabs_mult, (Rabs_left (cos k - 1)) by lra. apply Rle_lt_trans with (B * (sin k * sin k)).
    - apply Rmult_le_compat; [apply Rabs_pos|lra|unfold B; lra|lra].
    - replace (B * (sin k * sin k)) with (sin k * (sin k * B)) by ring. rewrite (Rmult_comm (Rabs ga)). apply Rmult_lt_compat_l; [exact S0|].
      apply Rlt_trans with (k * B); [apply Rmult_lt_compat_r; lra|exact KB]. }
  rewrite cos_neg, sin_neg. apply Rabs_def2 in M. destruct (Rlt_dec 0 ga) as [L|L].
  - rewrite Rabs_right in M by lra. lra.
  - rewrite (Rabs_left ga) in M by lra. lra.
Qed.

Lemma start_crosses s rho th : ends_differ s -> Rabs (pbulge (fst s)) <= 1 -> 0 < rho < dist (pos (fst s)) (pos (snd s)) ->
  sideof s (circle_pt (pos (fst s)) rho th) = 0 -> crosses s (pos (fst s)) rho th.
Proof.
  intros Hd Hb Hr Z. destruct s as [a b]. cbn [fst snd] in *. set (u := pbulge a) in *.
  set (dx := px b - px a). set (dy := py b - py a).
  set (X := (1 - u * u) * dx + 2 * u * dy). set (Y := - (1 - u * u) * dy + 2 * u * dx).
  assert (F : forall al, sideof (a, b) (circle_pt (pos a) rho al) = rho * (X * sin al + Y * cos al) - 2 * u * (rho * rho)).
  { intros al. pose proof (sin2_cos2 al) as S. unfold Rsqr in S. unfold sideof, perp, dotp, circle_pt, pos. cbn [fst snd vx vy]. fold u.
    replace (rho * rho) with (rho * rho * (sin al * sin al + cos al * cos al)) by (rewrite S; ring). unfold X, Y, dx, dy. ring. }
  rewrite F in Z.
  set (be := rho * (X * sin th + Y * cos th)). set (ga := rho * (X * cos th - Y * sin th)).
  assert (XY : X * X + Y * Y = (1 + u * u) * (1 + u * u) * (dx * dx + dy * dy)) by (unfold X, Y; ring).
  assert (NG : be * be + ga * ga = rho * rho * (X * X + Y * Y)).
  { pose proof (sin2_cos2 th) as S. unfold Rsqr in S. unfold be, ga.
    transitivity (rho * rho * ((X * X + Y * Y) * (sin th * sin th + cos th * cos th))); [ring|rewrite S; ring]. }
  assert (L2 : rho * rho < dx * dx + dy * dy).
  { pose proof (sqrt_pos ((px a - px b) * (px a - px b) + (py a - py b) * (py a - py b))) as SP.
    unfold dist, pos in Hr. cbn [vx vy] in Hr.
    assert (Q : sqrt ((px a - px b) * (px a - px b) + (py a - py b) * (py a - py b)) * sqrt ((px a - px b) * (px a - px b) + (py a - py b) * (py a - py b)) = dx * dx + dy * dy).
    { rewrite sqrt_sqrt by (apply Rplus_le_le_0_compat; apply Rle_0_sqr). unfold dx, dy. ring. }
    rewrite <- Q. apply Rmult_le_0_lt_compat; lra. }
  assert (GA : ga <> 0).
  { intros E. rewrite E in NG. assert (BE : be = 2 * u * (rho * rho)) by (unfold be; lra). rewrite BE, XY in NG.
    assert (R2 : 0 < rho * rho) by (apply Rmult_lt_0_compat; lra).
    assert (N1 : 4 * (u * u) * (rho * rho) = (1 + u * u) * (1 + u * u) * (dx * dx + dy * dy)).
    { apply Rmult_eq_reg_l with (rho * rho); [|lra]. lra. }
    assert (N2 : 4 * (u * u) <= (1 + u * u) * (1 + u * u)) by (assert (0 <= (1 - u * u) * (1 - u * u)) by apply Rle_0_sqr; lra).
    assert (N3 : 0 < (1 + u * u) * (1 + u * u)) by (assert (0 <= u * u) by apply Rle_0_sqr; apply Rmult_lt_0_compat; lra).
    assert (4 * (u * u) * (rho * rho) <= (1 + u * u) * (1 + u * u) * (rho * rho)) by (apply Rmult_le_compat_r; lra).
    assert ((1 + u * u) * (1 + u * u) * (rho * rho) < (1 + u * u) * (1 + u * u) * (dx * dx + dy * dy)) by (apply Rmult_lt_compat_l; lra). lra. }
  destruct (sign_change be ga GA) as (d & g & Hd0 & Hg & K). exists d, g. split; [exact Hd0|]. split; [exact Hg|].
  assert (T : forall k, sideof (a, b) (circle_pt (pos a) rho (th + k)) = be * (cos k - 1) + ga * sin k).
  { intros k. rewrite F, sin_plus, cos_plus. unfold be at 1, ga at 1. lra. }
  intros k Hk. destruct (K k Hk) as (K1 & K2). replace (th - k) with (th + - k) by ring. rewrite !T. auto.
Qed.

(** The segment meets the circle once, crossing it. *)
Definition arm (s : seg) (z : vec2 R) (rho th : R) : Prop :=
  (exists t, 0 < t < 1 /\ seg_at (fst s) (snd s) t (circle_pt z rho th))
  /\ (forall q, on s q -> dist z q = rho -> q = circle_pt z rho th)
  /\ crosses s z rho th.

Lemma seg_dist s : okseg s -> ends_differ s -> exists f, (forall t q, 0 <= t <= 1 -> seg_at (fst s) (snd s) t q -> dist (pos (fst s)) q = f t)
  /\ (forall t u, 0 <= t < u -> u <= 1 -> f t < f u).
Proof.
  intros Ok Hd. destruct s as [a b]. unfold ends_differ in Hd. cbn [fst snd] in *. destruct (Req_dec (pbulge a) 0) as [E|E].
  - exists (fun t => t * dist (pos a) (pos b)). split.
    + intros t q Ht Hq. apply seg_at_line in Hq; [|exact E]. rewrite Hq. unfold dist, line_pt. cbn [vx vy].
      replace ((vx (pos a) - (vx (pos a) + t * (vx (pos b) - vx (pos a)))) * (vx (pos a) - (vx (pos a) + t * (vx (pos b) - vx (pos a)))) + (vy (pos a) - (vy (pos a) + t * (vy (pos b) - vy (pos a)))) * (vy (pos a) - (vy (pos a) + t * (vy (pos b) - vy (pos a)))))
        with (t * t * ((vx (pos a) - vx (pos b)) * (vx (pos a) - vx (pos b)) + (vy (pos a) - vy (pos b)) * (vy (pos a) - vy (pos b)))) by ring.
      rewrite sqrt_mult; [rewrite sqrt_square by lra; reflexivity|apply Rle_0_sqr|apply Rplus_le_le_0_compat; apply Rle_0_sqr].
    + intros t u Ht Hu. apply Rmult_lt_compat_r; [|lra]. apply sqrt_lt_R0. pose proof (chord2_pos _ _ Hd) as C. unfold chord2 in C.
      replace ((vx (pos a) - vx (pos b)) * (vx (pos a) - vx (pos b)) + (vy (pos a) - vy (pos b)) * (vy (pos a) - vy (pos b)))
        with ((vx (pos b) - vx (pos a)) * (vx (pos b) - vx (pos a)) + (vy (pos b) - vy (pos a)) * (vy (pos b) - vy (pos a))) by ring. exact C.
  - assert (Hb1 : Rabs (pbulge a) <= 1) by (destruct (proj1 Ok) as [?|[_ ?]]; [contradiction|assumption]).
    pose proof (computed_is_arc (pos a) (pos b) (pbulge a) Hd E) as (_ & E1 & _). pose proof (radius_pos (pos a) (pos b) (pbulge a) Hd E) as Hr.
    set (c := centre_of _ _ _) in *. set (r := radius_of _ _ _) in *. set (al := angle c (pos a)) in *. set (w := sweep (pbulge a)).
    exists (fun t => sqrt (2 * (r * r) * (1 - cos (t * w)))). split.
    + intros t q Ht Hq. apply seg_at_arc in Hq; auto. fold c r al w in Hq. rewrite Hq. rewrite E1 at 1. unfold dist, circle_pt. cbn [vx vy]. f_equal.
      rewrite cos_plus, sin_plus. pose proof (sin2_cos2 al) as S. pose proof (sin2_cos2 (t * w)) as S'. unfold Rsqr in S, S'. clearbody al.
      set (A := cos al) in *. set (B := sin al) in *. set (C := cos (t * w)) in *. set (D := sin (t * w)) in *.
      transitivity (r * r * ((B * B + A * A) * (1 - 2 * C + (D * D + C * C)))); [ring|rewrite S, S'; ring].
    + intros t u Ht Hu. pose proof (sweep_bound _ Hb1) as SB. fold w in SB.
      assert (CS : cos (u * w) < cos (t * w)).
      { assert (W : w <> 0) by (apply sweep_nonzero; exact E). pose proof PI_RGT_0.
        assert (G : forall y, 0 < y <= PI -> cos (u * y) < cos (t * y)).
        { intros y Hy. assert (0 <= t * y) by (apply Rmult_le_pos; lra). assert (t * y < u * y) by (apply Rmult_lt_compat_r; lra).
          assert (u * y <= 1 * y) by (apply Rmult_le_compat_r; lra). apply cos_decreasing_1; lra. }
        destruct (Rlt_dec 0 w) as [L|L]; [apply G; lra|]. rewrite <- (cos_neg (u * w)), <- (cos_neg (t * w)).
        replace (- (u * w)) with (u * - w) by ring. replace (- (t * w)) with (t * - w) by ring. apply G. lra. }
      assert (R2 : 0 < r * r) by (apply Rmult_lt_0_compat; lra).
      apply sqrt_lt_1_alt. pose proof (COS_bound (t * w)). split; [apply Rmult_le_pos; lra|]. apply Rmult_lt_compat_l; lra.
Qed.

Lemma start_arm s rho : okseg s -> ends_differ s -> 0 < rho < dist (pos (fst s)) (pos (snd s)) -> exists th, arm s (pos (fst s)) rho th.
Proof.
  intros Ok Hd Hr. destruct (seg_dist s Ok Hd) as (f & Hf & Mono).
  destruct (seg_curve (fst s) (snd s) Ok) as (cx & cy & Cx & Cy & Hq).
  assert (Hb1 : Rabs (pbulge (fst s)) <= 1) by (destruct (proj1 Ok) as [->|[_ H]]; [rewrite Rabs_R0; lra|exact H]).
  set (z := pos (fst s)) in *.
  (* a point at this distance *)
  assert (Ext : exists t, 0 <= t <= 1 /\ f t = rho).
  { set (h := fun t => (vx z - cx t) * (vx z - cx t) + (vy z - cy t) * (vy z - cy t) - rho * rho).
    assert (Ch : continuity h).
    { intros t. assert (K1 : continuity_pt (fun t => vx z - cx t) t) by (apply (continuity_pt_minus (fun _ => vx z) cx); [apply continuity_pt_const; intros u v; reflexivity|apply Cx]).
      assert (K2 : continuity_pt (fun t => vy z - cy t) t) by (apply (continuity_pt_minus (fun _ => vy z) cy); [apply continuity_pt_const; intros u v; reflexivity|apply Cy]).
      apply (continuity_pt_minus (fun t => (vx z - cx t) * (vx z - cx t) + (vy z - cy t) * (vy z - cy t)) (fun _ => rho * rho)); [|apply continuity_pt_const; intros u v; reflexivity].
      apply (continuity_pt_plus (fun t => (vx z - cx t) * (vx z - cx t)) (fun t => (vy z - cy t) * (vy z - cy t))).
      - now apply (continuity_pt_mult (fun t => vx z - cx t) (fun t => vx z - cx t)).
      - now apply (continuity_pt_mult (fun t => vy z - cy t) (fun t => vy z - cy t)). }
    assert (P0 : z = V2 (cx 0) (cy 0)) by (apply Hq, seg_at_0, Ok). assert (P1 : pos (snd s) = V2 (cx 1) (cy 1)) by (apply Hq, seg_at_1, Ok).
    destruct (IVT h 0 1 Ch ltac:(lra)) as (t & Ht & Et).
    - unfold h. rewrite P0 at 1 2 3 4. cbn [vx vy]. nra.
    - unfold h. unfold dist in Hr. rewrite P1 in Hr. cbn [vx vy] in Hr.
      set (N := (vx z - cx 1) * (vx z - cx 1) + (vy z - cy 1) * (vy z - cy 1)) in *.
      assert (N0 : 0 <= N) by (apply Rplus_le_le_0_compat; apply Rle_0_sqr). pose proof (sqrt_sqrt N N0) as SS. pose proof (sqrt_pos N).
      assert (rho * rho < sqrt N * sqrt N) by (apply Rmult_le_0_lt_compat; lra). lra.
    - exists t. split; [exact Ht|]. rewrite <- (Hf t (V2 (cx t) (cy t)) Ht ltac:(now apply Hq)). unfold dist. cbn [vx vy]. unfold h in Et.
      replace ((vx z - cx t) * (vx z - cx t) + (vy z - cy t) * (vy z - cy t)) with (rho * rho) by lra. apply sqrt_square. lra. }
  destruct Ext as (t & Ht & Et).
  destruct (seg_at_exists (fst s) (snd s) t Ok) as (q & Sq). pose proof (Hf t q Ht Sq) as Dq. rewrite Et in Dq.
  assert (Nq : q <> z). { intros ->. unfold dist in Dq. rewrite !Rminus_diag_eq in Dq by reflexivity. rewrite Rmult_0_l, Rplus_0_l, sqrt_0 in Dq. lra. }
  destruct (br_spec z q Nq) as (r' & Hr' & Eq & _).
  assert (ER : r' = rho). { rewrite <- Dq, Eq. unfold dist, circle_pt. cbn [vx vy]. set (g := br z q). pose proof (sin2_cos2 g) as S. unfold Rsqr in S.
    replace ((vx z - (vx z + r' * cos g)) * (vx z - (vx z + r' * cos g)) + (vy z - (vy z + r' * sin g)) * (vy z - (vy z + r' * sin g))) with (r' * r' * (sin g * sin g + cos g * cos g)) by ring.
    rewrite S, Rmult_1_r. symmetry. apply sqrt_square. lra. }
  subst r'. exists (br z q). rewrite <- Eq || idtac.
  assert (Q0 : t <> 0). { intros ->. apply Nq. exact (seg_at_unique _ _ _ _ _ Sq (seg_at_0 _ _ Ok) Ok). }
  assert (Q1 : t <> 1). { intros ->. pose proof (seg_at_unique _ _ _ _ _ Sq (seg_at_1 _ _ Ok) Ok) as N. rewrite N in Dq. lra. }
  split; [|split].
  - exists t. split; [lra|]. rewrite <- Eq. exact Sq.
  - intros q' (u & Hu & Su) Du. rewrite (Hf u q' Hu Su) in Du. rewrite <- Eq.
    destruct (Rtotal_order t u) as [L|[L|L]]; [|subst u; exact (seg_at_unique _ _ _ _ _ Su Sq Ok)|].
    + pose proof (Mono t u ltac:(lra) ltac:(lra)). lra.
    + pose proof (Mono u t ltac:(lra) ltac:(lra)). lra.
  - apply start_crosses; auto. fold z. rewrite <- Eq. apply on_side; [exact Ok|]. exists t. auto.
Qed.

Lemma end_arm s rho : okseg s -> ends_differ s -> 0 < rho < dist (pos (fst s)) (pos (snd s)) -> exists th, arm s (pos (snd s)) rho th.
Proof.
  intros Ok Hd Hr. destruct (start_arm (back s) rho (back_ok s Ok)) as (th & (t & Ht & St) & U & (d & g & Hd0 & Hg & K)).
  - unfold ends_differ in *. cbn [back fst snd]. intros E. apply Hd. symmetry. exact E.
  - cbn [back fst snd]. rewrite dist_sym. exact Hr.
  - change (pos (fst (back s))) with (pos (snd s)) in *. exists th. split; [|split].
    + exists (1 - t). split; [lra|]. apply (seg_at_reverse (fst (back s)) (snd (back s)) (fst s) (snd s)); [reflexivity|reflexivity|cbn; ring|exact St].
    + intros q Hq. apply U. now apply back_on.
    + exists d, (- g). split; [exact Hd0|]. split; [destruct Hg as [->| ->]; [right|left]; ring|]. intros k Hk.
      destruct (K k Hk) as (K1 & K2). rewrite !back_side in K1, K2. split; lra.
Qed.
