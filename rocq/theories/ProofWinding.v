(** Angles followed along segments (C15). *)
From Coq Require Import Reals ZArith Bool List Arith Lra Lia Psatz.
From Verif Require Import Num RNum Res ModelMath ModelSeg ModelPline Spec SpecGeom SpecWinding.
From Verif Require Import ProofR ProofBase ProofArc ProofSlice ProofMeasure ProofWalk.
Import ListNotations.
Local Open Scope R_scope.

Lemma norm_cs k g : k * cos g * (k * cos g) + k * sin g * (k * sin g) = k * k.
Proof.
  pose proof (sin2_cos2 g) as S. unfold Rsqr in S.
  replace (k * k) with (k * k * (sin g * sin g + cos g * cos g)) by (rewrite S; ring). ring.
Qed.

(** ** Uniqueness of the turn *)
Lemma no_jump (f : R -> R) : continuity f -> (forall t, 0 <= t <= 1 -> cos (f t) = 1) -> f 0 < f 1 -> False.
Proof.
  intros Hc H1 HL.
  assert (C0 : congr (f 0) 0).
  { apply cos_sin_congr; [rewrite cos_0; apply H1; lra|]. rewrite sin_0.
    pose proof (H1 0 ltac:(lra)). pose proof (sin2_cos2 (f 0)) as S. unfold Rsqr in S. rewrite H in S.
    assert (sin (f 0) * sin (f 0) = 0) by lra. apply Rmult_integral in H0. destruct H0; assumption. }
  assert (C1 : congr (f 1) 0).
  { apply cos_sin_congr; [rewrite cos_0; apply H1; lra|]. rewrite sin_0.
    pose proof (H1 1 ltac:(lra)). pose proof (sin2_cos2 (f 1)) as S. unfold Rsqr in S. rewrite H in S.
    assert (sin (f 1) * sin (f 1) = 0) by lra. apply Rmult_integral in H0. destruct H0; assumption. }
  assert (B : f 0 + PI < f 1).
  { destruct C0 as (k & E0), C1 as (m & E1). pose proof PI_pos.
    assert (k < m)%Z. { apply lt_IZR. nra. }
    assert (IZR k + 1 <= IZR m) by (rewrite <- plus_IZR; apply IZR_le; lia). nra. }
  pose proof PI_pos.
  destruct (IVT (fun t => f t - (f 0 + PI)) 0 1) as (t & Ht & Et); try lra.
  { intros x. apply continuity_pt_minus; [apply Hc|]. apply continuity_pt_const. intros u v; reflexivity. }
  assert (cos (f t) = 1) by (apply H1; lra).
  replace (f t) with (f 0 + PI) in H0 by lra. rewrite neg_cos, H1 in H0; lra.
Qed.

Lemma turns_unique v1 v2 pt d d' : turns_by v1 v2 pt d -> turns_by v1 v2 pt d' -> d = d'.
Proof.
  intros (f & r & Hf & Hr & Hq & ->) (g & s & Hg & Hs & Hq' & ->).
  assert (K : forall t, 0 <= t <= 1 -> cos (f t - g t) = 1).
  { intros t Ht. destruct (seg_at_exists_any v1 v2 t) as [q Hat].
    pose proof (Hq t q Ht Hat) as E. rewrite (Hq' t q Ht Hat) in E. unfold circle_pt in E. injection E as EX EY.
    pose proof (Hr t Ht). pose proof (Hs t Ht).
    assert (EX' : s t * cos (g t) = r t * cos (f t)) by lra. assert (EY' : s t * sin (g t) = r t * sin (f t)) by lra.
    pose proof (sin2_cos2 (g t)) as S1. pose proof (sin2_cos2 (f t)) as S2. unfold Rsqr in S1, S2.
    assert (ER : s t * s t = r t * r t).
    { rewrite <- (norm_cs (s t) (g t)), EX', EY'. apply norm_cs. }
    assert (E : s t = r t) by nra. rewrite E in EX', EY'.
    apply Rmult_eq_reg_l in EX'; [|lra]. apply Rmult_eq_reg_l in EY'; [|lra].
    rewrite cos_minus, EX', EY'. lra. }
  destruct (Rtotal_order (f 1 - g 1) (f 0 - g 0)) as [L|[E|L]]; [exfalso| lra |exfalso].
  - apply (no_jump (fun t => g t - f t)); [|intros t Ht; rewrite <- (K t Ht), <- cos_neg; f_equal; ring|lra].
    intros x. apply continuity_pt_minus; [apply Hg|apply Hf].
  - apply (no_jump (fun t => f t - g t)); [|exact K|lra].
    intros x. apply continuity_pt_minus; [apply Hf|apply Hg].
Qed.

Lemma path_turns_unique p pt a b : path_turns_by p pt a -> path_turns_by p pt b -> a = b.
Proof.
  intros (ds & H & ->) (es & H' & ->). f_equal. revert es H'.
  induction H as [|[v1 v2] d segs ds Hd _ IH]; intros es H'; inversion H'; subst; [reflexivity|].
  f_equal; [eapply turns_unique; eassumption|now apply IH].
Qed.

(** ** Continuous angles *)
Definition clamp (t : R) : R := (Rabs t - Rabs (t - 1) + 1) / 2.
Lemma clamp_id t : 0 <= t <= 1 -> clamp t = t.
Proof. intros H. unfold clamp. rewrite (Rabs_pos_eq t), (Rabs_left1 (t - 1)) by lra. field. Qed.
Lemma clamp_range t : 0 <= clamp t <= 1.
Proof. unfold clamp, Rabs. destruct (Rcase_abs t), (Rcase_abs (t - 1)); lra. Qed.
Lemma clamp_cont : continuity clamp.
Proof.
  intros x. unfold clamp.
  apply (continuity_pt_div (fun t => Rabs t - Rabs (t - 1) + 1) (fun _ => 2)); [|apply continuity_pt_const; intros u v; reflexivity|lra].
  apply (continuity_pt_plus (fun t => Rabs t - Rabs (t - 1)) (fun _ => 1)); [|apply continuity_pt_const; intros u v; reflexivity].
  apply (continuity_pt_minus Rabs (fun t => Rabs (t - 1))); [apply Rcontinuity_abs|].
  apply (continuity_pt_comp (fun t => t - 1) Rabs); [|apply Rcontinuity_abs].
  apply (continuity_pt_minus (fun t => t) (fun _ => 1)); [apply derivable_continuous_pt, derivable_pt_id|apply continuity_pt_const; intros u v; reflexivity].
Qed.

Lemma cos_sin_atan_div x y : 0 < x ->
  exists r, 0 < r /\ x = r * cos (atan (y / x)) /\ y = r * sin (atan (y / x)).
Proof.
  intros Hx. set (b := atan (y / x)). pose proof (atan_bound (y / x)) as B. fold b in B.
  assert (Hc : 0 < cos b) by (apply cos_gt_0; lra).
  exists (x / cos b). split; [now apply Rdiv_lt_0_compat|]. split; [field; lra|].
  assert (E : tan b = y / x) by apply tan_atan. unfold tan in E.
  replace (x / cos b * sin b) with (x * (sin b / cos b)) by (field; lra). rewrite E. field. lra.
Qed.

(** A curve that stays on one side of a line through the origin can be followed by an angle. *)
Lemma half_plane_angle (x y : R -> R) g : continuity x -> continuity y ->
  (forall t, 0 <= t <= 1 -> 0 < x t * cos g + y t * sin g) ->
  exists phi rho, continuity phi /\ (forall t, 0 <= t <= 1 -> 0 < rho t)
    /\ (forall t, 0 <= t <= 1 -> x t = rho t * cos (phi t) /\ y t = rho t * sin (phi t))
    /\ - PI < phi 1 - phi 0 < PI.
Proof.
  intros Cx Cy H.
  set (u := fun t => x (clamp t) * cos g + y (clamp t) * sin g).
  set (w := fun t => y (clamp t) * cos g - x (clamp t) * sin g).
  assert (Cu : continuity u).
  { intros t. unfold u. apply (continuity_pt_plus (fun t => x (clamp t) * cos g) (fun t => y (clamp t) * sin g)).
    - apply (continuity_pt_mult (fun t => x (clamp t)) (fun _ => cos g)); [|apply continuity_pt_const; intros a b; reflexivity].
      apply (continuity_pt_comp clamp x); [apply clamp_cont|apply Cx].
    - apply (continuity_pt_mult (fun t => y (clamp t)) (fun _ => sin g)); [|apply continuity_pt_const; intros a b; reflexivity].
      apply (continuity_pt_comp clamp y); [apply clamp_cont|apply Cy]. }
  assert (Cw : continuity w).
  { intros t. unfold w. apply (continuity_pt_minus (fun t => y (clamp t) * cos g) (fun t => x (clamp t) * sin g)).
    - apply (continuity_pt_mult (fun t => y (clamp t)) (fun _ => cos g)); [|apply continuity_pt_const; intros a b; reflexivity].
      apply (continuity_pt_comp clamp y); [apply clamp_cont|apply Cy].
    - apply (continuity_pt_mult (fun t => x (clamp t)) (fun _ => sin g)); [|apply continuity_pt_const; intros a b; reflexivity].
      apply (continuity_pt_comp clamp x); [apply clamp_cont|apply Cx]. }
  assert (Pu : forall t, 0 < u t) by (intros t; apply H, clamp_range).
  set (phi := fun t => g + atan (w t / u t)).
  exists phi, (fun t => u t / cos (atan (w t / u t))). split.
  { intros t. unfold phi. apply (continuity_pt_plus (fun _ => g) (fun t => atan (w t / u t))); [apply continuity_pt_const; intros a b; reflexivity|].
    apply (continuity_pt_comp (fun t => w t / u t) atan).
    - apply (continuity_pt_div w u); [apply Cw|apply Cu|]. specialize (Pu t). lra.
    - apply derivable_continuous_pt, derivable_pt_atan. }
  assert (Pc : forall t, 0 < cos (atan (w t / u t))).
  { intros t. pose proof (atan_bound (w t / u t)). apply cos_gt_0; lra. }
  split; [intros t _; apply Rdiv_lt_0_compat; [apply Pu|apply Pc]|]. split.
  - intros t Ht. unfold phi. rewrite cos_plus, sin_plus.
    assert (EW : u t / cos (atan (w t / u t)) * sin (atan (w t / u t)) = w t).
    { pose proof (tan_atan (w t / u t)) as E. unfold tan in E.
      replace (u t / cos (atan (w t / u t)) * sin (atan (w t / u t))) with (u t * (sin (atan (w t / u t)) / cos (atan (w t / u t)))).
      - rewrite E. field. specialize (Pu t). lra.
      - field. specialize (Pc t). lra. }
    assert (EU : u t / cos (atan (w t / u t)) * cos (atan (w t / u t)) = u t).
    { field. specialize (Pc t). lra. }
    set (k := u t / cos (atan (w t / u t))) in *.
    replace (k * (cos g * cos (atan (w t / u t)) - sin g * sin (atan (w t / u t)))) with (cos g * (k * cos (atan (w t / u t))) - sin g * (k * sin (atan (w t / u t)))) by ring.
    replace (k * (sin g * cos (atan (w t / u t)) + cos g * sin (atan (w t / u t)))) with (sin g * (k * cos (atan (w t / u t))) + cos g * (k * sin (atan (w t / u t)))) by ring.
    rewrite EW, EU. unfold u, w. rewrite (clamp_id t Ht). pose proof (sin2_cos2 g) as S. unfold Rsqr in S.
    split.
    + replace (x t) with (x t * (sin g * sin g + cos g * cos g)) at 1 by (rewrite S; ring). ring.
    + replace (y t) with (y t * (sin g * sin g + cos g * cos g)) at 1 by (rewrite S; ring). ring.
  - unfold phi. pose proof (atan_bound (w 1 / u 1)). pose proof (atan_bound (w 0 / u 0)). lra.
Qed.

Lemma continuity_affine a b : continuity (fun t => a + t * b).
Proof. intros t. apply derivable_continuous_pt. exists b. apply deriv_affine. Qed.

(** ** The angle around a point inside a circle *)
Section Inside.
Variables (cx cy r : R).
Hypothesis Hin : cx * cx + cy * cy < r * r.
Hypothesis Hr : 0 < r.

Definition iX (a : R) := cos a * cy - sin a * cx.
Definition iD (a : R) := cx * cos a + cy * sin a.
Definition iG (a : R) := a + atan (iX a / (r + iD a)).

Lemma iXD a : iX a * iX a + iD a * iD a = cx * cx + cy * cy.
Proof.
  unfold iX, iD. pose proof (sin2_cos2 a) as S. unfold Rsqr in S.
  replace (cx * cx + cy * cy) with ((cx * cx + cy * cy) * (sin a * sin a + cos a * cos a)) by (rewrite S; ring). ring.
Qed.

Lemma iD_pos a : 0 < r + iD a.
Proof. pose proof (iXD a). nra. Qed.

Lemma iX_deriv a : derivable_pt_lim iX a (- iD a).
Proof.
  unfold iX, iD. replace (- (cx * cos a + cy * sin a)) with (- sin a * cy - cos a * cx) by ring.
  apply (derivable_pt_lim_minus (fun a => cos a * cy) (fun a => sin a * cx)).
  - replace (- sin a * cy) with (- sin a * cy + cos a * 0) by ring.
    apply (derivable_pt_lim_mult cos (fun _ => cy)); [apply derivable_pt_lim_cos|apply derivable_pt_lim_const].
  - replace (cos a * cx) with (cos a * cx + sin a * 0) by ring.
    apply (derivable_pt_lim_mult sin (fun _ => cx)); [apply derivable_pt_lim_sin|apply derivable_pt_lim_const].
Qed.

Lemma iD_deriv a : derivable_pt_lim (fun a => r + iD a) a (iX a).
Proof.
  unfold iX, iD. replace (cos a * cy - sin a * cx) with (0 + (cx * - sin a + cy * cos a)) by ring.
  apply (derivable_pt_lim_plus (fun _ => r) (fun a => cx * cos a + cy * sin a)); [apply derivable_pt_lim_const|].
  apply (derivable_pt_lim_plus (fun a => cx * cos a) (fun a => cy * sin a)).
  - apply (derivable_pt_lim_scal cos cx a). apply derivable_pt_lim_cos.
  - apply (derivable_pt_lim_scal sin cy a). apply derivable_pt_lim_sin.
Qed.

Definition iG' (a : R) := r * (r + iD a) / ((r + iD a) * (r + iD a) + iX a * iX a).

Lemma iG_deriv a : derivable_pt_lim iG a (iG' a).
Proof.
  pose proof (iD_pos a) as Hp.
  apply (deriv_ext iG a (1 + / (1 + (iX a / (r + iD a)) ^ 2) * ((- iD a * (r + iD a) - iX a * iX a) / (r + iD a)²))).
  - unfold iG. apply (derivable_pt_lim_plus (fun a => a) (fun a => atan (iX a / (r + iD a)))); [apply derivable_pt_lim_id|].
    apply (derivable_pt_lim_comp (fun a => iX a / (r + iD a)) atan); [|apply derivable_pt_lim_atan].
    apply (derivable_pt_lim_div iX (fun a => r + iD a)); [apply iX_deriv|apply iD_deriv|lra].
  - unfold iG', Rsqr. assert (0 < (r + iD a) * (r + iD a) + iX a * iX a) by nra.
    field. split; nra.
Qed.

Lemma iG_pos a : 0 < iG' a.
Proof. pose proof (iD_pos a). unfold iG'. apply Rdiv_lt_0_compat; nra. Qed.

Lemma iG_incr a b : a < b -> iG a < iG b.
Proof.
  intros H. destruct (MVT_cor2 iG iG' a b H) as (c & E & _); [intros c _; apply iG_deriv|].
  pose proof (iG_pos c). assert (0 < iG' c * (b - a)) by (apply Rmult_lt_0_compat; lra). lra.
Qed.

Lemma iG_period a : iG (a + 2 * PI) = iG a + 2 * PI.
Proof.
  unfold iG, iX, iD. destruct (congr_cos_sin (a + 2 * PI) a) as [-> ->]; [exists 1%Z; ring|]. ring.
Qed.

Lemma iG_cont : continuity iG.
Proof. intros a. apply derivable_continuous_pt. exists (iG' a). apply iG_deriv. Qed.

Lemma iG_dir a : exists k, 0 < k /\ cx + r * cos a = k * cos (iG a) /\ cy + r * sin a = k * sin (iG a).
Proof.
  destruct (cos_sin_atan_div (r + iD a) (iX a) (iD_pos a)) as (k & Hk & EX & EY).
  exists k. split; [exact Hk|]. unfold iG. rewrite cos_plus, sin_plus.
  set (b := atan (iX a / (r + iD a))) in *.
  pose proof (sin2_cos2 a) as S. unfold Rsqr in S.
  split.
  - replace (k * (cos a * cos b - sin a * sin b)) with (cos a * (k * cos b) - sin a * (k * sin b)) by ring.
    rewrite <- EX, <- EY. unfold iX, iD.
    replace cx with (cx * (sin a * sin a + cos a * cos a)) at 1 by (rewrite S; ring). ring.
  - replace (k * (sin a * cos b + cos a * sin b)) with (sin a * (k * cos b) + cos a * (k * sin b)) by ring.
    rewrite <- EX, <- EY. unfold iX, iD.
    replace cy with (cy * (sin a * sin a + cos a * cos a)) at 1 by (rewrite S; ring). ring.
Qed.
End Inside.

Definition inside_circle (c : vec2 R) (r : R) (pt : vec2 R) : Prop :=
  (vx c - vx pt) * (vx c - vx pt) + (vy c - vy pt) * (vy c - vy pt) < r * r.

(** An arc followed from a point inside its circle. *)
Lemma turn_inside v1 v2 pt c r a : pbulge v1 <> 0 -> is_arc (pos v1) (pos v2) (pbulge v1) c r a ->
  (forall t q, seg_at v1 v2 t q -> q = circle_pt c r (a + t * sweep (pbulge v1))) ->
  0 < r -> Rabs (pbulge v1) <= 1 -> inside_circle c r pt ->
  exists d, turns_by v1 v2 pt d /\ (0 < pbulge v1 -> 0 < d < 2 * PI) /\ (pbulge v1 < 0 -> - (2 * PI) < d < 0).
Proof.
  intros Hb HA Hat Hr Hb1 Hin. unfold inside_circle in Hin.
  set (X := vx c - vx pt) in *. set (Y := vy c - vy pt) in *.
  exists (iG X Y r (a + sweep (pbulge v1)) - iG X Y r a). split.
  - assert (K : forall t, { k | 0 < k /\ X + r * cos (a + t * sweep (pbulge v1)) = k * cos (iG X Y r (a + t * sweep (pbulge v1)))
                         /\ Y + r * sin (a + t * sweep (pbulge v1)) = k * sin (iG X Y r (a + t * sweep (pbulge v1))) }).
    { intros t. exists (sqrt ((X + r * cos (a + t * sweep (pbulge v1))) * (X + r * cos (a + t * sweep (pbulge v1))) + (Y + r * sin (a + t * sweep (pbulge v1))) * (Y + r * sin (a + t * sweep (pbulge v1))))).
      destruct (iG_dir X Y r Hin Hr (a + t * sweep (pbulge v1))) as (k & Hk & EX & EY).
      rewrite EX, EY. set (g := iG X Y r (a + t * sweep (pbulge v1))).
      pose proof (sin2_cos2 g) as S. unfold Rsqr in S.
      rewrite (sqrt_of_sqr k); [|lra|].
      - split; [exact Hk|]. split; reflexivity.
      - apply norm_cs. }
    exists (fun t => iG X Y r (a + t * sweep (pbulge v1))), (fun t => proj1_sig (K t)). split; [|split; [|split]].
    + intros t. apply (continuity_pt_comp (fun t => a + t * sweep (pbulge v1)) (iG X Y r)); [apply continuity_affine|now apply iG_cont].
    + intros t _. apply (proj2_sig (K t)).
    + intros t q _ Hq. rewrite (Hat t q Hq). destruct (K t) as (k & Hk & EX & EY). cbn [proj1_sig].
      unfold circle_pt. rewrite <- EX, <- EY. unfold X, Y. apply vec2_eq; cbn [vx vy]; ring.
    + rewrite Rmult_1_l, Rmult_0_l, Rplus_0_r. reflexivity.
  - pose proof (sweep_bound _ Hb1) as SB. pose proof (sweep_nonzero _ Hb) as SN. pose proof PI_pos.
    pose proof (atan_sign (pbulge v1)) as (S1 & S2 & _). 
    split; intros HS.
    + assert (0 < sweep (pbulge v1)). { unfold sweep. apply Rmult_lt_0_compat; [lra|]. rewrite <- atan_0. now apply atan_increasing. }
      split.
      * pose proof (iG_incr X Y r Hin Hr a (a + sweep (pbulge v1)) ltac:(lra)). lra.
      * pose proof (iG_incr X Y r Hin Hr (a + sweep (pbulge v1)) (a + 2 * PI) ltac:(lra)). rewrite iG_period in H1. lra.
    + assert (sweep (pbulge v1) < 0). { unfold sweep. assert (atan (pbulge v1) < 0); [|lra]. rewrite <- atan_0. now apply atan_increasing. }
      split.
      * pose proof (iG_incr X Y r Hin Hr a (a + sweep (pbulge v1) + 2 * PI) ltac:(lra)). rewrite iG_period in H1. lra.
      * pose proof (iG_incr X Y r Hin Hr (a + sweep (pbulge v1)) a ltac:(lra)). lra.
Qed.

(** A segment on one side of a line through the point. *)
Lemma turn_half_plane v1 v2 pt (x y : R -> R) ux uy :
  (forall t q, seg_at v1 v2 t q -> q = V2 (vx pt + x t) (vy pt + y t)) ->
  continuity x -> continuity y -> (forall t, 0 <= t <= 1 -> 0 < x t * ux + y t * uy) ->
  exists d, turns_by v1 v2 pt d /\ - PI < d < PI.
Proof.
  intros Hat Cx Cy H.
  assert (Hne : ux <> 0 \/ uy <> 0).
  { destruct (Req_dec ux 0) as [->|]; [|auto]. destruct (Req_dec uy 0) as [->|]; [|auto].
    specialize (H 0 ltac:(lra)). lra. }
  set (g := ratan2 uy ux). set (L := sqrt (ux * ux + uy * uy)).
  destruct (ratan2_spec uy ux Hne) as (EX & EY & _). fold g L in EX, EY.
  assert (HL : 0 < L). { apply sqrt_lt_R0. destruct Hne as [N|N]; apply sumsq_pos; auto. }
  destruct (half_plane_angle x y g Cx Cy) as (phi & rho & Cp & Pr & Hq & Hd).
  { intros t Ht. specialize (H t Ht). rewrite EX, EY in H.
    assert (0 < L * (x t * cos g + y t * sin g)) by nra. nra. }
  exists (phi 1 - phi 0). split; [|exact Hd]. exists phi, rho. split; [exact Cp|]. split; [exact Pr|]. split; [|reflexivity].
  intros t q Ht Hs. rewrite (Hat t q Hs). destruct (Hq t Ht) as [-> ->]. reflexivity.
Qed.

Lemma turn_line v1 v2 pt : pbulge v1 = 0 -> ~ on_seg v1 v2 pt ->
  exists d, turns_by v1 v2 pt d /\ - PI < d < PI.
Proof.
  intros Hb Hoff.
  set (PX := px v1 - vx pt). set (PY := py v1 - vy pt). set (dx := px v2 - px v1). set (dy := py v2 - py v1).
  assert (Hoff' : forall t, 0 <= t <= 1 -> PX + t * dx <> 0 \/ PY + t * dy <> 0).
  { intros t Ht. destruct (Req_dec (PX + t * dx) 0) as [E1|]; [|auto]. destruct (Req_dec (PY + t * dy) 0) as [E2|]; [|auto].
    exfalso. apply Hoff. exists t. split; [exact Ht|]. left. split; [exact Hb|]. unfold line_pt, pos. cbn [vx vy].
    apply vec2_eq; cbn [vx vy]; unfold PX, PY, dx, dy in *; lra. }
  assert (Hat : forall t q, seg_at v1 v2 t q -> q = V2 (vx pt + (PX + t * dx)) (vy pt + (PY + t * dy))).
  { intros t q Hq. apply seg_at_line in Hq; [|exact Hb]. rewrite Hq. unfold line_pt, pos. cbn [vx vy].
    apply vec2_eq; cbn [vx vy]; unfold PX, PY, dx, dy; ring. }
  assert (G : exists ux uy, forall t, 0 <= t <= 1 -> 0 < (PX + t * dx) * ux + (PY + t * dy) * uy).
  { destruct (Rle_dec 0 (PX * dx + PY * dy)) as [L|L].
    - exists PX, PY. intros t Ht. pose proof (Hoff' 0 ltac:(lra)) as N. rewrite !Rmult_0_l, !Rplus_0_r in N.
      assert (0 < PX * PX + PY * PY) by (apply sumsq_pos; exact N).
      assert (0 <= t * (PX * dx + PY * dy)) by (apply Rmult_le_pos; lra). nra.
    - destruct (Rle_dec ((PX + dx) * dx + (PY + dy) * dy) 0) as [M|M].
      + exists (PX + dx), (PY + dy). intros t Ht. pose proof (Hoff' 1 ltac:(lra)) as N. rewrite !Rmult_1_l in N.
        assert (0 < (PX + dx) * (PX + dx) + (PY + dy) * (PY + dy)) by (apply sumsq_pos; exact N).
        assert (0 <= (1 - t) * - ((PX + dx) * dx + (PY + dy) * dy)) by (apply Rmult_le_pos; lra). nra.
      + set (D := dx * dx + dy * dy). assert (HD : 0 < D) by (unfold D; nra).
        set (s := - (PX * dx + PY * dy) / D).
        assert (Hs : 0 <= s <= 1).
        { unfold s. split; [apply Rlt_le, Rdiv_lt_0_compat; lra|]. apply Rmult_le_reg_r with D; [exact HD|].
          replace (- (PX * dx + PY * dy) / D * D) with (- (PX * dx + PY * dy)) by (field; lra). unfold D. lra. }
        exists (PX + s * dx), (PY + s * dy). intros t Ht. pose proof (Hoff' s Hs) as N.
        assert (0 < (PX + s * dx) * (PX + s * dx) + (PY + s * dy) * (PY + s * dy)) by (apply sumsq_pos; exact N).
        assert (E : (PX + s * dx) * dx + (PY + s * dy) * dy = 0).
        { replace ((PX + s * dx) * dx + (PY + s * dy) * dy) with (PX * dx + PY * dy + s * D) by (unfold D; ring).
          unfold s. field. lra. }
        replace ((PX + t * dx) * (PX + s * dx) + (PY + t * dy) * (PY + s * dy))
          with ((PX + s * dx) * (PX + s * dx) + (PY + s * dy) * (PY + s * dy) + (t - s) * ((PX + s * dx) * dx + (PY + s * dy) * dy)) by ring.
        rewrite E. lra. }
  destruct G as (ux & uy & G).
  apply (turn_half_plane v1 v2 pt (fun t => PX + t * dx) (fun t => PY + t * dy) ux uy); auto using continuity_affine.
Qed.

Lemma turn_outside v1 v2 pt c r a : pbulge v1 <> 0 -> is_arc (pos v1) (pos v2) (pbulge v1) c r a ->
  (forall t q, seg_at v1 v2 t q -> q = circle_pt c r (a + t * sweep (pbulge v1))) ->
  0 < r -> ~ inside_circle c r pt -> ~ on_seg v1 v2 pt ->
  exists d, turns_by v1 v2 pt d /\ - PI < d < PI.
Proof.
  intros Hb HA Hat Hr Hout Hoff. unfold inside_circle in Hout.
  set (X := vx c - vx pt) in *. set (Y := vy c - vy pt) in *. set (th := sweep (pbulge v1)) in *.
  apply (turn_half_plane v1 v2 pt (fun t => X + r * cos (a + t * th)) (fun t => Y + r * sin (a + t * th)) X Y).
  - intros t q Hq. rewrite (Hat t q Hq). unfold circle_pt, X, Y. apply vec2_eq; cbn [vx vy]; ring.
  - intros t. apply derivable_continuous_pt. eexists. apply (derivable_pt_lim_plus (fun _ => X) (fun t => r * cos (a + t * th))); [apply derivable_pt_lim_const|].
    apply (derivable_pt_lim_scal (fun t => cos (a + t * th)) r t). apply deriv_cos_affine.
  - intros t. apply derivable_continuous_pt. eexists. apply (derivable_pt_lim_plus (fun _ => Y) (fun t => r * sin (a + t * th))); [apply derivable_pt_lim_const|].
    apply (derivable_pt_lim_scal (fun t => sin (a + t * th)) r t). apply deriv_sin_affine.
  - intros t Ht. apply Rnot_le_lt. intros HN. apply Hoff. exists t. split; [exact Ht|].
    right. split; [exact Hb|]. exists c, r, a. split; [exact HA|].
    set (e := cos (a + t * th)) in *. set (s := sin (a + t * th)) in *.
    assert (S : s * s + e * e = 1) by apply sin2_cos2.
    set (D := X * e + Y * s). set (N := X * X + Y * Y) in *.
    assert (HD : D * D + (X * s - Y * e) * (X * s - Y * e) = N).
    { unfold D, N. replace (X * X + Y * Y) with ((X * X + Y * Y) * (s * s + e * e)) by (rewrite S; ring). ring. }
    assert (HN' : N + r * D <= 0) by (unfold N, D; lra).
    assert (HrN : r * r <= N) by lra.
    assert (N * N <= r * D * (r * D)) by nra.
    assert (D * D <= N) by (pose proof (Rle_0_sqr (X * s - Y * e)) as Q; unfold Rsqr in Q; lra).
    assert (N * N <= r * r * N). { assert (r * r * (D * D) <= r * r * N) by (apply Rmult_le_compat_l; nra). nra. }
    assert (HNr : N = r * r). { assert (0 < N) by nra. assert (N <= r * r) by (apply Rmult_le_reg_r with N; lra). lra. }
    assert (H2 : D = - r).
    { assert (D <= - r) by (apply Rmult_le_reg_l with r; lra).
      assert (r * r <= D * D) by nra. assert (E : (D + r) * (D - r) = 0) by (ring_simplify; nra).
      apply Rmult_integral in E. destruct E; lra. }
    assert (Z : (X + r * e) * (X + r * e) + (Y + r * s) * (Y + r * s) = 0).
    { replace ((X + r * e) * (X + r * e) + (Y + r * s) * (Y + r * s)) with (N + 2 * r * D + r * r * (s * s + e * e)) by (unfold N, D; ring).
      rewrite S, HNr, H2. ring. }
    apply Rplus_sqr_eq_0 in Z as [Z1 Z2].
    fold th. unfold circle_pt. fold e s. apply vec2_eq; cbn [vx vy]; unfold X, Y in *; lra.
Qed.
