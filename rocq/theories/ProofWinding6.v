(** The winding number does not change away from the path (C50). *)
From Coq Require Import Reals ZArith Bool List Arith Lra Lia Psatz.
From Verif Require Import Num RNum Res ModelMath ModelSeg ModelPline Spec SpecGeom SpecBox SpecWinding.
From Verif Require Import ProofR ProofBase ProofIter ProofArc ProofArc2 ProofSlice ProofMeasure ProofWalk ProofIntr ProofWinding ProofWinding2 ProofWinding3 ProofWinding4.
Import ListNotations.
Local Open Scope R_scope.

(** ** Segments as curves *)
Lemma continuity_circle k r a w : continuity (fun t => k + r * cos (a + t * w)) /\ continuity (fun t => k + r * sin (a + t * w)).
Proof.
  split; intros t.
  - apply (continuity_pt_plus (fun _ => k) (fun t => r * cos (a + t * w))); [apply continuity_pt_const; intros u v; reflexivity|].
    apply (continuity_pt_mult (fun _ => r) (fun t => cos (a + t * w))); [apply continuity_pt_const; intros u v; reflexivity|].
    apply (continuity_pt_comp (fun t => a + t * w) cos); [apply continuity_affine|apply continuity_cos].
  - apply (continuity_pt_plus (fun _ => k) (fun t => r * sin (a + t * w))); [apply continuity_pt_const; intros u v; reflexivity|].
    apply (continuity_pt_mult (fun _ => r) (fun t => sin (a + t * w))); [apply continuity_pt_const; intros u v; reflexivity|].
    apply (continuity_pt_comp (fun t => a + t * w) sin); [apply continuity_affine|apply continuity_sin].
Qed.

Lemma seg_curve v1 v2 : seg_ok v1 v2 -> exists x y, continuity x /\ continuity y /\ forall t q, seg_at v1 v2 t q <-> q = V2 (x t) (y t).
Proof.
  intros [_ H]. destruct (Req_dec (pbulge v1) 0) as [E|E].
  - exists (fun t => vx (pos v1) + t * (vx (pos v2) - vx (pos v1))), (fun t => vy (pos v1) + t * (vy (pos v2) - vy (pos v1))).
    split; [apply continuity_affine|]. split; [apply continuity_affine|]. intros t q. now apply seg_at_line.
  - set (c := centre_of (pos v1) (pos v2) (pbulge v1)). set (r := radius_of (pos v1) (pos v2) (pbulge v1)). set (a := angle c (pos v1)).
    exists (fun t => vx c + r * cos (a + t * sweep (pbulge v1))), (fun t => vy c + r * sin (a + t * sweep (pbulge v1))).
    split; [apply continuity_circle|]. split; [apply continuity_circle|]. intros t q. apply seg_at_arc; auto.
Qed.

(** ** Two viewpoints *)
Lemma opposite_between x x' Z r r' f g : 0 < r -> 0 < r' -> Z = circle_pt x r f -> Z = circle_pt x' r' g -> cos (g - f) = -1 ->
  exists t, 0 <= t <= 1 /\ Z = line_pt x x' t.
Proof.
  intros Hr Hr' E E' C. rewrite cos_minus in C.
  pose proof (sin2_cos2 f) as S1. pose proof (sin2_cos2 g) as S2. unfold Rsqr in S1, S2.
  assert (Q : (cos g + cos f) * (cos g + cos f) + (sin g + sin f) * (sin g + sin f) = 0).
  { replace ((cos g + cos f) * (cos g + cos f) + (sin g + sin f) * (sin g + sin f))
      with ((sin g * sin g + cos g * cos g) + (sin f * sin f + cos f * cos f) + 2 * (cos g * cos f + sin g * sin f)) by ring.
    rewrite S1, S2, C. ring. }
  assert (Ec : cos g = - cos f) by (pose proof (Rplus_sqr_eq_0_l (cos g + cos f) (sin g + sin f) Q); lra).
  assert (Es : sin g = - sin f) by (rewrite Rplus_comm in Q; pose proof (Rplus_sqr_eq_0_l (sin g + sin f) (cos g + cos f) Q); lra).
  rewrite E in E'. unfold circle_pt in E'. injection E' as EX EY. rewrite Ec in EX. rewrite Es in EY.
  exists (r / (r + r')). split.
  - split; [apply Rmult_le_pos; [lra|apply Rlt_le, Rinv_0_lt_compat; lra]|].
    apply (Rmult_le_reg_r (r + r')); [lra|]. unfold Rdiv. rewrite Rmult_assoc, Rinv_l by lra. lra.
  - rewrite E. unfold circle_pt, line_pt. apply vec2_eq; cbn [vx vy].
    + replace (vx x') with (vx x + (r + r') * cos f) by lra. field. lra.
    + replace (vy x') with (vy x + (r + r') * sin f) by lra. field. lra.
Qed.

Definition shift (x x' Z : vec2 R) : R :=
  let d := br x' Z - br x Z in
  if Rlt_dec PI d then d - 2 * PI else if Rlt_dec d (- PI) then d + 2 * PI else d.

Lemma cos_npi : cos (- PI) = -1.
Proof. rewrite cos_neg. apply cos_PI. Qed.

Lemma shift_spec x x' Z : (forall t, 0 <= t <= 1 -> Z <> line_pt x x' t) ->
  congr (br x' Z - br x Z) (shift x x' Z) /\ - PI < shift x x' Z < PI.
Proof.
  intros H. pose proof PI_pos.
  assert (N : Z <> x) by (intros ->; apply (H 0); [lra|]; unfold line_pt; apply vec2_eq; cbn; ring).
  assert (N' : Z <> x') by (intros ->; apply (H 1); [lra|]; unfold line_pt; apply vec2_eq; cbn; ring).
  destruct (br_spec x Z N) as (r & Hr & E & B). destruct (br_spec x' Z N') as (r' & Hr' & E' & B').
  assert (D : cos (br x' Z - br x Z) <> -1).
  { intros C. destruct (opposite_between x x' Z r r' _ _ Hr Hr' E E' C) as (t & Ht & Et). exact (H t Ht Et). }
  assert (D1 : br x' Z - br x Z <> PI) by (intros Q; apply D; rewrite Q; apply cos_PI).
  assert (D2 : br x' Z - br x Z <> - PI) by (intros Q; apply D; rewrite Q; apply cos_npi).
  unfold shift. destruct (Rlt_dec PI _) as [L|L]; [|destruct (Rlt_dec _ (- PI)) as [L'|L']].
  - split; [exists 1%Z; ring|lra].
  - split; [exists (-1)%Z; ring|lra].
  - split; [apply congr_refl|lra].
Qed.

(** A continuous function that avoids the odd multiples of pi stays between two of them. *)
Lemma odd_avoided (f : R -> R) (k m : Z) a b : continuity f -> (forall t, 0 <= t <= 1 -> cos (f t) <> -1) ->
  f 0 = a + IZR k * (2 * PI) -> f 1 = b + IZR m * (2 * PI) -> - PI < a < PI -> - PI < b < PI -> (k < m)%Z -> False.
Proof.
  intros Hc H E0 E1 A B L. pose proof PI_pos.
  assert (L' : IZR k + 1 <= IZR m) by (rewrite <- plus_IZR; apply IZR_le; lia).
  destruct (IVT (fun t => f t - (IZR k * (2 * PI) + PI)) 0 1) as (t & Ht & Et).
  - intros x. apply continuity_pt_minus; [apply Hc|]. apply continuity_pt_const. intros u v; reflexivity.
  - lra.
  - rewrite E0. lra.
  - rewrite E1. nra.
  - apply (H t Ht). replace (f t) with (PI + IZR k * (2 * PI)) by lra. rewrite <- cos_PI.
    apply congr_cos. exists k. ring.
Qed.

Lemma turn_shift v1 v2 x x' d d' : seg_ok v1 v2 -> (forall t, 0 <= t <= 1 -> ~ on_seg v1 v2 (line_pt x x' t)) ->
  turns_by v1 v2 x d -> turns_by v1 v2 x' d' -> d' - d = shift x x' (pos v2) - shift x x' (pos v1).
Proof.
  intros Hok Hoff (f & r & Cf & Rf & Qf & ->) (g & r' & Cg & Rg & Qg & ->).
  assert (K : forall t q, 0 <= t <= 1 -> seg_at v1 v2 t q -> cos (g t - f t) <> -1 /\ congr (g t - f t) (shift x x' q) /\ - PI < shift x x' q < PI).
  { intros t q Ht Hq. pose proof (Qf t q Ht Hq) as Ef. pose proof (Qg t q Ht Hq) as Eg. pose proof (Rf t Ht). pose proof (Rg t Ht).
    split.
    - intros C. destruct (opposite_between x x' q (r t) (r' t) (f t) (g t)) as (u & Hu & Eu); auto.
      apply (Hoff u Hu). rewrite <- Eu. exists t. auto.
    - destruct (shift_spec x x' q) as (C & B).
      { intros u Hu Eu. apply (Hoff u Hu). rewrite <- Eu. exists t. auto. }
      split; [|exact B]. eapply congr_trans; [|exact C].
      assert (P : forall c s a, 0 < s -> q = circle_pt c s a -> congr a (br c q)).
      { intros c s a Hs E. assert (Nq : q <> c).
        { intros Q. rewrite E in Q. unfold circle_pt in Q. apply (f_equal (fun v => (vx v - vx c) * (vx v - vx c) + (vy v - vy c) * (vy v - vy c))) in Q.
          cbn [vx vy] in Q. pose proof (sin2_cos2 a) as S. unfold Rsqr in S. nra. }
        destruct (br_spec c q Nq) as (s' & Hs' & E' & _).
        assert (ED : s = s').
        { assert (s * s = s' * s'); [|nra]. rewrite E in E' at 1. unfold circle_pt in E'. injection E' as EX EY.
          pose proof (sin2_cos2 a) as S1. pose proof (sin2_cos2 (br c q)) as S2. unfold Rsqr in S1, S2. 
          rewrite <- (norm_cs s a), <- (norm_cs s' (br c q)). f_equal; f_equal; lra. }
        subst s'. rewrite E in E' at 1. apply cos_sin_congr; unfold circle_pt in E'; injection E' as EX EY.
        - apply (Rmult_eq_reg_l s); lra.
        - apply (Rmult_eq_reg_l s); lra. }
      apply congr_minus; [eapply P; [|exact Eg]; auto|eapply P; [|exact Ef]; auto]. }
  destruct (K 0 (pos v1) ltac:(lra) (seg_at_0 v1 v2 Hok)) as (_ & (k & E0) & B0).
  destruct (K 1 (pos v2) ltac:(lra) (seg_at_1 v1 v2 Hok)) as (_ & (m & E1) & B1).
  assert (E : k = m).
  { assert (C : continuity (fun t => g t - f t)) by (intros t; apply continuity_pt_minus; [apply Cg|apply Cf]).
    assert (A : forall t, 0 <= t <= 1 -> cos (g t - f t) <> -1).
    { intros t Ht. destruct (seg_at_exists v1 v2 t Hok) as (q & Hq). apply (K t q Ht Hq). }
    destruct (Z.lt_trichotomy k m) as [L|[L|L]]; [exfalso|exact L|exfalso].
    - exact (odd_avoided (fun t => g t - f t) k m _ _ C A E0 E1 B0 B1 L).
    - apply (odd_avoided (fun t => f t - g t) (- k) (- m) (- shift x x' (pos v1)) (- shift x x' (pos v2))); try lra; try lia.
      + intros t; apply continuity_pt_minus; [apply Cf|apply Cg].
      + intros t Ht. replace (f t - g t) with (- (g t - f t)) by ring. rewrite cos_neg. now apply A.
      + rewrite opp_IZR. lra.
      + rewrite opp_IZR. lra. }
  subst m. lra.
Qed.

Lemma turns_sum_shift x x' segs ds ds' : (forall v1 v2, In (v1, v2) segs -> seg_ok v1 v2) ->
  (forall v1 v2 t, In (v1, v2) segs -> 0 <= t <= 1 -> ~ on_seg v1 v2 (line_pt x x' t)) ->
  Forall2 (fun s d => turns_by (fst s) (snd s) x d) segs ds -> Forall2 (fun s d => turns_by (fst s) (snd s) x' d) segs ds' ->
  rsum ds' - rsum ds = rsum (map (fun s => shift x x' (pos (snd s)) - shift x x' (pos (fst s))) segs).
Proof.
  intros Hok Hoff F. revert ds'. induction F as [|[v1 v2] d segs ds Hd F IH]; intros ds' F'; inversion F'; subst.
  - cbn. ring.
  - cbn [map fst snd] in *. rewrite !rsum_cons.
    rewrite <- (IH (fun a b H => Hok a b (or_intror H)) (fun a b t H => Hoff a b t (or_intror H)) l' H3).
    rewrite <- (turn_shift v1 v2 x x' d y (Hok v1 v2 (or_introl eq_refl)) (fun t => Hoff v1 v2 t (or_introl eq_refl)) Hd H1). ring.
Qed.

(** The winding number is the same at both ends of a straight line that does not meet the path. *)
Lemma winding_straight p x x' : pline_ok p -> (forall t, 0 <= t <= 1 -> ~ on_path p (line_pt x x' t)) ->
  winding_number p x = winding_number p x'.
Proof.
  intros Hok Hoff.
  assert (Ex : line_pt x x' 0 = x) by (unfold line_pt; apply vec2_eq; cbn; ring).
  assert (Ex' : line_pt x x' 1 = x') by (unfold line_pt; apply vec2_eq; cbn; ring).
  assert (O : ~ on_path p x) by (rewrite <- Ex; apply Hoff; lra).
  assert (O' : ~ on_path p x') by (rewrite <- Ex'; apply Hoff; lra).
  destruct (is_closed p) eqn:C; [destruct (le_lt_dec 2 (vertex_count p)) as [L|L]|].
  - destruct (winding_closed p x Hok C L O) as (w & E & (ds & F & S) & _).
    destruct (winding_closed p x' Hok C L O') as (w' & E' & (ds' & F' & S') & _).
    rewrite E, E'. f_equal.
    pose proof (turns_sum_shift x x' _ ds ds' Hok (fun v1 v2 t H Ht Hon => Hoff t Ht (ex_intro _ v1 (ex_intro _ v2 (conj H Hon)))) F F') as G.
    rewrite C, (loop_telescope (fun v => shift x x' (pos v)) (vtx p)) in G.
    pose proof PI_pos. apply eq_IZR. nra.
  - rewrite !winding_trivial; auto.
  - rewrite !winding_trivial; auto.
Qed.

(** ** Room around a point off the path *)
Lemma seg_room v1 v2 x : seg_ok v1 v2 -> ~ on_seg v1 v2 x -> exists e, 0 < e /\ forall q, on_seg v1 v2 q -> e <= dist x q.
Proof.
  intros Hok Hoff. destruct (seg_curve v1 v2 Hok) as (cx & cy & Cx & Cy & Hq).
  set (f := fun t => (vx x - cx t) * (vx x - cx t) + (vy x - cy t) * (vy x - cy t)).
  assert (Cf : continuity f).
  { intros t. assert (K1 : continuity_pt (fun t => vx x - cx t) t) by (apply (continuity_pt_minus (fun _ => vx x) cx); [apply continuity_pt_const; intros u v; reflexivity|apply Cx]).
    assert (K2 : continuity_pt (fun t => vy x - cy t) t) by (apply (continuity_pt_minus (fun _ => vy x) cy); [apply continuity_pt_const; intros u v; reflexivity|apply Cy]).
    apply (continuity_pt_plus (fun t => (vx x - cx t) * (vx x - cx t)) (fun t => (vy x - cy t) * (vy x - cy t))).
    - now apply (continuity_pt_mult (fun t => vx x - cx t) (fun t => vx x - cx t)).
    - now apply (continuity_pt_mult (fun t => vy x - cy t) (fun t => vy x - cy t)). }
  destruct (continuity_ab_min f 0 1) as (m & Hm & Bm); [lra|intros c _; apply Cf|].
  assert (P : 0 < f m).
  { apply Rnot_le_lt. intros N. apply Hoff. exists m. split; [exact Bm|]. apply Hq.
    assert (Q : f m = 0) by (apply Rle_antisym; [exact N|apply Rplus_le_le_0_compat; apply Rle_0_sqr]). unfold f in Q.
    pose proof (Rplus_sqr_eq_0_l _ _ Q). rewrite Rplus_comm in Q. pose proof (Rplus_sqr_eq_0_l _ _ Q). apply vec2_eq; cbn [vx vy]; lra. }
  exists (sqrt (f m)). split; [now apply sqrt_lt_R0|]. intros q (t & Ht & Hat). apply Hq in Hat. subst q.
  unfold dist. cbn [vx vy]. apply sqrt_le_1_alt. apply (Hm t Ht).
Qed.

Lemma segs_room segs x : (forall v1 v2, In (v1, v2) segs -> seg_ok v1 v2 /\ ~ on_seg v1 v2 x) ->
  exists e, 0 < e /\ forall v1 v2 q, In (v1, v2) segs -> on_seg v1 v2 q -> e <= dist x q.
Proof.
  induction segs as [|[a b] t IH]; intros H.
  - exists 1. split; [lra|]. intros v1 v2 q [].
  - destruct IH as (e & He & K); [intros v1 v2 I; apply H; now right|].
    destruct (H a b (or_introl eq_refl)) as (Ho & Hf). destruct (seg_room a b x Ho Hf) as (e' & He' & K').
    exists (Rmin e e'). split; [now apply Rmin_pos|]. intros v1 v2 q [I|I] Hq.
    + injection I as <- <-. eapply Rle_trans; [apply Rmin_r|]. now apply K'.
    + eapply Rle_trans; [apply Rmin_l|]. eapply K; eassumption.
Qed.

Lemma path_room p x : pline_ok p -> ~ on_path p x -> exists e, 0 < e /\ forall q, on_path p q -> e <= dist x q.
Proof.
  intros Hok Hoff. destruct (segs_room (spec_segs (vtx p) (is_closed p)) x) as (e & He & K).
  - intros v1 v2 I. split; [now apply Hok|]. intros N. apply Hoff. exists v1, v2. auto.
  - exists e. split; [exact He|]. intros q (v1 & v2 & I & Hq). eapply K; eassumption.
Qed.

Lemma dist_line x x' t : 0 <= t <= 1 -> dist x (line_pt x x' t) <= dist x x'.
Proof.
  intros Ht. unfold dist, line_pt. cbn [vx vy]. apply sqrt_le_1_alt.
  assert (0 <= (vx x' - vx x) * (vx x' - vx x)) by apply Rle_0_sqr. assert (0 <= (vy x' - vy x) * (vy x' - vy x)) by apply Rle_0_sqr.
  assert (t * t <= 1) by nra.
  replace ((vx x - (vx x + t * (vx x' - vx x))) * (vx x - (vx x + t * (vx x' - vx x))) + (vy x - (vy x + t * (vy x' - vy x))) * (vy x - (vy x + t * (vy x' - vy x))))
    with (t * t * ((vx x' - vx x) * (vx x' - vx x) + (vy x' - vy x) * (vy x' - vy x))) by ring.
  nra.
Qed.

Lemma winding_local p x : pline_ok p -> ~ on_path p x ->
  exists e, 0 < e /\ forall x', dist x x' < e -> ~ on_path p x' /\ winding_number p x' = winding_number p x.
Proof.
  intros Hok Hoff. destruct (path_room p x Hok Hoff) as (e & He & K). exists e. split; [exact He|]. intros x' Hx'.
  split.
  - intros N. specialize (K x' N). lra.
  - symmetry. apply winding_straight; [exact Hok|]. intros t Ht N. specialize (K _ N). pose proof (dist_line x x' t Ht). lra.
Qed.

(** ** Along a curve *)
Definition wn (p : pline R) (x : vec2 R) : Z := match winding_number p x with Ret w => w | Panic _ => 0%Z end.

Lemma winding_wn (p : pline R) x : winding_number p x = Ret (wn p x).
Proof.
  unfold wn. unfold winding_number. destruct (_ || _); [reflexivity|]. rewrite iter_segments_spec. reflexivity.
Qed.

(** A locally constant integer does not change. *)
Lemma locally_constant (f : R -> Z) : (forall t, 0 <= t <= 1 -> exists e, 0 < e /\ forall s, 0 <= s <= 1 -> Rabs (s - t) < e -> f s = f t) ->
  f 0 = f 1.
Proof.
  intros H.
  assert (G : forall g : R -> R, (forall t, exists e, 0 < e /\ forall s, Rabs (s - t) < e -> g s = g t) -> continuity g).
  { intros g Hg t. intros e He. destruct (Hg t) as (d & Hd & K). exists d. split; [exact Hd|].
    intros s [_ Hs]. cbn in Hs |- *. unfold R_dist in *. rewrite (K s Hs), Rminus_diag_eq, Rabs_R0; [lra|reflexivity]. }
  assert (C : forall c, continuity (fun t => IZR (f (clamp t)) - c)).
  { intros c. apply G. intros t. destruct (H (clamp t) (clamp_range t)) as (e & He & K). exists e. split; [exact He|].
    intros s Hs. rewrite (K (clamp s)); [reflexivity|apply clamp_range|].
    eapply Rle_lt_trans; [|exact Hs]. unfold clamp, Rabs. repeat destruct (Rcase_abs _); lra. }
  assert (E0 : clamp 0 = 0) by (apply clamp_id; lra). assert (E1 : clamp 1 = 1) by (apply clamp_id; lra).
  destruct (Z.lt_trichotomy (f 0) (f 1)) as [L|[L|L]]; [exfalso|exact L|exfalso].
  - destruct (IVT (fun t => IZR (f (clamp t)) - (IZR (f 0) + / 2)) 0 1) as (t & _ & Et); [apply C|lra|rewrite E0; lra|rewrite E1|].
    + assert (IZR (f 0) + 1 <= IZR (f 1)) by (rewrite <- plus_IZR; apply IZR_le; lia). lra.
    + assert (Q : IZR (2 * f (clamp t)) = IZR (2 * f 0 + 1)) by (rewrite plus_IZR, !mult_IZR; lra). apply eq_IZR in Q. lia.
  - destruct (IVT (fun t => - (IZR (f (clamp t)) - (IZR (f 0) - / 2))) 0 1) as (t & _ & Et).
    + intros t. apply continuity_pt_opp. apply C.
    + lra.
    + rewrite E0. lra.
    + rewrite E1. assert (IZR (f 1) + 1 <= IZR (f 0)) by (rewrite <- plus_IZR; apply IZR_le; lia). lra.
    + assert (Q : IZR (2 * f (clamp t)) = IZR (2 * f 0 - 1)) by (rewrite minus_IZR, !mult_IZR; lra). apply eq_IZR in Q. lia.
Qed.

Lemma winding_curve p (x y : R -> R) : pline_ok p -> continuity x -> continuity y ->
  (forall t, 0 <= t <= 1 -> ~ on_path p (V2 (x t) (y t))) ->
  winding_number p (V2 (x 0) (y 0)) = winding_number p (V2 (x 1) (y 1)).
Proof.
  intros Hok Cx Cy Hoff. rewrite !winding_wn. f_equal. apply (locally_constant (fun t => wn p (V2 (x t) (y t)))).
  intros t Ht. destruct (winding_local p _ Hok (Hoff t Ht)) as (e & He & K).
  destruct (Cx t (e / 2) ltac:(lra)) as (d1 & Hd1 & K1). destruct (Cy t (e / 2) ltac:(lra)) as (d2 & Hd2 & K2).
  exists (Rmin d1 d2). split; [now apply Rmin_pos|]. intros s _ Hst.
  destruct (Req_dec t s) as [->|N]; [reflexivity|].
  assert (D1 : Rabs (x s - x t) < e / 2).
  { apply (K1 s). split; [split; [exact I|exact N]|]. cbn. unfold R_dist. eapply Rlt_le_trans; [exact Hst|apply Rmin_l]. }
  assert (D2 : Rabs (y s - y t) < e / 2).
  { apply (K2 s). split; [split; [exact I|exact N]|]. cbn. unfold R_dist. eapply Rlt_le_trans; [exact Hst|apply Rmin_r]. }
  destruct (K (V2 (x s) (y s))) as (_ & EW).
  - unfold dist. cbn [vx vy]. replace e with (sqrt (e * e)) by (apply sqrt_square; lra). apply sqrt_lt_1_alt.
    split; [apply Rplus_le_le_0_compat; apply Rle_0_sqr|].
    apply Rabs_def2 in D1. apply Rabs_def2 in D2.
    assert ((x t - x s) * (x t - x s) <= e / 2 * (e / 2)) by (apply neg_pos_Rsqr_le; lra).
    assert ((y t - y s) * (y t - y s) <= e / 2 * (e / 2)) by (apply neg_pos_Rsqr_le; lra). nra.
  - rewrite !winding_wn in EW. injection EW as EW. exact EW.
Qed.
