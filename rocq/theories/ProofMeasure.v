(** Length and area of the drawn path (C06, C07, C08). *)
From Coq Require Import Reals ZArith Bool List Lra Lia Psatz Arith.
From Verif Require Import Num RNum Res ModelMath ModelSeg ModelPline Spec SpecPline SpecGeom
  ProofBase ProofIter ProofInvert ProofRepeat ProofR ProofArc.
Import ListNotations.
Local Open Scope R_scope.

(** ** Parametrisations *)
Lemma deriv_ext (f : R -> R) t l l' : derivable_pt_lim f t l -> l = l' -> derivable_pt_lim f t l'.
Proof. intros H <-. exact H. Qed.

Lemma deriv_affine a b t : derivable_pt_lim (fun t => a + t * b) t b.
Proof.
  eapply deriv_ext.
  - apply (derivable_pt_lim_plus (fun _ => a) (fun t => t * b)).
    + apply derivable_pt_lim_const.
    + apply (derivable_pt_lim_mult id (fun _ => b)); [apply derivable_pt_lim_id|apply derivable_pt_lim_const].
  - unfold fct_cte, id. ring.
Qed.

Lemma deriv_cos_affine a b t : derivable_pt_lim (fun t => cos (a + t * b)) t (- sin (a + t * b) * b).
Proof. apply (derivable_pt_lim_comp (fun t => a + t * b) cos); [apply deriv_affine|apply derivable_pt_lim_cos]. Qed.
Lemma deriv_sin_affine a b t : derivable_pt_lim (fun t => sin (a + t * b)) t (cos (a + t * b) * b).
Proof. apply (derivable_pt_lim_comp (fun t => a + t * b) sin); [apply deriv_affine|apply derivable_pt_lim_sin]. Qed.

Lemma deriv_lin2 (f g : R -> R) a b c t l m :
  derivable_pt_lim f t l -> derivable_pt_lim g t m ->
  derivable_pt_lim (fun t => a + b * f t + c * g t) t (b * l + c * m).
Proof.
  intros Hf Hg. eapply deriv_ext.
  - apply (derivable_pt_lim_plus (fun t => a + b * f t) (fun t => c * g t)).
    + apply (derivable_pt_lim_plus (fun _ => a) (fun t => b * f t)); [apply derivable_pt_lim_const|].
      apply (derivable_pt_lim_mult (fun _ => b) f); [apply derivable_pt_lim_const|exact Hf].
    + apply (derivable_pt_lim_mult (fun _ => c) g); [apply derivable_pt_lim_const|exact Hg].
  - unfold fct_cte. ring.
Qed.

Lemma deriv_lin1 (f : R -> R) a b t l :
  derivable_pt_lim f t l -> derivable_pt_lim (fun t => a + b * f t) t (b * l).
Proof.
  intros Hf. eapply deriv_ext.
  - apply (derivable_pt_lim_plus (fun _ => a) (fun t => b * f t)); [apply derivable_pt_lim_const|].
    apply (derivable_pt_lim_mult (fun _ => b) f); [apply derivable_pt_lim_const|exact Hf].
  - unfold fct_cte. ring.
Qed.

Lemma line_param v1 v2 : pbulge v1 = 0 ->
  seg_param v1 v2 (fun t => px v1 + t * (px v2 - px v1)) (fun t => py v1 + t * (py v2 - py v1))
            (fun _ => px v2 - px v1) (fun _ => py v2 - py v1).
Proof.
  intros E. split; [|split].
  - intros t. apply seg_at_line; [exact E|]. reflexivity.
  - intros t. apply deriv_affine.
  - intros t. apply deriv_affine.
Qed.

Lemma arc_param v1 v2 c r a : pbulge v1 <> 0 -> is_arc (pos v1) (pos v2) (pbulge v1) c r a ->
  let th := sweep (pbulge v1) in
  seg_param v1 v2 (fun t => vx c + r * cos (a + t * th)) (fun t => vy c + r * sin (a + t * th))
            (fun t => r * (- sin (a + t * th) * th)) (fun t => r * (cos (a + t * th) * th)).
Proof.
  intros E HA th. split; [|split].
  - intros t. right. split; [exact E|]. exists c, r, a. split; [exact HA|reflexivity].
  - intros t. apply deriv_lin1. apply deriv_cos_affine.
  - intros t. apply deriv_lin1. apply deriv_sin_affine.
Qed.

(** The point at a parameter does not depend on the parametrisation. *)
Lemma param_unique v1 v2 x y x' y' u w u' w' t :
  seg_ok v1 v2 -> seg_param v1 v2 x y x' y' -> seg_param v1 v2 u w u' w' ->
  x t = u t /\ y t = w t /\ x' t = u' t /\ y' t = w' t.
Proof.
  intros Hok (A1 & A2 & A3) (B1 & B2 & B3).
  assert (E : forall s, x s = u s /\ y s = w s).
  { intros s. pose proof (seg_at_unique _ _ _ _ _ (A1 s) (B1 s) Hok) as H. now injection H. }
  destruct (E t) as [E1 E2]. repeat split; auto.
  - apply (uniqueness_limite x t); [apply A2|]. unfold derivable_pt_lim in *. intros eps He.
    destruct (B2 t eps He) as (d & Hd). exists d. intros h Hh Hl.
    rewrite (proj1 (E (t + h))), (proj1 (E t)). now apply Hd.
  - apply (uniqueness_limite y t); [apply A3|]. unfold derivable_pt_lim in *. intros eps He.
    destruct (B3 t eps He) as (d & Hd). exists d. intros h Hh Hl.
    rewrite (proj2 (E (t + h))), (proj2 (E t)). now apply Hd.
Qed.

(** ** Length of a segment *)
Definition seg_len_R (v1 v2 : vertex R) : R :=
  if Req_EM_T (pbulge v1) 0 then dist (pos v1) (pos v2)
  else radius_of (pos v1) (pos v2) (pbulge v1) * Rabs (sweep (pbulge v1)).

Lemma radius_nonneg p1 p2 b : b <> 0 -> 0 <= radius_of p1 p2 b.
Proof.
  intros Hb. unfold radius_of. pose proof (Rabs_pos_lt _ Hb). pose proof (sqrt_pos (chord2 p1 p2)).
  apply Rmult_le_pos; [nra|]. left. apply Rinv_0_lt_compat. lra.
Qed.

Lemma seg_len_R_spec v1 v2 : seg_ok v1 v2 -> seg_has_length v1 v2 (seg_len_R v1 v2).
Proof.
  intros [Hb Hp]. unfold seg_len_R. destruct (Req_EM_T (pbulge v1) 0) as [E|E].
  - do 4 eexists. split; [apply line_param; exact E|]. intros t. unfold dist. cbn [vx vy pos].
    f_equal. ring.
  - specialize (Hp E). pose proof (computed_is_arc _ _ _ Hp E) as HA.
    do 4 eexists. split; [apply (arc_param _ _ _ _ _ E HA)|]. intros t. cbv beta.
    set (r := radius_of _ _ _). set (th := sweep _). set (f := _ + t * th).
    replace (r * (- sin f * th) * (r * (- sin f * th)) + r * (cos f * th) * (r * (cos f * th)))
      with ((r * th) * (r * th)).
    + rewrite sqrt_Rsqr_abs' || (change (r * th * (r * th)) with (Rsqr (r * th)); rewrite sqrt_Rsqr_abs).
      rewrite Rabs_mult. f_equal. apply Rabs_pos_eq. now apply radius_nonneg.
    + pose proof (sin2_cos2 f) as H. unfold Rsqr in H.
      transitivity ((r * th) * (r * th) * (sin f * sin f + cos f * cos f)); [rewrite H; ring|ring].
Qed.

Lemma seg_has_length_unique v1 v2 L L' : seg_ok v1 v2 ->
  seg_has_length v1 v2 L -> seg_has_length v1 v2 L' -> L = L'.
Proof.
  intros Hok (x & y & x' & y' & P & HL) (u & w & u' & w' & Q & HL').
  destruct (param_unique _ _ _ _ _ _ _ _ _ _ 0 Hok P Q) as (_ & _ & E1 & E2).
  rewrite <- (HL 0), <- (HL' 0), E1, E2. reflexivity.
Qed.

Lemma seg_length_R v1 v2 : seg_ok v1 v2 -> vfuzzy_eq v1 v2 = false -> seg_length v1 v2 = seg_len_R v1 v2.
Proof.
  intros Hok F. unfold seg_len_R. destruct (Req_EM_T (pbulge v1) 0) as [E|E].
  - now apply seg_length_line.
  - destruct Hok as [Hb Hp]. eapply seg_length_arc; auto; [now split|].
    apply computed_is_arc; auto.
Qed.

Lemma atan_le_id x : 0 <= x -> atan x <= x.
Proof.
  intros H. destruct (Req_dec x 0) as [->|N]; [rewrite atan_0; lra|].
  pose proof (atan_bound x) as [B1 B2]. destruct (atan_sign x) as (P & _). specialize (P ltac:(lra)).
  destruct (Rle_dec (PI / 2) x) as [L|L]; [lra|].
  rewrite <- (tan_atan x) at 2.
  (* x <= tan x on [0, PI/2): via derivative; use sin x <= x and cos ... *)
  set (u := atan x) in *.
  assert (Hc : 0 < cos u) by (apply cos_gt_0; lra).
  assert (Hs : u * cos u <= sin u).
  { (* g(u) = sin u - u cos u has derivative u sin u >= 0 *)
    assert (D : forall s, derivable_pt_lim (fun u => sin u - u * cos u) s (s * sin s)).
    { intros s. eapply deriv_ext.
      - apply (derivable_pt_lim_minus sin (fun u => u * cos u)); [apply derivable_pt_lim_sin|].
        apply (derivable_pt_lim_mult id cos); [apply derivable_pt_lim_id|apply derivable_pt_lim_cos].
      - unfold id. ring. }
    destruct (MVT_cor2 (fun u => sin u - u * cos u) (fun s => s * sin s) 0 u P) as (z & Hz & Hz2).
    { intros s _. apply D. }
    rewrite sin_0, Rmult_0_l in Hz. assert (0 <= sin z) by (apply sin_ge_0; lra).
    assert (0 <= z * sin z * (u - 0)) by (apply Rmult_le_pos; [apply Rmult_le_pos|]; lra). lra. }
  unfold tan. apply (Rmult_le_reg_r (cos u)); [exact Hc|]. unfold Rdiv. rewrite Rmult_assoc, Rinv_l by lra. lra.
Qed.

(** The length never exceeds twice the chord. *)
Lemma seg_len_R_bounds v1 v2 : seg_ok v1 v2 -> 0 <= seg_len_R v1 v2 <= 2 * dist (pos v1) (pos v2).
Proof.
  intros [Hb Hp]. unfold seg_len_R. pose proof (sqrt_pos ((vx (pos v1) - vx (pos v2)) * (vx (pos v1) - vx (pos v2)) + (vy (pos v1) - vy (pos v2)) * (vy (pos v1) - vy (pos v2)))) as HD.
  fold (dist (pos v1) (pos v2)) in HD.
  destruct (Req_EM_T (pbulge v1) 0) as [E|E]; [lra|].
  destruct Hb as [Hb|[_ Hb]]; [contradiction|].
  assert (ED : sqrt (chord2 (pos v1) (pos v2)) = dist (pos v1) (pos v2)).
  { unfold chord2, dist. f_equal. ring. }
  unfold radius_of. rewrite ED. set (b := pbulge v1) in *. set (D := dist _ _) in *.
  assert (HA : Rabs (sweep b) = 4 * atan (Rabs b)).
  { unfold sweep. rewrite Rabs_mult, (Rabs_pos_eq 4) by lra. f_equal.
    unfold Rabs at 2. destruct (Rcase_abs b) as [C|C].
    - rewrite atan_opp. apply Rabs_left. now apply (atan_sign b).
    - apply Rabs_pos_eq. destruct (Req_dec b 0) as [->|N]; [rewrite atan_0; lra|].
      left. apply (atan_sign b). lra. }
  rewrite HA. pose proof (Rabs_pos_lt b E) as Hpos.
  pose proof (atan_le_id (Rabs b) ltac:(lra)) as HT.
  assert (HT0 : 0 < atan (Rabs b)) by (apply (atan_sign (Rabs b)); exact Hpos).
  assert (Hbb : b * b = Rabs b * Rabs b) by (rewrite <- Rabs_mult; symmetry; apply Rabs_pos_eq; nra).
  rewrite Hbb. set (x := Rabs b) in *.
  replace (D * (1 + x * x) / (4 * x) * (4 * atan x)) with (D * ((1 + x * x) * (atan x / x))) by (field; lra).
  assert (0 <= atan x / x <= 1).
  { split; [apply Rlt_le, Rdiv_lt_0_compat; lra|]. apply (Rmult_le_reg_r x); [lra|].
    unfold Rdiv. rewrite Rmult_assoc, Rinv_l by lra. lra. }
  set (k := atan x / x) in *. assert (0 <= (1 + x * x) * k <= 2) by nra. nra.
Qed.

(** ** Sums over segments *)
Lemma rsum_nil : rsum [] = 0. Proof. reflexivity. Qed.
Lemma rsum_cons a l : rsum (a :: l) = a + rsum l. Proof. reflexivity. Qed.

Lemma fold_left_rsum {A} (f : A -> R) l acc :
  fold_left (fun acc s => acc + f s) l acc = acc + rsum (map f l).
Proof.
  revert acc. induction l as [|a l IH]; intros acc; cbn [fold_left map].
  - rewrite rsum_nil. ring.
  - rewrite IH, rsum_cons. ring.
Qed.

Lemma rsum_app l1 l2 : rsum (l1 ++ l2) = rsum l1 + rsum l2.
Proof. induction l1 as [|a l IH]; cbn [app]; [rewrite rsum_nil; ring|]. rewrite !rsum_cons, IH. ring. Qed.

Lemma rsum_rev l : rsum (rev l) = rsum l.
Proof. induction l as [|a l IH]; [reflexivity|]. cbn [rev]. rewrite rsum_app, IH, !rsum_cons, rsum_nil. ring. Qed.

Lemma rsum_rotate k l : rsum (spec_rotate k l) = rsum l.
Proof.
  unfold spec_rotate. rewrite rsum_app. rewrite <- (firstn_skipn k l) at 3. rewrite rsum_app. ring.
Qed.

Lemma rsum_map_ext_in {A} (f g : A -> R) l : (forall a, In a l -> f a = g a) -> rsum (map f l) = rsum (map g l).
Proof. intros H. f_equal. now apply map_ext_in. Qed.

Lemma rsum_map_scale {A} (f : A -> R) k l : rsum (map (fun a => k * f a) l) = k * rsum (map f l).
Proof. induction l as [|a l IH]; cbn [map]; [rewrite !rsum_nil; ring|]. rewrite !rsum_cons, IH. ring. Qed.

Lemma rsum_map_plus {A} (f g : A -> R) l : rsum (map (fun a => f a + g a) l) = rsum (map f l) + rsum (map g l).
Proof. induction l as [|a l IH]; cbn [map]; [rewrite !rsum_nil; ring|]. rewrite !rsum_cons, IH. ring. Qed.

Lemma not_tiny v1 v2 : ~ tiny_seg v1 v2 -> vfuzzy_eq v1 v2 = false.
Proof.
  intros H. destruct (vfuzzy_eq v1 v2) eqn:F; [|reflexivity]. exfalso. apply H.
  unfold vfuzzy_eq, vfuzzy_eq_eps, fuzzy_eq_eps in F. rnum.
  apply andb_true_iff in F as [F F3]. apply andb_true_iff in F as [F1 F2].
  apply rltb_true in F1. apply rltb_true in F2. apply rltb_true in F3. repeat split; assumption.
Qed.

Definition true_length (p : pline R) : R :=
  rsum (map (fun s => seg_len_R (fst s) (snd s)) (spec_segs (vtx p) (is_closed p))).

Lemma path_length_sum p :
  path_length p = Ret (rsum (map (fun s => seg_length (fst s) (snd s)) (spec_segs (vtx p) (is_closed p)))).
Proof.
  unfold path_length. rewrite iter_segments_spec. cbn [rbind]. f_equal.
  etransitivity; [apply (fold_left_rsum (fun s => seg_length (fst s) (snd s)))|]. rnum. ring.
Qed.

Lemma path_length_true p : pline_ok p -> no_tiny p -> path_length p = Ret (true_length p).
Proof.
  intros Hok Ht. rewrite path_length_sum. f_equal. apply rsum_map_ext_in.
  intros [v1 v2] Hin. cbn [fst snd]. apply seg_length_R; [now apply Hok|]. apply not_tiny. now apply Ht.
Qed.

Lemma Forall2_rsum {A} (P : A -> R -> Prop) (f : A -> R) l Ls :
  (forall a, In a l -> forall L, P a L -> L = f a) -> Forall2 P l Ls -> rsum Ls = rsum (map f l).
Proof.
  intros H F. induction F as [|a L l Ls HP F IH]; [reflexivity|].
  cbn [map]. rewrite !rsum_cons, IH.
  - rewrite (H a (or_introl eq_refl) L HP). reflexivity.
  - intros a' Ha'. apply H. now right.
Qed.

Lemma true_length_spec p : pline_ok p -> path_has_length p (true_length p).
Proof.
  intros Hok. exists (map (fun s => seg_len_R (fst s) (snd s)) (spec_segs (vtx p) (is_closed p))).
  split; [|reflexivity].
  unfold pline_ok in Hok. induction (spec_segs (vtx p) (is_closed p)) as [|[v1 v2] l IH]; constructor.
  - cbn. apply seg_len_R_spec. apply Hok. now left.
  - apply IH. intros a b H. apply Hok. now right.
Qed.

Lemma path_has_length_unique p L : pline_ok p -> path_has_length p L -> L = true_length p.
Proof.
  intros Hok (Ls & F & ->). unfold true_length.
  eapply Forall2_rsum; [|exact F]. intros [v1 v2] Hin L HL. cbn [fst snd] in *.
  eapply seg_has_length_unique; [apply Hok; exact Hin|exact HL|]. apply seg_len_R_spec. now apply Hok.
Qed.

(** Without the no-tiny condition the error is below 1e-7 per segment. *)
Lemma seg_length_err v1 v2 : seg_ok v1 v2 -> Rabs (seg_length v1 v2 - seg_len_R v1 v2) <= 1 / 10000000.
Proof.
  intros Hok. destruct (vfuzzy_eq v1 v2) eqn:F.
  - unfold seg_length. rewrite F. rnum. pose proof (seg_len_R_bounds v1 v2 Hok) as [B1 B2].
    unfold vfuzzy_eq, vfuzzy_eq_eps, fuzzy_eq_eps in F. rnum.
    apply andb_true_iff in F as [F _]. apply andb_true_iff in F as [F1 F2].
    apply rltb_true in F1. apply rltb_true in F2.
    assert (HD : dist (pos v1) (pos v2) <= 3 / 100000000).
    { unfold dist. apply Rsqr_incr_0_var; [|lra]. rewrite Rsqr_sqrt by apply sumsq_nonneg.
      cbn [pos vx vy]. apply Rabs_def2 in F1. apply Rabs_def2 in F2. unfold Rsqr. nra. }
    rewrite Rabs_left1 by lra. lra.
  - rewrite seg_length_R by assumption. rewrite Rminus_diag_eq by reflexivity. rewrite Rabs_R0. lra.
Qed.

Lemma path_length_err p : pline_ok p ->
  exists L, path_length p = Ret L
    /\ Rabs (L - true_length p) <= INR (segment_count p) * (1 / 10000000).
Proof.
  intros Hok. eexists. split; [apply path_length_sum|]. rewrite segment_count_spec. unfold true_length.
  unfold pline_ok in Hok. induction (spec_segs (vtx p) (is_closed p)) as [|[v1 v2] l IH].
  - cbn. rewrite Rminus_diag_eq by reflexivity. rewrite Rabs_R0. lra.
  - cbn [map length]. rewrite S_INR, !rsum_cons. cbn [fst snd].
    specialize (IH (fun a b H => Hok a b (or_intror H))).
    pose proof (seg_length_err v1 v2 (Hok v1 v2 (or_introl eq_refl))) as HE.
    set (A := seg_length v1 v2) in *. set (B := seg_len_R v1 v2) in *.
    set (C := rsum (map (fun s => seg_length (fst s) (snd s)) l)) in *.
    set (D := rsum (map (fun s => seg_len_R (fst s) (snd s)) l)) in *.
    replace (A + C - (B + D)) with ((A - B) + (C - D)) by ring.
    eapply Rle_trans; [apply Rabs_triang|]. lra.
Qed.

Lemma true_length_nonneg p : pline_ok p -> 0 <= true_length p.
Proof.
  intros Hok. unfold true_length. unfold pline_ok in Hok.
  induction (spec_segs (vtx p) (is_closed p)) as [|[v1 v2] l IH]; [cbn; lra|].
  cbn [map]. rewrite rsum_cons. cbn [fst snd].
  pose proof (proj1 (seg_len_R_bounds v1 v2 (Hok v1 v2 (or_introl eq_refl)))).
  specialize (IH (fun a b H => Hok a b (or_intror H))). lra.
Qed.

(** ** Sums that depend only on the drawn data of the segments *)
Definition data_fun (f : (R * R) * (R * R) * R -> R) (p : pline R) : R :=
  rsum (map f (map seg_data (spec_segs (vtx p) (is_closed p)))).

Lemma data_fun_reverse f g p p' :
  (forall d, f (seg_reverse d) = g d) -> invert_direction_mut p = Ret p' -> data_fun f p' = data_fun g p.
Proof.
  intros H E. destruct (invert_direction_segments p) as (q & E' & _ & _ & _ & S).
  assert (q = p') by congruence. subst q. unfold data_fun. rewrite S.
  set (l := map (fun s => seg_reverse (seg_data s)) (spec_segs (vtx p) (is_closed p))).
  assert (HR : forall k (m : list ((R*R)*(R*R)*R)), map f (spec_rotate k m) = spec_rotate k (map f m)).
  { intros k m. unfold spec_rotate. rewrite map_app, firstn_map, skipn_map. reflexivity. }
  rewrite HR, rsum_rotate, map_rev, rsum_rev. unfold l. rewrite !map_map. f_equal. apply map_ext. intros s. apply H.
Qed.

Lemma spec_segs_map {A B} (f : A -> B) l c :
  spec_segs (map f l) c = map (fun s => (f (fst s), f (snd s))) (spec_segs l c).
Proof.
  destruct l as [|a [|b t]]; try reflexivity. cbn [map spec_segs].
  assert (G : forall (l1 l2 : list A), combine (map f l1) (map f l2) = map (fun s => (f (fst s), f (snd s))) (combine l1 l2)).
  { induction l1 as [|x l1 IH]; intros [|y l2]; try reflexivity. cbn. f_equal. apply IH. }
  rewrite <- G. f_equal. cbn [tl]. rewrite map_app. destruct c; reflexivity.
Qed.

Lemma spec_segs_rotate {A} (l : list A) k : (k <= length l)%nat ->
  exists k', spec_segs (spec_rotate k l) true = spec_rotate k' (spec_segs l true).
Proof.
  intros Hk. destruct (Nat.ltb_spec (length l) 2) as [L|L].
  - exists 0%nat. destruct l as [|a [|b t]]; [| |cbn in L; lia].
    + destruct k; reflexivity.
    + destruct k as [|[|k]]; reflexivity.
  - exists k. set (n := length l) in *.
    assert (Hlen : length (spec_rotate k l) = n).
    { unfold spec_rotate. rewrite app_length, skipn_length, firstn_length. lia. }
    assert (H1 : length (spec_segs l true) = n).
    { rewrite spec_segs_length. fold n. destruct (Nat.ltb_spec n 2); [lia|reflexivity]. }
    assert (H2 : length (spec_segs (spec_rotate k l) true) = n).
    { rewrite spec_segs_length, Hlen. destruct (Nat.ltb_spec n 2); [lia|reflexivity]. }
    assert (HN : forall (B : Type) (m : list B) i, length m = n -> (i < n)%nat ->
              nth_error (spec_rotate k m) i = nth_error m ((i + k) mod n)%nat).
    { intros B m i Hm Hi. unfold spec_rotate. destruct (Nat.ltb_spec (i + k) n) as [Q|Q].
      - rewrite nth_error_app1 by (rewrite skipn_length; lia). rewrite Nat.mod_small by lia.
        clear -Q. revert m i Q. induction k as [|k IH]; intros m i Q; [now rewrite Nat.add_0_r|].
        destruct m as [|x m]; [destruct i; [|]; cbn; rewrite ?Nat.add_succ_r; now destruct ((_ + _)%nat)|].
        cbn [skipn]. rewrite IH by lia. rewrite Nat.add_succ_r. reflexivity.
      - rewrite nth_error_app2 by (rewrite skipn_length; lia). rewrite skipn_length, Hm.
        assert (Hmod : ((i + k) mod n = i + k - n)%nat).
        { symmetry. apply (Nat.mod_unique (i + k) n 1); lia. }
        rewrite Hmod. replace (i + k - n)%nat with (i - (n - k))%nat by lia.
        assert (Hlt : (i - (n - k) < k)%nat) by lia. set (j := (i - (n - k))%nat) in *. clearbody j.
        clear -Hlt. revert m j Hlt. induction k as [|k IH]; intros m j Hlt; [lia|].
        destruct m as [|x m]; [destruct j; reflexivity|]. destruct j as [|j]; [reflexivity|].
        cbn [firstn nth_error]. apply IH. lia. }
    apply nth_error_ext. intros i. destruct (Nat.ltb_spec i n) as [Q|Q].
    + rewrite (HN _ (spec_segs l true) i H1 Q).
      destruct (spec_segs_nth (spec_rotate k l) true i) as (a & b & S1 & S2 & S3); [lia|].
      destruct (spec_segs_nth l true ((i + k) mod n)%nat) as (a' & b' & T1 & T2 & T3).
      { rewrite H1. apply Nat.mod_upper_bound. lia. }
      rewrite S1, T1. rewrite Hlen in S3. fold n in T3.
      rewrite (HN _ l i eq_refl Q) in S2.
      rewrite (HN _ l ((i + 1) mod n)%nat eq_refl) in S3 by (apply Nat.mod_upper_bound; lia).
      rewrite Nat.add_mod_idemp_l in S3, T3 by lia.
      replace (i + 1 + k)%nat with (i + k + 1)%nat in S3 by lia. congruence.
    + rewrite !(proj2 (nth_error_None _ i)); auto.
      * unfold spec_rotate. rewrite app_length, skipn_length, firstn_length. lia.
      * lia.
Qed.

Lemma data_fun_rotate f l k : (k <= length l)%nat ->
  data_fun f (PL (spec_rotate k l) true) = data_fun f (PL l true).
Proof.
  intros Hk. unfold data_fun. cbn [vtx is_closed]. destruct (spec_segs_rotate l k Hk) as (k' & ->).
  assert (HR : forall (A B : Type) (g : A -> B) k m, map g (spec_rotate k m) = spec_rotate k (map g m)).
  { intros A B g k0 m. unfold spec_rotate. rewrite map_app, firstn_map, skipn_map. reflexivity. }
  rewrite !HR. apply rsum_rotate.
Qed.

Lemma data_fun_map f (g : vertex R -> vertex R) (h : (R*R)*(R*R)*R -> R) p :
  (forall v1 v2, f (seg_data (g v1, g v2)) = h (seg_data (v1, v2))) ->
  data_fun f (PL (map g (vtx p)) (is_closed p)) = data_fun h p.
Proof.
  intros H. unfold data_fun. cbn [vtx is_closed]. rewrite spec_segs_map, !map_map. f_equal. apply map_ext.
  intros [v1 v2]. apply H.
Qed.

(** ** Length as a function of drawn data *)
Definition len_data (d : (R*R)*(R*R)*R) : R :=
  let '((x1, y1), (x2, y2), b) := d in seg_len_R (Vtx x1 y1 b) (Vtx x2 y2 0).

Lemma seg_len_R_data v1 v2 : seg_len_R v1 v2 = len_data (seg_data (v1, v2)).
Proof. destruct v1, v2. reflexivity. Qed.

Lemma true_length_data p : true_length p = data_fun len_data p.
Proof.
  unfold true_length, data_fun. rewrite map_map. reflexivity.
Qed.

Lemma dist_sym p q : dist p q = dist q p.
Proof. unfold dist. f_equal. ring. Qed.

Lemma len_data_reverse d : len_data (seg_reverse d) = len_data d.
Proof.
  destruct d as [[[x1 y1] [x2 y2]] b]. unfold seg_reverse, len_data, seg_len_R. cbn [pbulge pos px py]. rnum.
  destruct (Req_EM_T (- b) 0) as [E|E], (Req_EM_T b 0) as [E'|E']; try lra.
  - apply dist_sym.
  - unfold radius_of, chord2, sweep, pos. cbn [vx vy px py]. rewrite atan_opp.
    replace (4 * - atan b) with (- (4 * atan b)) by ring. rewrite !Rabs_Ropp.
    replace (- b * - b) with (b * b) by ring. replace ((x1 - x2) * (x1 - x2) + (y1 - y2) * (y1 - y2)) with ((x2 - x1) * (x2 - x1) + (y2 - y1) * (y2 - y1)) by ring. reflexivity.
Qed.

Lemma len_data_translate x y v1 v2 :
  len_data (seg_data (Vtx (px v1 + x) (py v1 + y) (pbulge v1), Vtx (px v2 + x) (py v2 + y) (pbulge v2)))
  = len_data (seg_data (v1, v2)).
Proof.
  unfold len_data, seg_data, seg_len_R. cbn [pbulge pos px py fst snd]. destruct (Req_EM_T (pbulge v1) 0).
  - unfold dist, pos. cbn [vx vy px py]. f_equal. ring.
  - unfold radius_of, chord2, pos. cbn [vx vy px py].
    replace (px v2 + x - (px v1 + x)) with (px v2 - px v1) by ring.
    replace (py v2 + y - (py v1 + y)) with (py v2 - py v1) by ring. reflexivity.
Qed.

Lemma len_data_scale s v1 v2 :
  len_data (seg_data (Vtx (s * px v1) (s * py v1) (pbulge v1), Vtx (s * px v2) (s * py v2) (pbulge v2)))
  = Rabs s * len_data (seg_data (v1, v2)).
Proof.
  assert (HS : forall u, sqrt (s * s * u) = Rabs s * sqrt u).
  { intros u. rewrite sqrt_mult_alt by nra. f_equal. change (s * s) with (Rsqr s). apply sqrt_Rsqr_abs. }
  unfold len_data, seg_data, seg_len_R. cbn [pbulge pos px py fst snd]. destruct (Req_EM_T (pbulge v1) 0).
  - unfold dist, pos. cbn [vx vy px py]. rewrite <- HS. f_equal. ring.
  - unfold radius_of, chord2, pos. cbn [vx vy px py].
    replace ((s * px v2 - s * px v1) * (s * px v2 - s * px v1) + (s * py v2 - s * py v1) * (s * py v2 - s * py v1))
      with (s * s * ((px v2 - px v1) * (px v2 - px v1) + (py v2 - py v1) * (py v2 - py v1))) by ring.
    rewrite HS. unfold Rdiv. ring.
Qed.

Lemma data_fun_scale k f p : data_fun (fun d => k * f d) p = k * data_fun f p.
Proof. unfold data_fun. apply (rsum_map_scale f k). Qed.

Lemma true_length_invariant p :
  (forall p', invert_direction_mut p = Ret p' -> true_length p' = true_length p)
  /\ (forall x y p', translate_mut p x y = Ret p' -> true_length p' = true_length p)
  /\ (forall s p', scale_mut p s = Ret p' -> true_length p' = Rabs s * true_length p)
  /\ (forall k, is_closed p = true -> (k <= vertex_count p)%nat ->
        true_length (PL (spec_rotate k (vtx p)) true) = true_length p).
Proof.
  repeat split.
  - intros p' H. rewrite !true_length_data. eapply data_fun_reverse; [|exact H]. apply len_data_reverse.
  - intros x y p' H. rewrite translate_mut_spec in H. injection H as <-. rewrite !true_length_data.
    apply data_fun_map. intros v1 v2. apply len_data_translate.
  - intros s p' H. rewrite scale_mut_spec in H. injection H as <-. rewrite !true_length_data.
    rewrite <- data_fun_scale. apply data_fun_map. intros v1 v2. apply len_data_scale.
  - intros k HC Hk. rewrite !true_length_data. rewrite data_fun_rotate by exact Hk.
    destruct p as [l c]. cbn in HC. subst c. reflexivity.
Qed.

(** ** Area *)
Definition arc_area2 (x1 y1 x2 y2 b : R) : R :=
  x1 * y2 - y1 * x2
  + (if Req_EM_T b 0 then 0
     else let L2 := (x2 - x1) * (x2 - x1) + (y2 - y1) * (y2 - y1) in
          sweep b * (L2 * ((1 + b * b) * (1 + b * b)) / (16 * (b * b))) - L2 * ((1 - b * b) / (4 * b))).

Definition area_data (d : (R*R)*(R*R)*R) : R :=
  let '((x1, y1), (x2, y2), b) := d in arc_area2 x1 y1 x2 y2 b.

Lemma sweep_abs_neg b : b < 0 -> sweep (Rabs b) = - sweep b.
Proof. intros H. rewrite Rabs_left by lra. unfold sweep. rewrite atan_opp. ring. Qed.

Lemma area_step_eq acc v1 v2 : (pbulge v1 = 0 \/ 1 / 100000000 <= Rabs (pbulge v1)) ->
  area_step acc (v1, v2) = acc + area_data (seg_data (v1, v2)).
Proof.
  intros Hb. unfold area_step, area_data, seg_data, arc_area2. cbn [fst snd].
  rewrite bulge_is_zero_R. destruct (Req_EM_T (pbulge v1) 0) as [E|E].
  - destruct (rltb_spec (Rabs (pbulge v1)) (1 / 100000000)) as [H|H]; [|rewrite E, Rabs_R0 in H; lra].
    cbn [negb]. rnum. ring.
  - destruct Hb as [Hb|Hb]; [contradiction|].
    destruct (rltb_spec (Rabs (pbulge v1)) (1 / 100000000)) as [H|H]; [lra|]. cbn [negb].
    unfold bulge_is_neg. vsimpl.
    set (L := sqrt _).
    assert (HL : L * L = (px v2 - px v1) * (px v2 - px v1) + (py v2 - py v1) * (py v2 - py v1)).
    { apply sqrt_sqrt. apply sumsq_nonneg. }
    rewrite <- HL. clearbody L. change (angle_from_bulge (Rabs (pbulge v1))) with (sweep (Rabs (pbulge v1))).
    destruct (rltb_spec (pbulge v1) 0) as [N|N].
    + rewrite sweep_abs_neg by exact N. rewrite (Rabs_left (pbulge v1)) by lra. field. lra.
    + rewrite (Rabs_pos_eq (pbulge v1)) by lra. field. lra.
Qed.

Lemma area_sum p : is_closed p = true -> bulges_area_ok p -> area p = Ret (data_fun area_data p / 2).
Proof.
  intros HC Hb. unfold area. rewrite HC. cbn [negb]. rewrite iter_segments_spec. cbn [rbind]. f_equal.
  rnum. f_equal.
  assert (G : forall l acc, (forall v1 v2, In (v1, v2) l -> pbulge v1 = 0 \/ 1 / 100000000 <= Rabs (pbulge v1)) ->
            fold_left area_step l acc = acc + rsum (map area_data (map seg_data l))).
  { induction l as [|[v1 v2] l IH]; intros acc H; cbn [fold_left map]; [rewrite rsum_nil; ring|].
    rewrite IH by (intros a b Hin; apply (H a b); now right).
    rewrite area_step_eq by (apply (H v1 v2 (or_introl eq_refl))). rewrite rsum_cons. ring. }
  rewrite G by exact Hb. unfold data_fun. ring.
Qed.

Lemma area_open p : is_closed p = false -> area p = Ret 0.
Proof. intros H. unfold area. now rewrite H. Qed.

Lemma seg_integral_value v1 v2 : seg_ok v1 v2 -> seg_has_integral v1 v2 (area_data (seg_data (v1, v2))).
Proof.
  intros [Hb Hp]. unfold area_data, seg_data, arc_area2. cbn [fst snd].
  destruct (Req_EM_T (pbulge v1) 0) as [E|E].
  - exists (fun t => px v1 + t * (px v2 - px v1)), (fun t => py v1 + t * (py v2 - py v1)),
      (fun _ => px v2 - px v1), (fun _ => py v2 - py v1),
      (fun t => 0 + t * (px v1 * py v2 - py v1 * px v2)).
    split; [now apply line_param|]. split; [|ring].
    intros t. eapply deriv_ext; [apply deriv_affine|ring].
  - specialize (Hp E). pose proof (computed_is_arc _ _ _ Hp E) as HA.
    destruct (radius_sqr (pos v1) (pos v2) (pbulge v1) E) as [_ _].
    set (c := centre_of (pos v1) (pos v2) (pbulge v1)) in *.
    set (r := radius_of (pos v1) (pos v2) (pbulge v1)) in *.
    set (a := angle c (pos v1)) in *. set (th := sweep (pbulge v1)) in *.
    exists (fun t => vx c + r * cos (a + t * th)), (fun t => vy c + r * sin (a + t * th)),
      (fun t => r * (- sin (a + t * th) * th)), (fun t => r * (cos (a + t * th) * th)),
      (fun t => (0 + t * (r * r * th)) + (r * vx c) * sin (a + t * th) + (- r * vy c) * cos (a + t * th)).
    split; [apply (arc_param _ _ _ _ _ E HA)|]. split.
    + intros t. eapply deriv_ext.
      * apply (derivable_pt_lim_plus (fun t => (0 + t * (r * r * th)) + (r * vx c) * sin (a + t * th))
                 (fun t => (- r * vy c) * cos (a + t * th))).
        -- apply (derivable_pt_lim_plus (fun t => 0 + t * (r * r * th)) (fun t => (r * vx c) * sin (a + t * th)));
             [apply deriv_affine|].
           apply (derivable_pt_lim_mult (fun _ => r * vx c) (fun t => sin (a + t * th)));
             [apply derivable_pt_lim_const|apply deriv_sin_affine].
        -- apply (derivable_pt_lim_mult (fun _ => - r * vy c) (fun t => cos (a + t * th)));
             [apply derivable_pt_lim_const|apply deriv_cos_affine].
      * unfold fct_cte. cbv beta. pose proof (sin2_cos2 (a + t * th)) as H. unfold Rsqr in H.
        set (s := sin (a + t * th)) in *. set (k := cos (a + t * th)) in *.
        transitivity (r * r * th * (s * s + k * k) + r * vx c * (k * th) + r * vy c * (s * th)); [rewrite H; ring|ring].
    + rewrite !Rmult_0_l, !Rmult_1_l, !Rplus_0_r, !Rplus_0_l.
      destruct HA as (_ & A1 & A2). fold th in A2.
      assert (P1 : px v1 = vx c + r * cos a) by (apply (f_equal vx) in A1; exact A1).
      assert (P2 : py v1 = vy c + r * sin a) by (apply (f_equal vy) in A1; exact A1).
      assert (P3 : px v2 = vx c + r * cos (a + th)) by (apply (f_equal vx) in A2; exact A2).
      assert (P4 : py v2 = vy c + r * sin (a + th)) by (apply (f_equal vy) in A2; exact A2).
      assert (R2 : r * r = chord2 (pos v1) (pos v2) * ((1 + pbulge v1 * pbulge v1) * (1 + pbulge v1 * pbulge v1)) / (16 * (pbulge v1 * pbulge v1))).
      { unfold r, radius_of. set (b := pbulge v1) in *.
        assert (HL : sqrt (chord2 (pos v1) (pos v2)) * sqrt (chord2 (pos v1) (pos v2)) = chord2 (pos v1) (pos v2)) by (apply sqrt_sqrt; apply sumsq_nonneg).
        assert (Hab : Rabs b * Rabs b = b * b) by (rewrite <- Rabs_mult; apply Rabs_pos_eq; nra).
        pose proof (Rabs_pos_lt _ E). set (L := sqrt (chord2 (pos v1) (pos v2))) in *.
        transitivity (L * L * ((1 + b * b) * (1 + b * b)) / (16 * (Rabs b * Rabs b))); [field; lra|].
        rewrite HL, Hab. reflexivity. }
      unfold chord2 in R2. cbn [pos vx vy] in R2. rewrite <- R2.
      transitivity (r * r * th + (vx c * (py v2 - py v1) - vy c * (px v2 - px v1))).
      2:{ rewrite P1, P2, P3, P4. ring. }
      unfold c, centre_of. cbn [pos vx vy]. field. exact E.
Qed.

Lemma seg_integral_unique v1 v2 I J : seg_ok v1 v2 ->
  seg_has_integral v1 v2 I -> seg_has_integral v1 v2 J -> I = J.
Proof.
  intros Hok (x & y & x' & y' & F & P & DF & ->) (u & w & u' & w' & G & Q & DG & ->).
  assert (D : forall t, derivable_pt_lim (fun t => F t - G t) t 0).
  { intros t. destruct (param_unique _ _ _ _ _ _ _ _ _ _ t Hok P Q) as (E1 & E2 & E3 & E4).
    eapply deriv_ext; [apply (derivable_pt_lim_minus F G); [apply DF|apply DG]|].
    rewrite E1, E2, E3, E4. ring. }
  destruct (MVT_cor2 (fun t => F t - G t) (fun _ => 0) 0 1 Rlt_0_1) as (z & Hz & _).
  { intros s _. apply D. }
  lra.
Qed.

Lemma area_is_integral p : is_closed p = true -> pline_ok p ->
  exists I, path_has_integral p I /\ area p = Ret (I / 2).
Proof.
  intros HC Hok. exists (data_fun area_data p). split.
  - exists (map (fun s => area_data (seg_data s)) (spec_segs (vtx p) (is_closed p))). split.
    + unfold pline_ok in Hok. induction (spec_segs (vtx p) (is_closed p)) as [|[v1 v2] l IH]; constructor.
      * cbn [fst snd]. apply seg_integral_value. apply Hok. now left.
      * apply IH. intros a b H. apply Hok. now right.
    + unfold data_fun. now rewrite map_map.
  - apply area_sum; [exact HC|]. intros v1 v2 Hin. destruct (Hok _ _ Hin) as [[E|[E _]] _]; auto.
Qed.

Lemma path_has_integral_unique p I J : pline_ok p -> path_has_integral p I -> path_has_integral p J -> I = J.
Proof.
  intros Hok (Is & F & ->) (Js & G & ->). 
  assert (H : forall Ks, Forall2 (fun s I => seg_has_integral (fst s) (snd s) I) (spec_segs (vtx p) (is_closed p)) Ks ->
            rsum Ks = rsum (map (fun s => area_data (seg_data s)) (spec_segs (vtx p) (is_closed p)))).
  { intros Ks HK. eapply Forall2_rsum; [|exact HK]. intros [v1 v2] Hin K HI. cbn [fst snd] in *.
    pose proof (Hok _ _ Hin) as Hs. eapply seg_integral_unique; [exact Hs|exact HI|]. now apply seg_integral_value. }
  rewrite (H _ F), (H _ G). reflexivity.
Qed.

Lemma area_correct p I : is_closed p = true -> pline_ok p -> path_has_integral p I -> area p = Ret (I / 2).
Proof.
  intros HC Hok HI. destruct (area_is_integral p HC Hok) as (J & HJ & E). rewrite E.
  rewrite (path_has_integral_unique p I J Hok HI HJ). reflexivity.
Qed.

(** Invariance *)
Lemma area_data_reverse d : area_data (seg_reverse d) = - 1 * area_data d.
Proof.
  destruct d as [[[x1 y1] [x2 y2]] b]. unfold seg_reverse, area_data, arc_area2. rnum.
  destruct (Req_EM_T (- b) 0) as [E|E], (Req_EM_T b 0) as [E'|E']; try lra.
  unfold sweep. rewrite atan_opp. field. lra.
Qed.

Lemma area_data_scale s v1 v2 :
  area_data (seg_data (Vtx (s * px v1) (s * py v1) (pbulge v1), Vtx (s * px v2) (s * py v2) (pbulge v2)))
  = s * s * area_data (seg_data (v1, v2)).
Proof.
  unfold area_data, seg_data, arc_area2. cbn [fst snd px py pbulge]. destruct (Req_EM_T (pbulge v1) 0); [ring|].
  field. exact n.
Qed.

Lemma area_data_translate x y v1 v2 :
  area_data (seg_data (Vtx (px v1 + x) (py v1 + y) (pbulge v1), Vtx (px v2 + x) (py v2 + y) (pbulge v2)))
  = area_data (seg_data (v1, v2)) + (x * (py v2 - py v1) - y * (px v2 - px v1)).
Proof.
  unfold area_data, seg_data, arc_area2. cbn [fst snd px py pbulge].
  replace (px v2 + x - (px v1 + x)) with (px v2 - px v1) by ring.
  replace (py v2 + y - (py v1 + y)) with (py v2 - py v1) by ring.
  destruct (Req_EM_T (pbulge v1) 0); ring.
Qed.

(** Differences around a closed loop cancel. *)
Lemma loop_telescope {A} (g : A -> R) l :
  rsum (map (fun s => g (snd s) - g (fst s)) (spec_segs l true)) = 0.
Proof.
  destruct l as [|a [|b t]]; try reflexivity. cbn [spec_segs tl].
  assert (G : forall l a z, rsum (map (fun s => g (snd s) - g (fst s)) (combine (a :: l) (l ++ [z]))) = g z - g a).
  { induction l as [|c l IH]; intros u z; cbn; [ring|].
    specialize (IH c z). cbn in IH. cbn. rewrite IH. ring. }
  change (a :: b :: t) with (a :: (b :: t)). rewrite (G (b :: t) a a). ring.
Qed.

Lemma area_translate p p' x y : translate_mut p x y = Ret p' -> is_closed p = true ->
  data_fun area_data p' = data_fun area_data p.
Proof.
  intros H HC. rewrite translate_mut_spec in H. injection H as <-. rnum.
  rewrite (data_fun_map _ _ (fun d => let '((x1, y1), (x2, y2), b) := d in
      area_data ((x1, y1), (x2, y2), b) + (x * (y2 - y1) - y * (x2 - x1)))).
  - unfold data_fun. rewrite !map_map.
    pose proof (loop_telescope (fun v : vertex R => x * py v - y * px v) (vtx p)) as HT.
    rewrite HC. rewrite <- (Rplus_0_r (rsum (map (fun x0 => area_data (seg_data x0)) _))). rewrite <- HT.
    rewrite <- rsum_map_plus. f_equal. apply map_ext. intros [v1 v2]. unfold seg_data. cbn [fst snd]. ring.
  - intros v1 v2. rewrite area_data_translate. reflexivity.
Qed.

Lemma spec_segs_in_map_bulge (g : vertex R -> vertex R) p :
  (forall v, pbulge (g v) = pbulge v) -> bulges_area_ok p -> bulges_area_ok (PL (map g (vtx p)) (is_closed p)).
Proof.
  intros Hg H v1 v2 Hin. cbn [vtx is_closed] in Hin. rewrite spec_segs_map in Hin.
  apply in_map_iff in Hin as ([a b] & E & Hin). cbn in E. injection E as <- <-. rewrite Hg. now apply (H a b).
Qed.

Lemma bulges_reverse p p' : invert_direction_mut p = Ret p' -> bulges_area_ok p -> bulges_area_ok p'.
Proof.
  intros E H v1 v2 Hin. destruct (invert_direction_segments p) as (q & E' & _ & _ & _ & S).
  assert (q = p') by congruence. subst q.
  apply (in_map seg_data) in Hin. rewrite S in Hin. unfold spec_rotate in Hin.
  assert (Hin2 : In (seg_data (v1, v2)) (rev (map (fun s => seg_reverse (seg_data s)) (spec_segs (vtx p) (is_closed p))))).
  { apply in_app_iff in Hin. destruct Hin as [Hin|Hin].
    - rewrite <- (firstn_skipn (if is_closed p then 1%nat else 0%nat)). apply in_app_iff. now right.
    - rewrite <- (firstn_skipn (if is_closed p then 1%nat else 0%nat)). apply in_app_iff. now left. }
  apply in_rev in Hin2. apply in_map_iff in Hin2 as ([a b] & Eq & Hin2).
  unfold seg_reverse, seg_data in Eq. cbn [fst snd] in Eq. injection Eq as _ _ _ _ Eb. rnum.
  rewrite <- Eb. destruct (H a b Hin2) as [Z|Z]; [left; lra|right]. now rewrite Rabs_Ropp.
Qed.

Lemma area_invariant p A : is_closed p = true -> bulges_area_ok p -> area p = Ret A ->
  (forall p', invert_direction_mut p = Ret p' -> area p' = Ret (- A))
  /\ (forall x y p', translate_mut p x y = Ret p' -> area p' = Ret A)
  /\ (forall s p', scale_mut p s = Ret p' -> area p' = Ret (s * s * A))
  /\ (forall k, (k <= vertex_count p)%nat -> area (PL (spec_rotate k (vtx p)) true) = Ret A).
Proof.
  intros HC Hb HA. rewrite area_sum in HA by assumption. injection HA as HA. subst A. repeat split.
  - intros p' H. rewrite area_sum.
    + f_equal. rewrite (data_fun_reverse area_data (fun d => - 1 * area_data d) p p' area_data_reverse H).
      rewrite data_fun_scale. field.
    + destruct (invert_direction_segments p) as (q & E & C & _). congruence.
    + eapply bulges_reverse; eauto.
  - intros x y p' H. rewrite area_sum.
    + f_equal. f_equal. eapply area_translate; eauto.
    + rewrite translate_mut_spec in H. now injection H as <-.
    + rewrite translate_mut_spec in H. injection H as <-. apply spec_segs_in_map_bulge; auto.
  - intros s p' H. rewrite scale_mut_spec in H. injection H as <-. rnum.
    rewrite area_sum; [|exact HC|apply spec_segs_in_map_bulge; auto].
    f_equal. rewrite (data_fun_map _ _ (fun d => s * s * area_data d)) by (intros; apply area_data_scale).
    rewrite data_fun_scale. field.
  - intros k Hk. rewrite area_sum; [|reflexivity|].
    + f_equal. f_equal. rewrite data_fun_rotate by exact Hk. destruct p as [l c]. cbn in HC. subst c. reflexivity.
    + intros v1 v2 Hin. cbn [vtx is_closed] in Hin. destruct (spec_segs_rotate (vtx p) k Hk) as (k' & E).
      rewrite E in Hin. apply (Hb v1 v2). rewrite HC. unfold spec_rotate in Hin.
      rewrite <- (firstn_skipn k'). apply in_app_iff in Hin. apply in_app_iff. tauto.
Qed.

(** ** Orientation *)
Lemma orientation_spec p A : area p = Ret A ->
  orientation p = Ret (if is_closed p then if Rlt_dec A 0 then Clockwise else CounterClockwise else Open).
Proof.
  intros HA. unfold orientation. destruct (is_closed p); cbn [negb]; [|reflexivity].
  rewrite HA. cbn [rbind]. rnum. unfold rltb. destruct (Rlt_dec A 0); reflexivity.
Qed.

(** ** Statement-level lemmas *)
Lemma path_length_correct p : pline_ok p -> no_tiny p ->
  exists L, path_length p = Ret L /\ path_has_length p L /\ 0 <= L
    /\ (forall L', path_has_length p L' -> L' = L).
Proof.
  intros Hok Ht. exists (true_length p). split; [now apply path_length_true|].
  split; [now apply true_length_spec|]. split; [now apply true_length_nonneg|].
  intros L'. now apply path_has_length_unique.
Qed.

Lemma path_length_approx p : pline_ok p ->
  exists L L', path_length p = Ret L /\ path_has_length p L'
    /\ Rabs (L - L') <= INR (segment_count p) * (1 / 10000000).
Proof.
  intros Hok. destruct (path_length_err p Hok) as (L & E & B). exists L, (true_length p).
  split; [exact E|]. split; [now apply true_length_spec|exact B].
Qed.

Lemma path_length_invariant p p' L k :
  pline_ok p -> no_tiny p -> pline_ok p' -> no_tiny p' -> path_length p = Ret L ->
  (invert_direction_mut p = Ret p' /\ k = 1
   \/ (exists x y, translate_mut p x y = Ret p') /\ k = 1
   \/ (exists i, (i <= vertex_count p)%nat /\ is_closed p = true /\ p' = PL (spec_rotate i (vtx p)) true) /\ k = 1
   \/ (exists s, scale_mut p s = Ret p' /\ k = Rabs s)) ->
  path_length p' = Ret (k * L).
Proof.
  intros O1 T1 O2 T2 HL H. rewrite path_length_true in HL by assumption. injection HL as <-.
  rewrite path_length_true by assumption. f_equal.
  destruct (true_length_invariant p) as (I1 & I2 & I3 & I4).
  destruct H as [[H ->]|[[(x & y & H) ->]|[[(i & Hi & HC & ->) ->]|(s & H & ->)]]].
  - rewrite (I1 p' H). ring.
  - rewrite (I2 x y p' H). ring.
  - rewrite (I4 i HC Hi). ring.
  - apply (I3 s p' H).
Qed.

Lemma orientation_flip p p' A : area p = Ret A -> A <> 0 -> bulges_area_ok p -> is_closed p = true ->
  invert_direction_mut p = Ret p' ->
  (orientation p = Ret Clockwise /\ orientation p' = Ret CounterClockwise)
  \/ (orientation p = Ret CounterClockwise /\ orientation p' = Ret Clockwise).
Proof.
  intros HA HN Hb HC Hi.
  destruct (area_invariant p A HC Hb HA) as (I1 & _). specialize (I1 p' Hi).
  rewrite (orientation_spec p A HA), (orientation_spec p' _ I1), HC.
  destruct (invert_direction_segments p) as (q & E & C & _). assert (q = p') by congruence. subst q. rewrite C, HC.
  destruct (Rlt_dec A 0), (Rlt_dec (- A) 0); try lra; auto.
Qed.

(** ** Examples *)
Lemma atan_1_val : sweep 1 = PI.
Proof. unfold sweep. rewrite atan_1. field. Qed.
Lemma sweep_m1 : sweep (-1) = - PI.
Proof. unfold sweep. replace (-1) with (- (1)) by ring. rewrite atan_opp, atan_1. field. Qed.

Definition ex_path : pline R := PL [Vtx 0 0 0; Vtx 3 4 1; Vtx 3 6 0] false.
Definition ex_circle : pline R := PL [Vtx (-1) 0 1; Vtx 1 0 1] true.

Lemma sqrt_of_sqr x y : 0 <= x -> y = x * x -> sqrt y = x.
Proof. intros H ->. apply sqrt_square. exact H. Qed.

Ltac abs_cases := unfold Rabs; repeat match goal with |- context [Rcase_abs ?x] => destruct (Rcase_abs x) end; lra.

Lemma seg_ok_half x1 y1 x2 y2 b b' : (b = 1 \/ b = -1) -> (x1 <> x2 \/ y1 <> y2) -> seg_ok (Vtx x1 y1 b) (Vtx x2 y2 b').
Proof.
  intros H1 H2. split; cbn [pbulge].
  - right. destruct H1 as [-> | ->]; split; abs_cases.
  - intros _ E. injection E as E1 E2. tauto.
Qed.
Lemma seg_ok_line0 x1 y1 v : seg_ok (Vtx x1 y1 0) v.
Proof. split; cbn [pbulge]; [now left|tauto]. Qed.

Lemma not_tiny_y v1 v2 : 1 <= py v2 - py v1 -> ~ tiny_seg v1 v2.
Proof. intros H (_ & T & _). unfold Rabs in T. destruct (Rcase_abs (py v1 - py v2)); lra. Qed.
Lemma not_tiny_x v1 v2 : 1 <= Rabs (px v1 - px v2) -> ~ tiny_seg v1 v2.
Proof. intros H (T & _). lra. Qed.

Lemma ex_path_ok : pline_ok ex_path /\ no_tiny ex_path.
Proof.
  split; intros v1 v2 H; cbn in H; destruct H as [H|[H|[]]]; injection H as <- <-.
  - apply seg_ok_line0.
  - apply seg_ok_half; [now left|right; lra].
  - apply not_tiny_y. cbn. lra.
  - apply not_tiny_y. cbn. lra.
Qed.

Lemma ex_path_length : path_length ex_path = Ret (5 + PI).
Proof.
  destruct ex_path_ok as [O T]. rewrite (path_length_true _ O T). f_equal.
  unfold true_length. cbn [ex_path vtx is_closed spec_segs tl app combine map]. rewrite !rsum_cons, rsum_nil.
  unfold seg_len_R. cbn [fst snd pbulge].
  destruct (Req_EM_T 0 0) as [_|N]; [|exfalso; apply N; reflexivity]. destruct (Req_EM_T 1 0) as [E|_]; [lra|].
  rewrite atan_1_val, (Rabs_pos_eq PI) by (pose proof PI_pos; lra).
  unfold dist, radius_of, chord2, pos. cbn [vx vy px py]. rewrite (Rabs_pos_eq 1) by lra.
  rewrite (sqrt_of_sqr 5) by lra. rewrite (sqrt_of_sqr 2) by lra. field.
Qed.

Lemma ex_circle_ok : pline_ok ex_circle.
Proof.
  intros v1 v2 H; cbn in H; destruct H as [H|[H|[]]]; injection H as <- <-;
    apply seg_ok_half; [now left|left; lra|now left|left; lra].
Qed.

Lemma pline_ok_bulges p : pline_ok p -> bulges_area_ok p.
Proof. intros H v1 v2 Hin. destruct (H _ _ Hin) as [[E|[E _]] _]; auto. Qed.

Lemma ex_circle_area : area ex_circle = Ret PI.
Proof.
  rewrite area_sum by (reflexivity || apply pline_ok_bulges, ex_circle_ok). f_equal.
  unfold data_fun. cbn [ex_circle vtx is_closed spec_segs tl app combine map seg_data fst snd px py pbulge].
  rewrite !rsum_cons, rsum_nil. unfold seg_data, area_data, arc_area2. cbn [fst snd px py pbulge]. rewrite atan_1_val.
  destruct (Req_EM_T 1 0) as [E|_]; [lra|]. field.
Qed.

Lemma ex_circle_orientation : orientation ex_circle = Ret CounterClockwise.
Proof.
  rewrite (orientation_spec _ _ ex_circle_area). cbn [ex_circle is_closed].
  destruct (Rlt_dec PI 0) as [H|H]; [pose proof PI_pos; lra|reflexivity].
Qed.
