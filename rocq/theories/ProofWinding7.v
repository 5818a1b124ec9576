(** What one segment adds to the winding number (C50, C51). *)
From Coq Require Import Reals ZArith Bool List Arith Lra Lia Psatz.
From Verif Require Import Num RNum Res ModelMath ModelSeg ModelPline Spec SpecGeom SpecBox SpecWinding SpecView.
From Verif Require Import ProofR ProofBase ProofIter ProofArc ProofArc2 ProofSlice ProofMeasure ProofWalk ProofIntr ProofWinding ProofWinding2 ProofWinding3 ProofWinding4 ProofWinding6.
Import ListNotations.
Local Open Scope R_scope.

Definition seg := (vertex R * vertex R)%type.
Definition on (s : seg) (q : vec2 R) : Prop := on_seg (fst s) (snd s) q.
Definition okseg (s : seg) : Prop := seg_ok (fst s) (snd s).

Definition nw (x : vec2 R) (s : seg) : Z := winding_step x 0%Z s.

Lemma nw_turn s x : okseg s -> ~ on s x ->
  turns_by (fst s) (snd s) x (br x (pos (snd s)) - br x (pos (fst s)) + IZR (nw x s) * (2 * PI)).
Proof.
  destruct s as [v1 v2]. intros Hok Hoff. cbn [fst snd]. destruct (seg_turn v1 v2 x Hok Hoff) as (d & w & HT & -> & Hw).
  unfold nw. rewrite Hw. exact HT.
Qed.

Lemma nw_of_turn s x d : okseg s -> ~ on s x -> turns_by (fst s) (snd s) x d ->
  d = br x (pos (snd s)) - br x (pos (fst s)) + IZR (nw x s) * (2 * PI).
Proof. intros Hok Hoff HT. eapply turns_unique; [exact HT|]. now apply nw_turn. Qed.

Lemma on_ends s : okseg s -> on s (pos (fst s)) /\ on s (pos (snd s)).
Proof.
  intros H. split; [exists 0|exists 1]; (split; [lra|]); [now apply seg_at_0|now apply seg_at_1].
Qed.

Lemma line_pt_ends x x' : line_pt x x' 0 = x /\ line_pt x x' 1 = x'.
Proof. split; unfold line_pt; apply vec2_eq; cbn; ring. Qed.

(** Along a horizontal line the contribution changes only at points of the segment. *)
Lemma nw_level s x x' : okseg s -> vy x = vy x' -> py (fst s) <> vy x -> py (snd s) <> vy x ->
  (forall t, 0 <= t <= 1 -> ~ on s (line_pt x x' t)) -> nw x s = nw x' s.
Proof.
  intros Hok EY N1 N2 Hoff. destruct (line_pt_ends x x') as (E0 & E1).
  assert (O : ~ on s x) by (rewrite <- E0; apply Hoff; lra).
  assert (O' : ~ on s x') by (rewrite <- E1; apply Hoff; lra).
  pose proof (turn_shift (fst s) (snd s) x x' _ _ Hok Hoff (nw_turn s x Hok O) (nw_turn s x' Hok O')) as G.
  destruct (on_ends s Hok) as (F1 & F2).
  assert (K : forall v, py v <> vy x -> on s (pos v) -> shift x x' (pos v) = br x' (pos v) - br x (pos v)).
  { intros v N F.
    assert (Nx : pos v <> x) by (intros Q; apply N; rewrite <- Q; reflexivity).
    assert (Nx' : pos v <> x') by (intros Q; apply N; rewrite EY, <- Q; reflexivity).
    pose proof PI_pos.
    assert (B : - PI < br x' (pos v) - br x (pos v) < PI).
    { destruct (Rtotal_order (py v) (vy x)) as [L|[L|L]]; [|contradiction|].
      - destruct (br_spec x (pos v) Nx) as (r & Hr & E & _). destruct (br_spec x' (pos v) Nx') as (r' & Hr' & E' & _).
        pose proof (br_below x (pos v) Nx (Rlt_le _ _ L)) as B. pose proof (br_below x' (pos v) Nx' ltac:(rewrite <- EY; cbn; lra)) as B'.
        assert (P : forall c s a, pos v = circle_pt c s a -> vy c = vy x -> a <> PI /\ a <> 2 * PI).
        { intros c s0 a Ec EC. apply (f_equal vy) in Ec. cbn in Ec. split; intros ->; [rewrite sin_PI in Ec|rewrite sin_2PI in Ec]; lra. }
        destruct (P _ _ _ E eq_refl). destruct (P _ _ _ E' (eq_sym EY)). lra.
      - pose proof (br_above x (pos v) Nx L). pose proof (br_above x' (pos v) Nx' ltac:(rewrite <- EY; exact L)). lra. }
    unfold shift. destruct (Rlt_dec PI _); [lra|]. destruct (Rlt_dec _ (- PI)); lra. }
  rewrite (K _ N1 F1), (K _ N2 F2) in G. pose proof PI_pos. apply eq_IZR. nra.
Qed.

(** Nothing is added to the right of the segment. *)
Lemma nw_right s x : okseg s -> (forall q, on s q -> vx q < vx x) -> nw x s = 0%Z.
Proof.
  intros Hok H. pose proof PI_pos. assert (Hoff : ~ on s x) by (intros N; specialize (H x N); lra).
  destruct (seg_curve (fst s) (snd s) Hok) as (cx & cy & Cx & Cy & Hq).
  destruct (half_plane_angle (fun t => cx t - vx x) (fun t => cy t - vy x) PI) as (phi & rho & Cp & Pr & E & B).
  - intros t. apply (continuity_pt_minus cx (fun _ => vx x)); [apply Cx|apply continuity_pt_const; intros u v; reflexivity].
  - intros t. apply (continuity_pt_minus cy (fun _ => vy x)); [apply Cy|apply continuity_pt_const; intros u v; reflexivity].
  - intros t Ht. rewrite cos_PI, sin_PI. assert (vx (V2 (cx t) (cy t)) < vx x) by (apply H; exists t; split; [exact Ht|now apply Hq]).
    cbn [vx] in *. lra.
  - assert (HT : turns_by (fst s) (snd s) x (phi 1 - phi 0)).
    { exists phi, rho. split; [exact Cp|]. split; [exact Pr|]. split; [|reflexivity]. intros t q Ht Hat. apply Hq in Hat. subst q.
      destruct (E t Ht) as (E1 & E2). apply vec2_eq; cbn; lra. }
    apply (nw_of_turn s x _ Hok Hoff) in HT.
    assert (K : forall v, on s (pos v) -> PI / 2 < br x (pos v) < 3 * (PI / 2)).
    { intros v F. assert (N : pos v <> x) by (intros Q; apply Hoff; rewrite <- Q; exact F).
      destruct (br_spec x (pos v) N) as (r & Hr & Ec & Bc). specialize (H _ F). apply (f_equal vx) in Ec. cbn in Ec, H.
      assert (C : cos (br x (pos v)) < 0) by nra. split.
      - apply Rnot_le_lt. intros L. assert (0 <= cos (br x (pos v))) by (apply cos_ge_0; lra). lra.
      - apply Rnot_le_lt. intros L. assert (0 <= cos (br x (pos v) - 2 * PI)) by (apply cos_ge_0; lra).
        rewrite (congr_cos _ (br x (pos v))) in H1; [lra|]. exists (-1)%Z. ring. }
    destruct (on_ends s Hok) as (F1 & F2). pose proof (K _ F1). pose proof (K _ F2).
    apply (pin (nw x s) 0 (IZR (nw x s) * (2 * PI))); [reflexivity|]. lra.
Qed.

Lemma seg_right s : okseg s -> exists M, forall q, on s q -> vx q < M.
Proof.
  intros Hok. destruct (seg_curve (fst s) (snd s) Hok) as (cx & cy & Cx & Cy & Hq).
  destruct (continuity_ab_maj cx 0 1) as (m & Hm & _); [lra|intros c _; apply Cx|].
  exists (cx m + 1). intros q (t & Ht & Hat). apply Hq in Hat. subst q. cbn. specialize (Hm t Ht). lra.
Qed.

(** Backwards. *)
Lemma nw_reverse s s' x : okseg s -> okseg s' -> ~ on s x -> ~ on s' x ->
  pos (fst s') = pos (snd s) -> pos (snd s') = pos (fst s) -> pbulge (fst s') = - pbulge (fst s) -> nw x s' = (- nw x s)%Z.
Proof.
  intros H H' O O' E1 E2 EB.
  pose proof (turns_reverse _ _ _ _ _ _ E1 E2 EB (nw_turn s x H O)) as HT. apply (nw_of_turn s' x _ H' O') in HT.
  rewrite E1, E2 in HT. pose proof PI_pos. apply eq_IZR. rewrite opp_IZR. nra.
Qed.

(** The points of a segment at a height other than those of its ends: at most finitely many. *)
Lemma seg_crossings s h : okseg s -> py (fst s) <> h -> exists l, forall q, on s q -> vy q = h -> In (vx q) l.
Proof.
  intros Hok N. destruct s as [v1 v2]. cbn [fst snd] in *. destruct (Req_dec (pbulge v1) 0) as [E|E].
  - exists [px v1 + (h - py v1) / (py v2 - py v1) * (px v2 - px v1)]. intros q (t & Ht & Hat) Hy. apply seg_at_line in Hat; [|exact E].
    cbn [fst snd] in Hat. left. subst q. cbn in Hy |- *. assert (py v2 - py v1 <> 0) by (intros Q; apply N; nra).
    replace ((h - py v1) / (py v2 - py v1)) with t; [reflexivity|]. rewrite <- Hy. field. exact H.
  - set (c := centre_of (pos v1) (pos v2) (pbulge v1)). set (r := radius_of (pos v1) (pos v2) (pbulge v1)).
    set (k := sqrt (r * r - (h - vy c) * (h - vy c))).
    exists [vx c + k; vx c - k]. intros q (t & Ht & Hat) Hy. apply seg_at_arc in Hat; [|apply (proj2 Hok E)|exact E].
    cbn [fst snd] in Hat. fold c r in Hat. set (g := _ + t * _) in Hat. clearbody c r g. subst q. cbn [circle_pt vx vy] in Hy |- *.
    assert (EK : k = Rabs (r * cos g)).
    { unfold k. rewrite <- sqrt_Rsqr_abs. f_equal. unfold Rsqr. rewrite <- (norm_cs r g). replace (r * sin g) with (h - vy c) by lra. ring. }
    rewrite EK. unfold Rabs. destruct (Rcase_abs _); [right; left|left]; lra.
Qed.

(** ** The winding number as a sum *)
Definition zsum (l : list Z) : Z := fold_right Z.add 0%Z l.

Lemma zsum_app a b : zsum (a ++ b) = (zsum a + zsum b)%Z.
Proof. induction a as [|x a IH]; [reflexivity|]. cbn [app zsum fold_right]. fold (zsum (a ++ b)) (zsum a). rewrite IH. lia. Qed.

Lemma fold_nw x segs : (forall s, In s segs -> okseg s /\ ~ on s x) -> forall z, fold_left (winding_step x) segs z = (z + zsum (map (nw x) segs))%Z.
Proof.
  induction segs as [|[v1 v2] t IH]; intros H z.
  - cbn. lia.
  - cbn [fold_left map zsum fold_right]. fold (zsum (map (nw x) t)).
    destruct (H (v1, v2) (or_introl eq_refl)) as (Hok & Hoff).
    destruct (seg_turn v1 v2 x Hok Hoff) as (d & w & _ & _ & Hw).
    rewrite (IH (fun s I => H s (or_intror I))). unfold nw at 2. rewrite !Hw. lia.
Qed.

Lemma winding_nw p x : pline_ok p -> is_closed p = true -> (2 <= vertex_count p)%nat -> ~ on_path p x ->
  winding_number p x = Ret (zsum (map (nw x) (spec_segs (vtx p) (is_closed p)))).
Proof.
  intros Hok Hc Hn Hoff. unfold winding_number. rewrite Hc at 1. cbn [negb orb].
  destruct (Nat.ltb_spec (vertex_count p) 2) as [?|_]; [lia|]. rewrite iter_segments_spec. cbn [rbind]. f_equal.
  rewrite (fold_nw x); [reflexivity|]. intros [v1 v2] I. split; [now apply Hok|]. intros N. apply Hoff. exists v1, v2. auto.
Qed.

(** ** Pieces of a segment *)
Lemma mix t u s : 0 <= t <= 1 -> 0 <= u <= 1 -> 0 <= s <= 1 -> 0 <= t + s * (u - t) <= 1.
Proof.
  intros Ht Hu Hs. assert (0 <= t * (1 - s)) by (apply Rmult_le_pos; lra). assert (0 <= s * u) by (apply Rmult_le_pos; lra).
  assert (t * (1 - s) <= 1 * (1 - s)) by (apply Rmult_le_compat_r; lra). assert (s * u <= s * 1) by (apply Rmult_le_compat_l; lra). lra.
Qed.

Lemma piece_on a b t u w1 w2 q : 0 <= t <= 1 -> 0 <= u <= 1 -> piece a b t u w1 w2 -> on_seg w1 w2 q -> on_seg a b q.
Proof.
  intros Ht Hu P (s & Hs & Hq). exists (t + s * (u - t)). split; [now apply mix|]. now apply P.
Qed.

Lemma piece_turn a b t u w1 w2 x phi rho : 0 <= t <= 1 -> 0 <= u <= 1 -> piece a b t u w1 w2 ->
  continuity phi -> (forall t, 0 <= t <= 1 -> 0 < rho t) -> (forall t q, 0 <= t <= 1 -> seg_at a b t q -> q = circle_pt x (rho t) (phi t)) ->
  turns_by w1 w2 x (phi u - phi t).
Proof.
  intros Ht Hu P C R Q. exists (fun s => phi (t + s * (u - t))), (fun s => rho (t + s * (u - t))). split; [|split; [|split]].
  - intros s. apply (continuity_pt_comp (fun s => t + s * (u - t)) phi); [apply continuity_affine|apply C].
  - intros s Hs. apply R. now apply mix.
  - intros s q Hs Hq. apply Q; [now apply mix|]. now apply P.
  - f_equal; f_equal; ring.
Qed.

(** Consecutive pieces. *)
Inductive pieces_from (a b : vertex R) : R -> R -> list seg -> Prop :=
| pieces_nil t : pieces_from a b t t []
| pieces_cons t u v w l : 0 <= t <= 1 -> 0 <= u <= 1 -> piece a b t u (fst w) (snd w) -> okseg w -> pieces_from a b u v l -> pieces_from a b t v (w :: l).

Lemma pieces_nw a b x t v l : okseg (a, b) -> ~ on (a, b) x -> pieces_from a b t v l -> forall phi rho,
  continuity phi -> (forall t, 0 <= t <= 1 -> 0 < rho t) -> (forall t q, 0 <= t <= 1 -> seg_at a b t q -> q = circle_pt x (rho t) (phi t)) ->
  forall q q', seg_at a b t q -> seg_at a b v q' -> phi v - phi t = br x q' - br x q + IZR (zsum (map (nw x) l)) * (2 * PI).
Proof.
  intros Hok Hoff HP phi rho C R Q. induction HP as [t|t u v w l Ht Hu P Ow HP IH]; intros q q' Hq Hq'.
  - rewrite (seg_at_unique _ _ _ _ _ Hq Hq' Hok). cbn. ring.
  - destruct (seg_at_exists a b u Hok) as (m & Hm). specialize (IH m q' Hm Hq').
    assert (Ow' : ~ on w x) by (intros N; apply Hoff; exact (piece_on a b t u _ _ x Ht Hu P N)).
    pose proof (nw_of_turn w x _ Ow Ow' (piece_turn a b t u _ _ x phi rho Ht Hu P C R Q)) as G.
    assert (E1 : pos (fst w) = q).
    { apply (seg_at_unique a b t); [|exact Hq|exact Hok]. replace t with (t + 0 * (u - t)) by ring. apply P. now apply seg_at_0. }
    assert (E2 : pos (snd w) = m).
    { apply (seg_at_unique a b u); [|exact Hm|exact Hok]. replace u with (t + 1 * (u - t)) at 1 by ring. apply P. now apply seg_at_1. }
    rewrite E1, E2 in G. cbn [map zsum fold_right]. fold (zsum (map (nw x) l)). rewrite plus_IZR. lra.
Qed.

Lemma pieces_nw_whole a b x l : okseg (a, b) -> ~ on (a, b) x -> pieces_from a b 0 1 l -> nw x (a, b) = zsum (map (nw x) l).
Proof.
  intros Hok Hoff HP. destruct (nw_turn (a, b) x Hok Hoff) as (phi & rho & C & R & Q & E). cbn [fst snd] in *.
  pose proof (pieces_nw a b x 0 1 l Hok Hoff HP phi rho C R Q (pos a) (pos b) (seg_at_0 a b Hok) (seg_at_1 a b Hok)) as G.
  pose proof PI_pos. apply eq_IZR. nra.
Qed.
