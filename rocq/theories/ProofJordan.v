(** How the winding number changes across a segment (C64). *)
From Coq Require Import Reals ZArith Bool List Arith Lra Lia Psatz Classical.
From Verif Require Import Num RNum Res ModelMath ModelSeg ModelPline Spec SpecGeom SpecBox SpecWinding.
From Verif Require Import ProofR ProofBase ProofIter ProofArc ProofArc2 ProofSlice ProofMeasure ProofWalk ProofIntr ProofWinding ProofWinding2 ProofWinding3 ProofWinding4 ProofWinding6 ProofWinding7.
Import ListNotations.
Local Open Scope R_scope.

(** ** An arc and its chord *)
Definition dotp (v1 v2 : vertex R) (x : vec2 R) : R := (vx x - px v1) * (vx x - px v2) + (vy x - py v1) * (vy x - py v2).
(** Positive to the left of the segment, negative to the right and zero on it. *)
Definition sideof (s : seg) (x : vec2 R) : R :=
  let b := pbulge (fst s) in (1 - b * b) * perp (fst s) (snd s) x - 2 * b * dotp (fst s) (snd s) x.

Definition inb (v1 v2 : vertex R) (x : vec2 R) : Prop :=
  inside_circle (centre_of (pos v1) (pos v2) (pbulge v1)) (radius_of (pos v1) (pos v2) (pbulge v1)) x.

Lemma inside_side v1 v2 x : pbulge v1 <> 0 ->
  radius_of (pos v1) (pos v2) (pbulge v1) * radius_of (pos v1) (pos v2) (pbulge v1)
  - ((vx (centre_of (pos v1) (pos v2) (pbulge v1)) - vx x) * (vx (centre_of (pos v1) (pos v2) (pbulge v1)) - vx x)
     + (vy (centre_of (pos v1) (pos v2) (pbulge v1)) - vy x) * (vy (centre_of (pos v1) (pos v2) (pbulge v1)) - vy x))
  = sideof (v1, v2) x / (2 * pbulge v1).
Proof.
  intros Hb. destruct (radius_sqr (pos v1) (pos v2) (pbulge v1) Hb) as [E _]. cbn zeta in E. rewrite <- E.
  unfold centre_of, sideof, perp, dotp, pos. cbn [fst snd vx vy]. field. exact Hb.
Qed.

Lemma inb_side v1 v2 x : pbulge v1 <> 0 -> (inb v1 v2 x <-> 0 < pbulge v1 * sideof (v1, v2) x).
Proof.
  intros Hb. pose proof (inside_side v1 v2 x Hb) as E. unfold inb, inside_circle.
  assert (K : sideof (v1, v2) x = 2 * pbulge v1 * (sideof (v1, v2) x / (2 * pbulge v1))) by (field; exact Hb).
  set (r := sideof (v1, v2) x / (2 * pbulge v1)) in *. rewrite K.
  assert (0 < pbulge v1 * pbulge v1) by (destruct (Rtotal_order (pbulge v1) 0) as [|[|]]; [nra|contradiction|nra]).
  replace (pbulge v1 * (2 * pbulge v1 * r)) with (2 * (pbulge v1 * pbulge v1) * r) by ring.
  split; intros L.
  - apply Rmult_lt_0_compat; lra.
  - assert (0 < r); [|lra]. apply Rnot_le_lt. intros N. assert (2 * (pbulge v1 * pbulge v1) * r <= 0); [|lra].
    rewrite <- (Rmult_0_r (2 * (pbulge v1 * pbulge v1))). apply Rmult_le_compat_l; lra.
Qed.

Definition chord (s : seg) : seg := (Vtx (px (fst s)) (py (fst s)) 0, snd s).

Lemma thales_side v1 v2 x : 0 < pbulge v1 <= 1 -> perp v1 v2 x < 0 -> inb v1 v2 x -> dotp v1 v2 x < 0.
Proof.
  intros Hb HP HI. apply inb_side in HI; [|lra]. unfold sideof in HI. cbn [fst snd] in HI.
  assert (0 <= 1 - pbulge v1 * pbulge v1) by nra.
  assert (0 < (1 - pbulge v1 * pbulge v1) * perp v1 v2 x - 2 * pbulge v1 * dotp v1 v2 x) by nra.
  assert ((1 - pbulge v1 * pbulge v1) * perp v1 v2 x <= 0) by nra. nra.
Qed.

(** An arc going counter clockwise encloses, with its chord, the points inside of its circle on the right of the chord. *)
Lemma arc_nw_ccw v1 v2 x : seg_ok v1 v2 -> 0 < pbulge v1 -> perp v1 v2 x <> 0 ->
  (perp v1 v2 x < 0 /\ inb v1 v2 x -> nw x (v1, v2) = (nw x (chord (v1, v2)) + 1)%Z)
  /\ (~ (perp v1 v2 x < 0 /\ inb v1 v2 x) -> nw x (v1, v2) = nw x (chord (v1, v2))).
Proof.
  intros Hok Hb HP. pose proof (proj2 Hok ltac:(lra)) as Hne.
  assert (Hb1 : pbulge v1 <= 1) by (destruct (proj1 Hok) as [?|[_ H]]; [lra|revert H; unfold Rabs; destruct (Rcase_abs _); lra]).
  assert (EZ : bulge_is_zero v1 = false).
  { destruct (bulge_is_zero v1) eqn:Z; [|reflexivity]. apply bulge_ok_zero in Z; [lra|apply Hok]. }
  assert (EZ' : bulge_is_zero (fst (chord (v1, v2))) = true) by (apply (proj2 (bulge_ok_zero (Vtx (px v1) (py v1) 0) (or_introl eq_refl))); reflexivity).
  assert (EB : bulge_is_pos v1 = rltb 0 (pbulge v1)) by reflexivity.
  unfold nw, winding_step, chord in *. cbn [fst snd] in *. rewrite EZ, EZ'. rewrite !Z.add_0_l.
  assert (EP : process_line_winding (Vtx (px v1) (py v1) 0) v2 x = process_line_winding v1 v2 x) by reflexivity.
  rewrite EP. clear EP EZ'.
  unfold process_arc_winding, process_line_winding. rewrite (arc_radius_and_center_eq v1 v2 Hne ltac:(lra)), EB.
  assert (EL : is_left (pos v1) (pos v2) x = rltb 0 (perp v1 v2 x)) by reflexivity.
  assert (ELE : is_left_or_equal (pos v1) (pos v2) x = rleb 0 (perp v1 v2 x)) by reflexivity.
  assert (EI : forall c r, rltb (dist_squared c x) (r * r) = true <-> inside_circle c r x).
  { intros c r. rewrite rltb_true. unfold dist_squared, inside_circle. rnum. cbn [vx vy]. tauto. }
  specialize (EI (centre_of (pos v1) (pos v2) (pbulge v1)) (radius_of (pos v1) (pos v2) (pbulge v1))).
  fold (inb v1 v2 x) in EI.
  pose proof (thales_side v1 v2 x (conj Hb Hb1)) as TH. unfold dotp in TH.
  rewrite EL, ELE. rnum. set (I := rltb (dist_squared _ x) _) in *.
  replace (rltb 0 (pbulge v1)) with true by (symmetry; apply rltb_true; exact Hb). cbn [andb negb].
  assert (GE : forall a b : Z, (inb v1 v2 x -> a = b) -> (~ inb v1 v2 x -> a = b) -> a = b) by (intros a b A B; destruct (classic (inb v1 v2 x)); auto).
  assert (II : (inb v1 v2 x /\ I = true) \/ (~ inb v1 v2 x /\ I = false)).
  { destruct I eqn:Q; [left; split; [now apply EI|reflexivity]|right; split; [|reflexivity]]. intros N. apply EI in N. discriminate. }
  destruct (rltb_spec 0 (perp v1 v2 x)) as [L|L]; cbn [negb andb].
  - split; [intros (N & _); lra|intros _].
    destruct (rleb_spec (py v1) (vy x)), (rltb_spec (vy x) (py v2)), (rleb_spec (py v2) (vy x)); try lra; reflexivity.
  - assert (L' : perp v1 v2 x < 0) by lra. rewrite ?andb_false_r, ?andb_true_r. destruct II as [(Hin & ->)|(Hout & ->)].
    + split; [intros _|intros N; exfalso; apply N; auto]. rewrite ?andb_true_r. specialize (TH L' Hin).
      destruct (rleb_spec (py v1) (vy x)) as [L1|L1], (rltb_spec (vy x) (py v2)) as [L2|L2], (rleb_spec (py v2) (vy x)) as [L3|L3]; try lra; try reflexivity;
      [assert (YY : 0 <= (vy x - py v1) * (vy x - py v2)) by (apply Rmult_le_pos; lra)
      |assert (YY : 0 <= (vy x - py v1) * (vy x - py v2)) by (replace ((vy x - py v1) * (vy x - py v2)) with ((py v1 - vy x) * (py v2 - vy x)) by ring; apply Rmult_le_pos; lra)];
      (assert (XX : (vx x - px v1) * (vx x - px v2) < 0) by lra);
      (assert (OR : (px v1 < vx x /\ vx x < px v2) \/ (px v2 < vx x /\ vx x < px v1))
        by (destruct (Rlt_dec (px v1) (vx x)) as [A|A], (Rlt_dec (vx x) (px v2)) as [B|B]; [left; lra|exfalso; nra|exfalso; nra|right; split; nra]));
      destruct OR as [(A & B)|(A & B)].
      * exfalso. unfold perp in L'.
        assert (Q1 : (vx x - px v1) * (py v2 - py v1) <= (vx x - px v1) * (vy x - py v1)) by (apply Rmult_le_compat_l; lra).
        assert (0 <= (px v2 - vx x) * (vy x - py v1)) by (apply Rmult_le_pos; lra). nra.
      * replace (rltb (px v2) (vx x)) with true by (symmetry; apply rltb_true; exact A).
        replace (rltb (vx x) (px v1)) with true by (symmetry; apply rltb_true; exact B). reflexivity.
      * replace (rltb (px v1) (vx x)) with true by (symmetry; apply rltb_true; exact A).
        replace (rltb (vx x) (px v2)) with true by (symmetry; apply rltb_true; exact B). reflexivity.
      * exfalso. unfold perp in L'.
        assert (Q1 : (px v1 - vx x) * (py v1 - py v2) <= (px v1 - vx x) * (py v1 - vy x)) by (apply Rmult_le_compat_l; lra).
        assert (0 <= (vx x - px v2) * (py v1 - vy x)) by (apply Rmult_le_pos; lra). nra.
    + split; [intros (_ & N); contradiction|intros _]. rewrite ?andb_false_r. cbn [negb].
      destruct (rleb_spec (py v1) (vy x)), (rltb_spec (vy x) (py v2)), (rleb_spec (py v2) (vy x)); try lra; reflexivity.
Qed.

Lemma perp_line v1 v2 t : perp v1 v2 (line_pt (pos v1) (pos v2) t) = 0.
Proof. unfold perp, line_pt, pos. cbn [vx vy]. ring. Qed.

Lemma chord_ok s : okseg (chord s).
Proof. split; [left; reflexivity|intros N; exfalso; apply N; reflexivity]. Qed.

Lemma off_chord s x : perp (fst s) (snd s) x <> 0 -> ~ on (chord s) x.
Proof.
  intros H (t & _ & Hq). apply seg_at_line in Hq; [|reflexivity]. apply H. rewrite Hq. apply (perp_line (fst s) (snd s) t).
Qed.

Definition back (s : seg) : seg := (Vtx (px (snd s)) (py (snd s)) (- pbulge (fst s)), fst s).

Lemma back_ok s : okseg s -> okseg (back s).
Proof.
  intros (H & K). split.
  - cbn. destruct H as [->|(H & H')]; [left; ring|right; rewrite Rabs_Ropp; auto].
  - cbn. intros N E. apply K; [lra|]. symmetry. exact E.
Qed.

Lemma back_on s x : on (back s) x <-> on s x.
Proof.
  split; intros (t & Ht & Hq); exists (1 - t); (split; [lra|]).
  - apply (seg_at_reverse (fst (back s)) (snd (back s)) (fst s) (snd s)); [reflexivity|reflexivity|cbn; ring|exact Hq].
  - apply (seg_at_reverse (fst s) (snd s) (fst (back s)) (snd (back s))); [reflexivity|reflexivity|reflexivity|exact Hq].
Qed.

Lemma back_side s x : sideof (back s) x = - sideof s x.
Proof. unfold sideof, back, perp, dotp. cbn [fst snd px py pbulge]. ring. Qed.

Lemma back_nw s x : okseg s -> ~ on s x -> nw x (back s) = (- nw x s)%Z.
Proof.
  intros H O. apply nw_reverse; auto using back_ok; try reflexivity. intros N. apply O. now apply back_on.
Qed.

Lemma back_chord s x : perp (fst s) (snd s) x <> 0 -> nw x (chord (back s)) = (- nw x (chord s))%Z.
Proof.
  intros H. assert (E : chord (back s) = (Vtx (px (snd s)) (py (snd s)) 0, fst s)) by reflexivity.
  apply nw_reverse; auto using chord_ok, off_chord; try reflexivity; [|cbn; ring].
  apply off_chord. cbn [back fst snd]. unfold perp in *. cbn [px py]. lra.
Qed.

(** ** The change across an arc *)
Definition lift (b : R) : Z := if Rlt_dec 0 b then 0%Z else (-1)%Z.
Definition over (d : R) : Z := if Rlt_dec 0 d then 1%Z else 0%Z.

Lemma arc_jump s x : okseg s -> pbulge (fst s) <> 0 -> pbulge (fst s) * perp (fst s) (snd s) x < 0 -> ~ on s x -> sideof s x <> 0 ->
  nw x s = (nw x (chord s) + lift (pbulge (fst s)) + over (sideof s x))%Z.
Proof.
  intros Hok Hb HP Off HS.
  assert (G : forall s : seg, okseg s -> 0 < pbulge (fst s) -> perp (fst s) (snd s) x < 0 -> sideof s x <> 0 ->
              nw x s = (nw x (chord s) + over (sideof s x))%Z).
  { intros [a b] Ok B P Sd. cbn [fst snd] in *. destruct (arc_nw_ccw a b x Ok B ltac:(lra)) as (I & O). unfold over.
    pose proof (inb_side a b x ltac:(lra)) as IB. destruct (Rlt_dec 0 (sideof (a, b) x)) as [L|L].
    - apply I. split; [exact P|]. apply IB. nra.
    - rewrite Z.add_0_r. apply O. intros (_ & N). apply IB in N. nra. }
  unfold lift. destruct (Rlt_dec 0 (pbulge (fst s))) as [L|L].
  - rewrite (G s Hok L); [lia|nra|exact HS].
  - assert (B : pbulge (fst s) < 0) by lra.
    pose proof (G (back s) (back_ok s Hok)) as K. rewrite (back_side s x), (back_nw s x Hok Off), (back_chord s x) in K by nra.
    specialize (K ltac:(cbn; lra)).
    assert (PB : perp (fst (back s)) (snd (back s)) x = - perp (fst s) (snd s) x) by (unfold perp, back; cbn [fst snd px py]; ring).
    rewrite PB in K. specialize (K ltac:(nra) ltac:(lra)). revert K. unfold over.
    destruct (Rlt_dec 0 (- sideof s x)), (Rlt_dec 0 (sideof s x)); try lra; lia.
Qed.

Lemma cos_under u : 0 < u < PI -> cos u < 1.
Proof. intros Hu. rewrite <- cos_0. apply cos_decreasing_1; lra. Qed.

(** The interior of an arc is on its side of the chord. *)
Lemma arc_perp s t z : okseg s -> pbulge (fst s) <> 0 -> 0 < t < 1 -> seg_at (fst s) (snd s) t z -> pbulge (fst s) * perp (fst s) (snd s) z < 0.
Proof.
  intros Hok Hb Ht Hz. destruct s as [a b]. cbn [fst snd] in *. pose proof (proj2 Hok Hb) as Hne.
  assert (Hb1 : Rabs (pbulge a) <= 1) by (destruct (proj1 Hok) as [?|[_ ?]]; [contradiction|assumption]).
  pose proof (computed_is_arc (pos a) (pos b) (pbulge a) Hne Hb) as (_ & E1 & E2).
  apply seg_at_arc in Hz; auto. pose proof (radius_pos (pos a) (pos b) (pbulge a) Hne Hb) as Hr.
  set (c := centre_of _ _ _) in *. set (r := radius_of _ _ _) in *. set (al := angle c (pos a)) in *. set (w := sweep (pbulge a)) in *.
  assert (E : perp a b z = - (r * r) * (sin (t * w) * (1 - cos ((1 - t) * w)) + sin ((1 - t) * w) * (1 - cos (t * w)))).
  { clearbody al c r. assert (XG : exists g, al = g - t * w) by (exists (al + t * w); ring). destruct XG as (g & ->).
    replace (g - t * w + t * w) with g in Hz by ring. replace (g - t * w + w) with (g + (1 - t) * w) in E2 by ring.
    unfold perp. rewrite Hz. injection E1 as -> ->. injection E2 as -> ->. cbn [circle_pt vx vy].
    rewrite !sin_plus, !cos_plus, !sin_minus, !cos_minus. pose proof (sin2_cos2 g) as S. unfold Rsqr in S.
    set (sg := sin g) in *. set (cg := cos g) in *. set (A := sin (t * w)). set (B := cos (t * w)). set (C := sin ((1 - t) * w)). set (D := cos ((1 - t) * w)).
    transitivity (- (r * r) * ((sg * sg + cg * cg) * (A * (1 - D) + C * (1 - B)))); [ring|rewrite S; ring]. }
  rewrite E. pose proof (sweep_bound _ Hb1) as SB. fold w in SB. pose proof PI_pos.
  assert (RR : 0 < r * r) by nra.
  destruct (Rlt_dec 0 (pbulge a)) as [L|L].
  - assert (W : 0 < w). { unfold w, sweep. apply Rmult_lt_0_compat; [lra|]. rewrite <- atan_0. now apply atan_increasing. }
    assert (PP : forall u, 0 < u < 1 -> 0 < u * w < PI) by (intros u Hu; split; [apply Rmult_lt_0_compat; lra|]; assert (u * w < 1 * w) by (apply Rmult_lt_compat_r; lra); lra).
    assert (P1 := PP t Ht). assert (P2 := PP (1 - t) ltac:(lra)).
    pose proof (sin_gt_0 _ (proj1 P1) (proj2 P1)). pose proof (sin_gt_0 _ (proj1 P2) (proj2 P2)).
    assert (cos (t * w) < 1) by (apply cos_under; lra).
    assert (cos ((1 - t) * w) < 1) by (apply cos_under; lra).
    assert (0 < sin (t * w) * (1 - cos ((1 - t) * w))) by (apply Rmult_lt_0_compat; lra).
    assert (0 < sin ((1 - t) * w) * (1 - cos (t * w))) by (apply Rmult_lt_0_compat; lra).
    assert (0 < r * r * (sin (t * w) * (1 - cos ((1 - t) * w)) + sin ((1 - t) * w) * (1 - cos (t * w)))) by (apply Rmult_lt_0_compat; lra). nra.
  - assert (W : 0 < - w). { unfold w, sweep. assert (atan (pbulge a) < atan 0) by (apply atan_increasing; lra). rewrite atan_0 in *. lra. }
    assert (PP : forall u, 0 < u < 1 -> 0 < - (u * w) < PI).
    { intros u Hu. replace (- (u * w)) with (u * - w) by ring. split; [apply Rmult_lt_0_compat; lra|]. assert (u * - w < 1 * - w) by (apply Rmult_lt_compat_r; lra). lra. }
    assert (P1 := PP t Ht). assert (P2 := PP (1 - t) ltac:(lra)).
    pose proof (sin_gt_0 _ (proj1 P1) (proj2 P1)) as S1. pose proof (sin_gt_0 _ (proj1 P2) (proj2 P2)) as S2. rewrite sin_neg in S1, S2.
    assert (cos (- (t * w)) < 1) as C1 by (apply cos_under; lra).
    assert (cos (- ((1 - t) * w)) < 1) as C2 by (apply cos_under; lra). rewrite cos_neg in C1, C2.
    assert (0 < - sin (t * w) * (1 - cos ((1 - t) * w))) by (apply Rmult_lt_0_compat; lra).
    assert (0 < - sin ((1 - t) * w) * (1 - cos (t * w))) by (apply Rmult_lt_0_compat; lra).
    assert (0 < r * r * (- (sin (t * w) * (1 - cos ((1 - t) * w)) + sin ((1 - t) * w) * (1 - cos (t * w))))) by (apply Rmult_lt_0_compat; lra). nra.
Qed.

(** ** Across any segment *)
Lemma coord_dist z x : Rabs (vx x - vx z) <= dist z x /\ Rabs (vy x - vy z) <= dist z x.
Proof.
  unfold dist. rewrite <- (sqrt_Rsqr_abs (vx x - vx z)), <- (sqrt_Rsqr_abs (vy x - vy z)).
  pose proof (Rle_0_sqr (vx x - vx z)). pose proof (Rle_0_sqr (vy x - vy z)). unfold Rsqr in *.
  split; apply sqrt_le_1_alt; lra.
Qed.

Lemma perp_cont v1 v2 z e : 0 < e -> exists d, 0 < d /\ forall x, dist z x < d -> Rabs (perp v1 v2 x - perp v1 v2 z) < e.
Proof.
  intros He. set (M := Rabs (px v2 - px v1) + Rabs (py v2 - py v1) + 1).
  assert (HM : 1 <= M) by (unfold M; pose proof (Rabs_pos (px v2 - px v1)); pose proof (Rabs_pos (py v2 - py v1)); lra).
  exists (e / M). split; [apply Rdiv_lt_0_compat; lra|]. intros x Hx.
  assert (X1 : Rabs (vx x - vx z) <= dist z x /\ Rabs (vy x - vy z) <= dist z x).
  { apply coord_dist. }
  replace (perp v1 v2 x - perp v1 v2 z) with ((px v2 - px v1) * (vy x - vy z) + - ((py v2 - py v1) * (vx x - vx z))) by (unfold perp; ring).
  eapply Rle_lt_trans; [apply Rabs_triang|]. rewrite Rabs_Ropp, !Rabs_mult.
  assert (D0 : 0 <= dist z x) by apply sqrt_pos.
  assert (Rabs (px v2 - px v1) * Rabs (vy x - vy z) <= Rabs (px v2 - px v1) * dist z x) by (apply Rmult_le_compat_l; [apply Rabs_pos|lra]).
  assert (Rabs (py v2 - py v1) * Rabs (vx x - vx z) <= Rabs (py v2 - py v1) * dist z x) by (apply Rmult_le_compat_l; [apply Rabs_pos|lra]).
  apply Rle_lt_trans with (M * dist z x); [unfold M; lra|].
  apply Rlt_le_trans with (M * (e / M)); [apply Rmult_lt_compat_l; lra|right; field; lra].
Qed.

Definition ends_differ (s : seg) : Prop := pos (fst s) <> pos (snd s).

Lemma side_jump s t z : okseg s -> ends_differ s -> 0 < t < 1 -> seg_at (fst s) (snd s) t z ->
  exists s' k r, okseg s' /\ pos (fst s') = pos (fst s) /\ pos (snd s') = pos (snd s) /\ ~ on s' z /\ 0 < r
    /\ forall x, dist z x < r -> ~ on s x -> sideof s x <> 0 -> nw x s = (nw x s' + k + over (sideof s x))%Z.
Proof.
  intros Hok Hd Ht Hz. destruct (Req_dec (pbulge (fst s)) 0) as [E|E].
  - (* a line and the half circle on its right *)
    destruct s as [a b]. cbn [fst snd] in *. unfold ends_differ in Hd. cbn [fst snd] in Hd.
    set (s' := (Vtx (px a) (py a) 1, b) : seg).
    assert (Ok' : okseg s'). { split; [right; cbn; rewrite Rabs_R1; lra|intros _; exact Hd]. }
    apply seg_at_line in Hz; [|exact E].
    assert (L2 : 0 < (px b - px a) * (px b - px a) + (py b - py a) * (py b - py a)).
    { pose proof (chord2_pos (pos a) (pos b) Hd) as C. unfold chord2, pos in C. cbn [vx vy] in C. exact C. }
    assert (DZ : dotp a b z = - (t * (1 - t)) * ((px b - px a) * (px b - px a) + (py b - py a) * (py b - py a))).
    { rewrite Hz. unfold dotp, line_pt, pos. cbn [vx vy]. ring. }
    assert (DN : dotp a b z < 0) by (rewrite DZ; assert (0 < t * (1 - t)) by nra; nra).
    (* inside the circle near z *)
    assert (IN : exists r, 0 < r /\ forall x, dist z x < r -> dotp a b x < 0).
    { set (A := Rabs (vx z - px a) + Rabs (vx z - px b) + Rabs (vy z - py a) + Rabs (vy z - py b)).
      assert (HA : 0 <= A) by (unfold A; repeat apply Rplus_le_le_0_compat; apply Rabs_pos).
      exists (Rmin 1 (- dotp a b z / (A + 3))). assert (P : 0 < - dotp a b z / (A + 3)) by (apply Rdiv_lt_0_compat; lra).
      split; [apply Rmin_pos; lra|]. intros x Hx.
      assert (X1 : Rabs (vx x - vx z) <= dist z x /\ Rabs (vy x - vy z) <= dist z x).
      { apply coord_dist. }
      pose proof (Rmin_l 1 (- dotp a b z / (A + 3))). pose proof (Rmin_r 1 (- dotp a b z / (A + 3))).
      assert (Q : dotp a b x - dotp a b z <= (A + 2) * dist z x).
      { unfold dotp. set (u := vx x - vx z) in *. set (v := vy x - vy z) in *. set (d := dist z x) in *.
        assert (D0 : 0 <= d) by apply sqrt_pos.
        replace (vx x) with (vx z + u) by (unfold u; ring). replace (vy x) with (vy z + v) by (unfold v; ring).
        replace ((vx z + u - px a) * (vx z + u - px b) + (vy z + v - py a) * (vy z + v - py b) - ((vx z - px a) * (vx z - px b) + (vy z - py a) * (vy z - py b)))
          with ((vx z - px a) * u + (vx z - px b) * u + (vy z - py a) * v + (vy z - py b) * v + u * u + v * v) by ring.
        assert (GG : forall c w, Rabs w <= d -> c * w <= Rabs c * d).
        { intros c w Hw. eapply Rle_trans; [apply Rle_abs|]. rewrite Rabs_mult. apply Rmult_le_compat_l; [apply Rabs_pos|exact Hw]. }
        pose proof (GG (vx z - px a) u (proj1 X1)). pose proof (GG (vx z - px b) u (proj1 X1)).
        pose proof (GG (vy z - py a) v (proj2 X1)). pose proof (GG (vy z - py b) v (proj2 X1)).
        pose proof (GG u u (proj1 X1)). pose proof (GG v v (proj2 X1)).
        assert (Rabs u * d <= 1 * d) by (apply Rmult_le_compat_r; lra). assert (Rabs v * d <= 1 * d) by (apply Rmult_le_compat_r; lra).
        unfold A. lra. }
      assert ((A + 2) * dist z x < - dotp a b z); [|lra].
      apply Rle_lt_trans with ((A + 2) * (- dotp a b z / (A + 3))); [apply Rmult_le_compat_l; lra|].
      apply Rlt_le_trans with ((A + 3) * (- dotp a b z / (A + 3))); [apply Rmult_lt_compat_r; lra|right; field; lra]. }
    destruct IN as (r & Hr & IN).
    assert (SS : forall x, sideof s' x = - 2 * dotp a b x) by (intros x; unfold sideof, s', dotp; cbn [fst snd pbulge px py]; ring).
    exists s', (-1)%Z, r. split; [exact Ok'|]. split; [reflexivity|]. split; [reflexivity|]. split; [|split; [exact Hr|]].
    { intros (u & Hu & Hq). destruct (Req_dec u 0) as [->|U0]; [|destruct (Req_dec u 1) as [->|U1]].
      - apply (seg_at_unique _ _ _ _ _ (seg_at_0 _ _ Ok')) in Hq; [|exact Ok']. rewrite <- Hq in DN. unfold dotp, s', pos in DN. cbn [fst vx vy px py] in DN. lra.
      - apply (seg_at_unique _ _ _ _ _ (seg_at_1 _ _ Ok')) in Hq; [|exact Ok']. rewrite <- Hq in DN. unfold dotp, s', pos in DN. cbn [snd vx vy px py] in DN. lra.
      - pose proof (arc_perp s' u z Ok' ltac:(cbn; lra) ltac:(lra) Hq) as P. cbn [s' fst snd pbulge] in P. unfold perp in P. cbn [px py] in P.
        pose proof (perp_line a b t) as PL0. rewrite <- Hz in PL0. unfold perp in PL0. lra. }
    intros x Hx Off HS.
    assert (SE : sideof (a, b) x = perp a b x) by (unfold sideof; cbn [fst snd]; rewrite E; ring). rewrite SE in *.
    assert (CH : chord s' = (Vtx (px a) (py a) 0, b)) by reflexivity.
    assert (EA : nw x (a, b) = nw x (chord s')). { rewrite CH. destruct a as [ax ay ab]. cbn [pbulge px py] in *. rewrite E. reflexivity. }
    destruct (arc_nw_ccw (fst s') (snd s') x Ok' ltac:(cbn; lra)) as (I & O); [cbn [s' fst snd]; unfold perp in *; cbn [px py]; exact HS|].
    assert (PE : perp (fst s') (snd s') x = perp a b x) by reflexivity. rewrite PE in I, O.
    change (fst s', snd s') with s' in I, O. rewrite EA. unfold over.
    destruct (Rlt_dec 0 (perp a b x)) as [L|L].
    + rewrite O by (intros (N & _); lra). lia.
    + rewrite I; [lia|]. split; [lra|]. apply inb_side; [cbn; lra|]. change (fst s', snd s') with s'. rewrite SS. cbn [s' fst pbulge]. specialize (IN x Hx). lra.
  - pose proof (arc_perp s t z Hok E Ht Hz) as PZ.
    destruct (perp_cont (fst s) (snd s) z (Rabs (perp (fst s) (snd s) z))) as (r & Hr & PC).
    { apply Rabs_pos_lt. intros N. rewrite N in PZ. lra. }
    exists (chord s), (lift (pbulge (fst s))), r.
    split; [apply chord_ok|]. split; [reflexivity|]. split; [reflexivity|]. split; [apply off_chord; intros N; rewrite N in PZ; lra|]. split; [exact Hr|].
    intros x Hx Off HS. apply arc_jump; auto. specialize (PC x Hx). revert PC. unfold Rabs.
    destruct (Rcase_abs (perp (fst s) (snd s) x - perp (fst s) (snd s) z)), (Rcase_abs (perp (fst s) (snd s) z)); intros PC;
      (destruct (Rlt_dec 0 (pbulge (fst s))); [assert (perp (fst s) (snd s) z < 0) by nra; assert (perp (fst s) (snd s) x < 0) by lra|assert (0 < perp (fst s) (snd s) z) by nra; assert (0 < perp (fst s) (snd s) x) by lra]; nra).
Qed.
