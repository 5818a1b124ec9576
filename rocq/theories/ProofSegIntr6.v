(** Intersections of two polyline segments: the cases put together. *)
From Coq Require Import Reals Lra Lia Bool.
From Verif Require Import Num RNum ModelMath ModelIntr ModelSeg ModelSegIntr SpecGeom SpecIntr SpecBox SpecSegIntr
  ProofR ProofArc ProofArc2 ProofIntr ProofBox ProofBox2 ProofSlice ProofClosest ProofRedundantR
  ProofSegIntr ProofSegIntr2 ProofSegIntr3 ProofSegIntr4 ProofSegIntr5.
Local Open Scope R_scope.

Lemma bulge_zero_is (v : vertex R) : pbulge v = 0 -> bulge_is_zero v = true.
Proof. intros E. rewrite bulge_is_zero_R, E, Rabs_R0. apply rltb_true. lra. Qed.

Lemma bulge_nonzero_is (v1 v2 : vertex R) : seg_ok v1 v2 -> pbulge v1 <> 0 -> bulge_is_zero v1 = false.
Proof.
  intros Hok Hb. destruct (bulge_is_zero v1) eqn:E; [|reflexivity]. exfalso. apply Hb. now apply (bulge_ok_zero _ (proj1 Hok)).
Qed.

Lemma on_line v1 v2 q : pbulge v1 = 0 -> (on_seg v1 v2 q <-> exists t, 0 <= t <= 1 /\ q = line_pt (pos v1) (pos v2) t).
Proof.
  intros Hb. split; intros (t & Ht & Q); exists t; (split; [exact Ht|]); now apply (seg_at_line v1 v2 t q Hb).
Qed.

(** *** Two lines *)
Lemma seg_intr_lines v1 v2 u1 u2 eps :
  0 < eps -> pbulge v1 = 0 -> pbulge u1 = 0 -> eps <= Rabs (cross (vec (pos v1) (pos v2)) (vec (pos u1) (pos u2))) ->
  match pline_seg_intr v1 v2 u1 u2 eps with
  | SINoIntersect => disjoint_segs v1 v2 u1 u2
  | SIOne q => near_seg v1 v2 eps q /\ near_seg u1 u2 eps q
               /\ forall q', on_seg v1 v2 q' -> on_seg u1 u2 q' -> q' = q
  | _ => False
  end.
Proof.
  intros He Bv Bu Hx. unfold pline_seg_intr. rewrite (bulge_zero_is v1 Bv), (bulge_zero_is u1 Bu). cbn [andb].
  destruct (line_line_nonparallel _ _ _ _ eps He Hx) as (s & t & E & U & [[[I1 I2] ->]|[NI ->]]).
  - rewrite from_parametric_R. split; [now apply (near_line v1 v2 eps _ s Bv He eq_refl)|]. split; [now apply (near_line u1 u2 eps _ t Bu He)|].
    intros q' Q1 Q2. apply (on_line _ _ _ Bv) in Q1 as (s' & Hs & ->). apply (on_line _ _ _ Bu) in Q2 as (t' & Ht & E').
    destruct (U _ _ E') as [-> _]. reflexivity.
  - intros q' Q1 Q2. apply (on_line _ _ _ Bv) in Q1 as (s' & Hs & ->). apply (on_line _ _ _ Bu) in Q2 as (t' & Ht & E').
    destruct (U _ _ E') as [-> ->]. apply NI.
    pose proof (dist_pos (pos v1) (pos v2)). pose proof (dist_pos (pos u1) (pos u2)). unfold in_range. split; nra.
Qed.

Lemma seg_intr_collinear v1 v2 u1 u2 eps :
  0 < eps -> pbulge v1 = 0 -> pbulge u1 = 0 ->
  cross (vec (pos u1) (pos u2)) (vec (pos u1) (pos v1)) = 0 -> cross (vec (pos u1) (pos u2)) (vec (pos u1) (pos v2)) = 0 ->
  ~ is_point (pos v1) (pos v2) eps -> ~ is_point (pos u1) (pos u2) eps ->
  match pline_seg_intr v1 v2 u1 u2 eps with
  | SINoIntersect => disjoint_segs v1 v2 u1 u2
  | SIOne q => (q = pos v1 \/ q = pos v2) /\ near_seg u1 u2 (4 * eps) q
  | SIOverlapLines p q => before u1 u2 p q /\ p <> q
      /\ forall x, part u1 u2 p q x <-> on_seg v1 v2 x /\ on_seg u1 u2 x
  | _ => False
  end.
Proof.
  intros He Bv Bu C1 C2 N1 N2. unfold pline_seg_intr. rewrite (bulge_zero_is v1 Bv), (bulge_zero_is u1 Bu). cbn [andb].
  pose proof (line_line_collinear_main _ _ _ _ eps He C1 C2 N1 N2) as H.
  assert (HP : Rabs (cross (vec (pos v1) (pos v2)) (vec (pos u1) (pos u2))) < eps).
  { replace (cross (vec (pos v1) (pos v2)) (vec (pos u1) (pos u2))) with (cross (vec (pos u1) (pos u2)) (vec (pos u1) (pos v1)) - cross (vec (pos u1) (pos u2)) (vec (pos u1) (pos v2))) by (unfold cross, vec; cbn [vx vy]; ring).
    rewrite C1, C2, Rminus_0_r, Rabs_R0. exact He. }
  destruct (line_line_parallel_kind _ _ _ _ eps He HP) as [_ K].
  assert (Hu : pos u1 <> pos u2).
  { apply (fuzzy_false_neq _ _ eps He). now apply not_point_R. }
  destruct (line_line_intr (pos v1) (pos v2) (pos u1) (pos u2) eps) as [|s t|t0 t1|s t] eqn:EL.
  - intros q Q1 Q2. apply (on_line _ _ _ Bv) in Q1 as (s & Hs & ->). apply (on_line _ _ _ Bu) in Q2 as (t & Ht & E). exact (H s t Hs Ht E).
  - rewrite from_parametric_R. destruct H as (D & S01 & I0). split; [destruct S01 as [-> | ->]; [left; apply line_pt_0|right; apply line_pt_1]|].
    destruct (near_line u1 u2 eps _ t Bu He eq_refl I0) as (q' & O & [[_ D']|[? _]]); [|contradiction].
    exists q'. split; [exact O|]. left. split; [exact Bu|].
    pose proof (dist_triangle (line_pt (pos v1) (pos v2) s) q' (line_pt (pos u1) (pos u2) t)). lra.
  - rewrite !from_parametric_R. destruct H as [H1 H2]. specialize (K t0 t1 eq_refl) as (K0 & K1 & K2).
    assert (SA : forall t, seg_at u1 u2 t (line_pt (pos u1) (pos u2) t)) by (intros t; now apply seg_at_line).
    split; [exists t0, t1; repeat split; auto; lra|]. split; [intros E; apply line_pt_inj in E; [lra|exact Hu]|].
    intros x. split.
    + intros [(s & t & P1 & P2 & Q1 & Q2) (s' & t' & P1' & P2' & Q1' & Q2')].
      apply (seg_at_line u1 u2 _ _ Bu) in Q1, Q2, Q1', Q2'. apply line_pt_inj in Q1, Q2'; [|exact Hu|exact Hu]. subst s t'.
      rewrite Q2 in Q1'. apply line_pt_inj in Q1'; [|exact Hu]. subst s'. rewrite Q2. split.
      * destruct (H1 t ltac:(lra)) as (s & Hs & E). apply (on_line _ _ _ Bv). exists s. split; [exact Hs|]. now rewrite E.
      * apply (on_line _ _ _ Bu). exists t. split; [lra|reflexivity].
    + intros [Q1 Q2]. apply (on_line _ _ _ Bv) in Q1 as (s & Hs & E). apply (on_line _ _ _ Bu) in Q2 as (t & Ht & ->).
      specialize (H2 s t Hs Ht (eq_sym E)).
      split; [exists t0, t|exists t, t1]; repeat split; auto; lra.
  - contradiction.
Qed.

(** *** A line and an arc *)
Lemma seg_intr_line_arc v1 v2 u1 u2 eps c r a :
  0 < eps -> seg_ok u1 u2 -> pbulge v1 = 0 -> pbulge u1 <> 0 -> is_arc (pos u1) (pos u2) (pbulge u1) c r a ->
  ~ is_point (pos v1) (pos v2) eps ->
  (vx (pos v2) - vx (pos v1) = 0 \/ 1 / 100000000 <= Rabs (vx (pos v2) - vx (pos v1))) ->
  ~ passes_at (pos v1) (pos v2) c (r + eps) -> wide u1 u2 eps ->
  let check i i' := all_near v1 v2 u1 u2 eps i /\ all_near u1 u2 v1 v2 eps i' /\ no_overlap i /\ no_overlap i'
    /\ in_order u1 u2 i /\ in_order v1 v2 i' in
  check (pline_seg_intr v1 v2 u1 u2 eps) (pline_seg_intr u1 u2 v1 v2 eps).
Proof.
  intros He Hok Bv Bu HA Hp Hup Hedge Hw check.
  assert (HP : pos u1 <> pos u2) by (apply Hok, Bu).
  destruct (arc_unique _ _ _ _ _ _ Bu HA) as [Ec Er].
  assert (ZA : bulge_is_zero u1 = false) by now apply (bulge_nonzero_is u1 u2).
  assert (Hn : pos v1 <> pos v2) by (apply (fuzzy_false_neq _ _ eps He); now apply not_point_R).
  unfold pline_seg_intr. rewrite (bulge_zero_is v1 Bv), ZA. cbn [andb].
  rewrite Ec, Er in Hedge.
  pose proof (line_arc_sound (pos v1) (pos v2) u1 u2 eps He Hok Bu Hp Hup Hedge Hw false) as S0.
  pose proof (line_arc_sound (pos v1) (pos v2) u1 u2 eps He Hok Bu Hp Hup Hedge Hw true) as S1.
  assert (OL : forall q, on_line_arc (pos v1) (pos v2) u1 u2 eps q -> near_seg v1 v2 eps q /\ near_seg u1 u2 eps q).
  { intros q [N (t & -> & I0)]. split; [now apply (near_line v1 v2 eps _ t Bv He eq_refl)|exact N]. }
  unfold check. split; [|split; [|split; [|split; [|split]]]].
  - intros q Rq. destruct (line_arc_intr _ _ _ _ false eps); cbn in Rq, S0; try contradiction; subst; auto.
    destruct S0 as (A1 & A2 & _). destruct Rq as [-> | ->]; auto.
  - intros q Rq. destruct (line_arc_intr _ _ _ _ true eps); cbn in Rq, S1; try contradiction; subst; [| |destruct S1 as (A1 & A2 & _); destruct Rq as [-> | ->]];
      apply and_comm; auto.
  - destruct (line_arc_intr _ _ _ _ false eps); cbn; auto.
  - destruct (line_arc_intr _ _ _ _ true eps); cbn; auto.
  - destruct (line_arc_intr _ _ _ _ false eps) as [| | |q1 q2| |]; cbn; auto; try contradiction. destruct S0 as (_ & _ & D). intros O1 O2. now apply arc_order.
  - destruct (line_arc_intr _ _ _ _ true eps) as [| | |q1 q2| |]; cbn; auto; try contradiction. destruct S1 as (_ & _ & s & t & E1 & E2 & L). intros O1 O2.
    now apply (line_before v1 v2 q1 q2 s t).
Qed.

Lemma seg_intr_line_arc_found v1 v2 u1 u2 eps c r a q :
  0 < eps -> seg_ok u1 u2 -> pbulge v1 = 0 -> pbulge u1 <> 0 -> is_arc (pos u1) (pos u2) (pbulge u1) c r a ->
  ~ is_point (pos v1) (pos v2) eps ->
  (vx (pos v2) - vx (pos v1) = 0 \/ 1 / 100000000 <= Rabs (vx (pos v2) - vx (pos v1))) ->
  (exists t, dist (line_pt (pos v1) (pos v2) t) c <= r - eps) ->
  on_seg v1 v2 q -> on_seg u1 u2 q ->
  let check i i' := i <> SINoIntersect /\ i' <> SINoIntersect
         /\ ((reported i q /\ reported i' q) \/ Rabs (dist (pos v1) c - r) < eps \/ Rabs (dist (pos v2) c - r) < eps) in
  check (pline_seg_intr v1 v2 u1 u2 eps) (pline_seg_intr u1 u2 v1 v2 eps).
Proof.
  intros He Hok Bv Bu HA Hp Hup Hm Q1 Q2 check.
  destruct (arc_unique _ _ _ _ _ _ Bu HA) as [Ec Er].
  assert (ZA : bulge_is_zero u1 = false) by now apply (bulge_nonzero_is u1 u2).
  unfold pline_seg_intr. rewrite (bulge_zero_is v1 Bv), ZA. cbn [andb].
  assert (Hedge : ~ passes_at (pos v1) (pos v2) (centre_of (pos u1) (pos u2) (pbulge u1)) (radius_of (pos u1) (pos u2) (pbulge u1) + eps)).
  { rewrite <- Ec, <- Er. intros [_ F]. destruct Hm as (t & D). specialize (F t). lra. }
  unfold check.
  apply (on_line _ _ _ Bv) in Q1 as (t & Ht & Eq). rewrite Ec, Er in Hm.
  split; [exact (line_arc_found (pos v1) (pos v2) u1 u2 eps He Hok Bu Hp Hup Hedge false q t Ht Eq Q2 Hm)|].
  split; [exact (line_arc_found (pos v1) (pos v2) u1 u2 eps He Hok Bu Hp Hup Hedge true q t Ht Eq Q2 Hm)|].
  rewrite Ec, Er.
  destruct (line_arc_complete (pos v1) (pos v2) u1 u2 eps He Hok Bu Hp Hup Hedge false q t Ht Eq Q2 Hm) as [R1|?]; [|now right].
  destruct (line_arc_complete (pos v1) (pos v2) u1 u2 eps He Hok Bu Hp Hup Hedge true q t Ht Eq Q2 Hm) as [R2|?]; [|now right].
  left. now split.
Qed.

(** *** Arcs of different circles *)
Lemma seg_intr_arcs v1 v2 u1 u2 eps tol c1 r1 a1 c2 r2 a2 :
  0 < eps <= tol -> seg_ok v1 v2 -> seg_ok u1 u2 -> pbulge v1 <> 0 -> pbulge u1 <> 0 ->
  is_arc (pos v1) (pos v2) (pbulge v1) c1 r1 a1 -> is_arc (pos u1) (pos u2) (pbulge u1) c2 r2 a2 ->
  eps <= dist c1 c2 -> eps * (r1 + r2) <= tol * dist c1 c2 -> wide v1 v2 tol -> wide u1 u2 tol ->
  let i := pline_seg_intr v1 v2 u1 u2 eps in
  all_near v1 v2 u1 u2 tol i /\ no_overlap i.
Proof.
  intros He Okv Oku Bv Bu HAv HAu Hd Hc Wv Wu i.
  assert (HPv : pos v1 <> pos v2) by (apply Okv, Bv). assert (HPu : pos u1 <> pos u2) by (apply Oku, Bu).
  destruct (arc_unique _ _ _ _ _ _ Bv HAv) as [Ec Er]. destruct (arc_unique _ _ _ _ _ _ Bu HAu) as [Ec2 Er2].
  subst c1 r1 c2 r2. unfold i, pline_seg_intr. rewrite (bulge_nonzero_is _ _ Okv Bv), (bulge_nonzero_is _ _ Oku Bu). cbn [andb].
  pose proof (arc_arc_sound v1 v2 u1 u2 eps tol He Okv Oku Bv Bu Wv Wu Hc Hd) as G.
  split.
  - intros q Rq. destruct (arc_arc_intr v1 v2 u1 u2 eps); cbn in Rq, G; try contradiction; subst; auto.
    destruct G. destruct Rq as [-> | ->]; auto.
  - destruct (arc_arc_intr v1 v2 u1 u2 eps); cbn in *; auto.
Qed.

Lemma seg_intr_arcs_found v1 v2 u1 u2 eps c1 r1 a1 c2 r2 a2 p p' q :
  0 < eps -> seg_ok v1 v2 -> seg_ok u1 u2 -> pbulge v1 <> 0 -> pbulge u1 <> 0 ->
  is_arc (pos v1) (pos v2) (pbulge v1) c1 r1 a1 -> is_arc (pos u1) (pos u2) (pbulge u1) c2 r2 a2 ->
  eps <= dist c1 c2 ->
  dist p c1 = r1 -> dist p c2 = r2 -> dist p' c1 = r1 -> dist p' c2 = r2 -> ~ is_point p p' eps ->
  on_seg v1 v2 q -> on_seg u1 u2 q ->
  let i := pline_seg_intr v1 v2 u1 u2 eps in
  i <> SINoIntersect
  /\ (reported i q
      \/ Rabs (dist (pos u1) c1 - r1) < eps \/ Rabs (dist (pos u2) c1 - r1) < eps
      \/ Rabs (dist (pos v1) c2 - r2) < eps \/ Rabs (dist (pos v2) c2 - r2) < eps).
Proof.
  intros He Okv Oku Bv Bu HAv HAu Hd A1 A2 A3 A4 Np Q1 Q2 i.
  destruct (arc_unique _ _ _ _ _ _ Bv HAv) as [Ec Er]. destruct (arc_unique _ _ _ _ _ _ Bu HAu) as [Ec2 Er2].
  subst c1 c2. rewrite Er in A1, A3 |- *. rewrite Er2 in A2, A4 |- *. unfold i, pline_seg_intr. rewrite (bulge_nonzero_is _ _ Okv Bv), (bulge_nonzero_is _ _ Oku Bu). cbn [andb].
  exact (arc_arc_complete v1 v2 u1 u2 eps eps (conj He (Rle_refl _)) Okv Oku Bv Bu p p' q Np Hd A1 A2 A3 A4 Q1 Q2).
Qed.

(** *** Arcs of one circle *)
Lemma seg_intr_overlap v1 v2 u1 u2 eps c1 r1 a1 c2 r2 a2 :
  0 < eps -> seg_ok v1 v2 -> seg_ok u1 u2 -> pbulge v1 <> 0 -> pbulge u1 <> 0 ->
  is_arc (pos v1) (pos v2) (pbulge v1) c1 r1 a1 -> is_arc (pos u1) (pos u2) (pbulge u1) c2 r2 a2 ->
  dist c1 c2 < eps -> Rabs (r1 - r2) < eps -> (r1 + r2) / 2 / 100000000 <= eps ->
  0 < pbulge v1 * pbulge u1 \/ 5 * eps < dist (pos v2) (pos u2) ->
  let i := pline_seg_intr v1 v2 u1 u2 eps in
  all_near v1 v2 u1 u2 (5 * eps) i /\ (forall q, i <> SITangent q) /\ (forall p q, i <> SIOverlapLines p q)
  /\ (forall p q, i = SITwo p q -> p = pos u1 /\ q = pos u2)
  /\ (c1 = c2 -> r1 = r2 ->
      (i = SINoIntersect -> disjoint_segs v1 v2 u1 u2)
      /\ forall p q, i = SIOverlapArcs p q ->
         before u1 u2 p q
         /\ (forall x, part u1 u2 p q x -> near_seg v1 v2 (5 * eps) x)
         /\ (forall x, on_seg v1 v2 x -> on_seg u1 u2 x -> part u1 u2 p q x)).
Proof.
  intros He Okv Oku Bv Bu HAv HAu Hd Hr Hf Hdir i.
  assert (HPv : pos v1 <> pos v2) by (apply Okv, Bv). assert (HPu : pos u1 <> pos u2) by (apply Oku, Bu).
  destruct (arc_unique _ _ _ _ _ _ Bv HAv) as [Ec Er]. destruct (arc_unique _ _ _ _ _ _ Bu HAu) as [Ec2 Er2].
  subst c1 r1 c2 r2. unfold i, pline_seg_intr. rewrite (bulge_nonzero_is _ _ Okv Bv), (bulge_nonzero_is _ _ Oku Bu). cbn [andb].
  unfold arc_arc_intr.
  rewrite (arc_radius_and_center_eq v1 v2) by (try apply Okv; assumption).
  rewrite (arc_radius_and_center_eq u1 u2) by (try apply Oku; assumption).
  rewrite (proj2 (circle_circle_overlap _ _ _ _ eps) (conj Hd Hr)).
  pose proof (arc_arc_overlap_spec v1 v2 u1 u2 eps (5 * eps) Okv Oku Bv Bu He (Rle_refl _) Hd Hr) as G.
  specialize (G ltac:(unfold fz; lra)). cbv zeta in G.
  destruct (arc_arc_overlap v1 v2 u1 u2 eps _ _ _ _) as [|q|q|p q|p q|p q]; try contradiction;
    (split; [|split; [discriminate|split; [discriminate|split]]]); cbn [reported]; try discriminate.
  - intros q [].
  - intros E1 E2. split; [intros _; exact (G E1 E2)|discriminate].
  - intros x ->. exact (G Hdir).
  - intros _ _. split; discriminate.
  - destruct G as (G1 & G2 & _). intros x [-> | ->]; assumption.
  - destruct G as (_ & _ & G1 & G2). intros p' q' E. injection E as <- <-. now split.
  - intros _ _. split; discriminate.
  - destruct G as (G1 & G2 & _). intros x [-> | ->]; assumption.
  - destruct G as (_ & _ & G3). intros E1 E2. split; [discriminate|]. intros p' q' E. injection E as <- <-.
    destruct (G3 E1 E2) as (O1 & O2 & O3). split; [exact O1|].
    split; [intros x [X1 X2]; now apply O2|intros x X1 X2; now apply O3].
Qed.

(** *** Arcs about one centre with different radii *)
Lemma seg_intr_concentric v1 v2 u1 u2 eps c1 r1 a1 c2 r2 a2 :
  0 < eps -> seg_ok v1 v2 -> seg_ok u1 u2 -> pbulge v1 <> 0 -> pbulge u1 <> 0 ->
  is_arc (pos v1) (pos v2) (pbulge v1) c1 r1 a1 -> is_arc (pos u1) (pos u2) (pbulge u1) c2 r2 a2 ->
  dist c1 c2 < eps -> eps <= Rabs (r1 - r2) ->
  pline_seg_intr v1 v2 u1 u2 eps = SINoIntersect /\ disjoint_segs v1 v2 u1 u2.
Proof.
  intros He Okv Oku Bv Bu HAv HAu Hd Hr.
  assert (HPv : pos v1 <> pos v2) by (apply Okv, Bv). assert (HPu : pos u1 <> pos u2) by (apply Oku, Bu).
  destruct (arc_unique _ _ _ _ _ _ Bv HAv) as [Ec Er]. destruct (arc_unique _ _ _ _ _ _ Bu HAu) as [Ec2 Er2].
  subst c1 r1 c2 r2.
  assert (EC : circle_circle_intr (radius_of (pos v1) (pos v2) (pbulge v1)) (centre_of (pos v1) (pos v2) (pbulge v1))
                 (radius_of (pos u1) (pos u2) (pbulge u1)) (centre_of (pos u1) (pos u2) (pbulge u1)) eps = CCNoIntersect).
  { unfold circle_circle_intr.
    match goal with |- context [nsqrt ?x] => assert (ES : nsqrt x = dist (centre_of (pos v1) (pos v2) (pbulge v1)) (centre_of (pos u1) (pos u2) (pbulge u1)))
      by (unfold v2dot, v2sub, dist; rnum; f_equal; ring) end.
    rewrite ES. unfold fuzzy_eq_zero_eps, fuzzy_eq_eps. rnum. rewrite (Rabs_pos_eq (dist _ _)) by apply dist_pos.
    rewrite (proj2 (rltb_true _ _) Hd), (proj2 (rltb_false _ _) Hr). reflexivity. }
  split.
  - unfold pline_seg_intr. rewrite (bulge_nonzero_is _ _ Okv Bv), (bulge_nonzero_is _ _ Oku Bu). cbn [andb]. unfold arc_arc_intr.
    rewrite (arc_radius_and_center_eq v1 v2) by (try apply Okv; assumption).
    rewrite (arc_radius_and_center_eq u1 u2) by (try apply Oku; assumption). rewrite EC. reflexivity.
  - intros q Q1 Q2.
    pose proof (radius_pos _ _ _ HPv Bv) as R1. pose proof (radius_pos _ _ _ HPu Bu) as R2.
    pose proof (circle_circle_spec _ (centre_of (pos v1) (pos v2) (pbulge v1)) _ (centre_of (pos u1) (pos u2) (pbulge u1)) eps He (Rlt_le _ _ R1) (Rlt_le _ _ R2)) as S.
    rewrite EC in S. apply (S q). split.
    + exact (proj2 (on_within v1 v2 Okv Bv q eps He Q1)).
    + exact (proj2 (on_within u1 u2 Oku Bu q eps He Q2)).
Qed.
