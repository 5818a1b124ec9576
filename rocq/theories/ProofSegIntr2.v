(** Intersections of a line segment with an arc. *)
From Coq Require Import Reals Lra Bool.
From Verif Require Import Num RNum ModelMath ModelIntr ModelSeg ModelSegIntr SpecGeom SpecIntr SpecBox SpecSegIntr
  ProofR ProofArc ProofArc2 ProofIntr ProofBox ProofBox2 ProofClosest ProofSegIntr.
Local Open Scope R_scope.

Lemma from_parametric_R p0 p1 (t : R) : point_from_parametric p0 p1 t = line_pt p0 p1 t.
Proof. unfold point_from_parametric, line_pt, v2add, v2scale, v2sub. rnum. reflexivity. Qed.

Lemma line_pt_0 p0 p1 : line_pt p0 p1 0 = p0.
Proof. unfold line_pt. apply vec2_eq; cbn [vx vy]; ring. Qed.
Lemma line_pt_1 p0 p1 : line_pt p0 p1 1 = p1.
Proof. unfold line_pt. apply vec2_eq; cbn [vx vy]; ring. Qed.

Lemma dist_sq_R p q : dist_squared p q = dist p q * dist p q.
Proof. rewrite dist_sqr. unfold dist_squared, v2dot, v2sub. rnum. cbn [vx vy]. ring. Qed.

Lemma dist_sq_ltb p q p' q' : rltb (dist_squared p q) (dist_squared p' q') = rltb (dist p q) (dist p' q').
Proof.
  rewrite !dist_sq_R. pose proof (dist_pos p q). pose proof (dist_pos p' q').
  destruct (rltb_spec (dist p q) (dist p' q')) as [L|L].
  - apply rltb_true. nra.
  - destruct (rltb_spec (dist p q * dist p q) (dist p' q' * dist p' q')) as [M|M]; [nra|reflexivity].
Qed.

Section LineArc.
Variables (p0 p1 : vec2 R) (a1 a2 : vertex R) (eps : R).
Let c := centre_of (pos a1) (pos a2) (pbulge a1).
Let r := radius_of (pos a1) (pos a2) (pbulge a1).
Let L := dist p0 p1.
Hypotheses (He : 0 < eps) (Hok : seg_ok a1 a2) (Hb : pbulge a1 <> 0).
Hypotheses (Hp : ~ is_point p0 p1 eps) (Hup : vx p1 - vx p0 = 0 \/ 1 / 100000000 <= Rabs (vx p1 - vx p0)).
Hypothesis Hedge : ~ passes_at p0 p1 c (r + eps).

Notation in_sw q := (point_within_arc_sweep c (pos a1) (pos a2) (bulge_is_neg a1) q eps).
Notation on_arc q := (point_lies_on_arc r c a1 a2 eps q).

Lemma p_neq : p0 <> p1.
Proof. apply (fuzzy_false_neq _ _ eps He). now apply not_point_R. Qed.

Lemma L_pos : 0 < L.
Proof. apply sqrt_lt_R0; apply sumsq_pos; apply (vec2_neq _ _ p_neq). Qed.

Lemma in_sweep_R t : point_in_sweep p0 p1 c a1 a2 eps t
  = if fuzzy_in_range_eps (t * L) 0 L eps then if in_sw (line_pt p0 p1 t) then Some (line_pt p0 p1 t) else None else None.
Proof.
  unfold point_in_sweep. rewrite dist_v2length, from_parametric_R. fold L. rnum.
  destruct (fuzzy_in_range_eps (t * L) 0 L eps); reflexivity.
Qed.

Lemma in_sweep_some t q : point_in_sweep p0 p1 c a1 a2 eps t = Some q ->
  q = line_pt p0 p1 t /\ in_range t L eps /\ in_sw q = true.
Proof.
  rewrite in_sweep_R. destruct (fuzzy_in_range_eps (t * L) 0 L eps) eqn:F; [|discriminate].
  destruct (in_sw (line_pt p0 p1 t)) eqn:W; [|discriminate]. intros E. injection E as <-.
  split; [reflexivity|]. split; [|exact W]. apply fuzzy_in_range_R in F. unfold in_range. lra.
Qed.

Lemma in_sweep_on t : 0 <= t <= 1 -> on_seg a1 a2 (line_pt p0 p1 t) ->
  point_in_sweep p0 p1 c a1 a2 eps t = Some (line_pt p0 p1 t).
Proof.
  intros Ht H. rewrite in_sweep_R. pose proof L_pos.
  assert (F : fuzzy_in_range_eps (t * L) 0 L eps = true) by (apply fuzzy_in_range_R; nra). rewrite F.
  destruct (on_within a1 a2 Hok Hb _ _ He H) as [W _]. fold c in W. now rewrite W.
Qed.

(** The cases of the intersection with the circle. *)
Lemma circle_cases :
  match line_circle_intr p0 p1 r c eps with
  | LCNoIntersect => forall t, r + eps < dist (line_pt p0 p1 t) c
  | LCTangentIntersect t => Rabs (dist (line_pt p0 p1 t) c - r) < eps /\ forall t', dist (line_pt p0 p1 t) c <= dist (line_pt p0 p1 t') c
  | LCTwoIntersects t0 t1 =>
      t0 < t1 /\ dist (line_pt p0 p1 t0) c = r /\ dist (line_pt p0 p1 t1) c = r
      /\ (forall t, dist (line_pt p0 p1 t) c = r -> t = t0 \/ t = t1)
      /\ exists t, dist (line_pt p0 p1 t) c <= r - eps
  end.
Proof.
  pose proof (line_circle_main p0 p1 r c eps He Hp Hup) as M.
  destruct (line_circle_intr p0 p1 r c eps) as [|t|t0 t1].
  - destruct M as (d & M1 & M2). intros t. specialize (M2 t). lra.
  - tauto.
  - destruct M as (_ & M2 & M3). apply M3.
    destruct (line_dist_attained p0 p1 c p_neq) as [t Ht]. exists t.
    destruct M2 as [t2 M2]. pose proof (line_dist_min p0 p1 c t2 p_neq).
    destruct (Req_dec (line_dist p0 p1 c) (r + eps)) as [E|E]; [|lra].
    exfalso. apply Hedge. split; [exists t; lra|]. intros t'. pose proof (line_dist_min p0 p1 c t' p_neq). lra.
Qed.

Definition on_line_arc (q : vec2 R) : Prop :=
  near_seg a1 a2 eps q /\ exists t, q = line_pt p0 p1 t /\ in_range t L eps.

Hypothesis Hwide : wide a1 a2 eps.

Lemma r_eps : 2 * eps <= r.
Proof.
  destruct (Hwide Hb c r (angle c (pos a1))) as [W _]; [|exact W].
  apply computed_is_arc; [apply Hok, Hb|exact Hb].
Qed.

Lemma end_ok : (on_arc p0 = true -> on_line_arc p0) /\ (on_arc p1 = true -> on_line_arc p1).
Proof.
  pose proof L_pos. split; intros H0.
  - split; [eapply lies_near; eauto; lra|]. exists 0. rewrite line_pt_0. split; [reflexivity|]. unfold in_range. lra.
  - split; [eapply lies_near; eauto; lra|]. exists 1. rewrite line_pt_1. split; [reflexivity|]. unfold in_range. lra.
Qed.

Lemma sweep_ok t q : Rabs (dist (line_pt p0 p1 t) c - r) < eps \/ dist (line_pt p0 p1 t) c = r ->
  point_in_sweep p0 p1 c a1 a2 eps t = Some q -> on_line_arc q.
Proof.
  intros D H. apply in_sweep_some in H as (-> & I & W). split; [|now exists t].
  apply (within_near a1 a2 Hok Hb _ eps eps); auto; [lra|]. fold c r. destruct D as [D|D]; [lra|]. rewrite D.
  rewrite Rminus_diag_eq by reflexivity. rewrite Rabs_R0. lra.
Qed.

(** The two points of the line on the circle are further apart than [2 * eps]. *)
Lemma chord_long t0 t1 tm : t0 < t1 -> dist (line_pt p0 p1 t0) c = r -> dist (line_pt p0 p1 t1) c = r ->
  dist (line_pt p0 p1 tm) c <= r - eps -> 2 * eps < (t1 - t0) * L.
Proof.
  intros Ht D0 D1 Dm. pose proof r_eps as R2. pose proof L_pos as LP.
  apply (f_equal (fun x => x * x)) in D0. apply (f_equal (fun x => x * x)) in D1.
  assert (Dm2 : dist (line_pt p0 p1 tm) c * dist (line_pt p0 p1 tm) c <= (r - eps) * (r - eps)).
  { pose proof (dist_pos (line_pt p0 p1 tm) c). nra. }
  assert (LL : L * L = (vx p1 - vx p0) * (vx p1 - vx p0) + (vy p1 - vy p0) * (vy p1 - vy p0)) by (unfold L; rewrite dist_sqr; ring).
  rewrite dist_sqr in D0, D1, Dm2. unfold line_pt in D0, D1, Dm2. cbn [vx vy] in D0, D1, Dm2.
  set (X := vx p1 - vx p0) in *. set (Y := vy p1 - vy p0) in *. set (e := vx p0 - vx c) in *. set (f := vy p0 - vy c) in *.
  set (N := L * L) in *. assert (HN : 0 < N) by (unfold N; nra).
  (* |e + t X, f + t Y|^2 = N t^2 + 2 B t + K *)
  set (B := e * X + f * Y). set (K := e * e + f * f).
  assert (Q : forall t, (vx p0 + t * X - vx c) * (vx p0 + t * X - vx c) + (vy p0 + t * Y - vy c) * (vy p0 + t * Y - vy c) = N * (t * t) + 2 * B * t + K).
  { intros t. unfold B, K. rewrite LL. unfold e, f. ring. }
  rewrite Q in D0, D1, Dm2.
  (* sum of roots *)
  assert (SB : 2 * B = - N * (t0 + t1)).
  { assert (E : (t1 - t0) * (N * (t0 + t1) + 2 * B) = 0) by lra. apply Rmult_integral in E as [E|E]; lra. }
  assert (G : N * (tm - t0) * (tm - t1) <= (r - eps) * (r - eps) - r * r).
  { replace (N * (tm - t0) * (tm - t1)) with (N * (tm * tm) - N * (t0 + t1) * tm + N * t0 * t1) by ring. nra. }
  assert (G2 : N * ((t1 - t0) * (t1 - t0)) >= 4 * (2 * r * eps - eps * eps)).
  { assert (0 <= N * ((2 * tm - t0 - t1) * (2 * tm - t0 - t1))) by (apply Rmult_le_pos; [lra|apply Rle_0_sqr]). nra. }
  assert (G3 : (2 * eps) * (2 * eps) < ((t1 - t0) * L) * ((t1 - t0) * L)).
  { replace (((t1 - t0) * L) * ((t1 - t0) * L)) with (N * ((t1 - t0) * (t1 - t0))) by (unfold N; ring). nra. }
  assert (0 < (t1 - t0) * L) by (apply Rmult_lt_0_compat; lra).
  destruct (Rlt_dec (2 * eps) ((t1 - t0) * L)) as [?|C]; [assumption|nra].
Qed.

(** A result whose points lie near both, in the order of the line if it is the second segment and
    in the order of the distances from the arc's start otherwise. *)
Definition line_arc_good (ul : bool) (i : seg_intr R) : Prop :=
  match i with
  | SINoIntersect => True
  | SITangent q | SIOne q => on_line_arc q
  | SITwo q1 q2 =>
      on_line_arc q1 /\ on_line_arc q2
      /\ (if ul then exists s t, q1 = line_pt p0 p1 s /\ q2 = line_pt p0 p1 t /\ s <= t
          else dist q1 (pos a1) <= dist q2 (pos a1))
  | _ => False
  end.

Lemma line_arc_sound ul : line_arc_good ul (line_arc_intr p0 p1 a1 a2 ul eps).
Proof.
  unfold line_arc_intr. rewrite (arc_radius_and_center_eq a1 a2) by (try apply Hok; assumption).
  change (centre_of (pos a1) (pos a2) (pbulge a1)) with c. change (radius_of (pos a1) (pos a2) (pbulge a1)) with r.
  pose proof circle_cases as CC. destruct end_ok as [E0 E1].
  destruct (line_circle_intr p0 p1 r c eps) as [|t|t0 t1]; [exact I| |].
  - destruct CC as [C1 _]. destruct (on_arc p0); [now apply E0|]. destruct (on_arc p1); [now apply E1|].
    destruct (point_in_sweep p0 p1 c a1 a2 eps t) eqn:S0; [|exact I]. eapply sweep_ok; [left; exact C1|exact S0].
  - destruct CC as (T & D0 & D1 & _ & tm & Dm). pose proof (chord_long _ _ _ T D0 D1 Dm) as CL.
    destruct (point_in_sweep p0 p1 c a1 a2 eps t0) as [q1|] eqn:S0; destruct (point_in_sweep p0 p1 c a1 a2 eps t1) as [q2|] eqn:S1.
    2-3: destruct (on_arc p0); [now apply E0|]; destruct (on_arc p1); [now apply E1|]; match goal with H : point_in_sweep _ _ _ _ _ _ _ = Some _ |- _ => refine (sweep_ok _ _ (or_intror _) H); assumption end.
    2: exact I.
    pose proof (sweep_ok _ _ (or_intror D0) S0) as O0. pose proof (sweep_ok _ _ (or_intror D1) S1) as O1.
    apply in_sweep_some in S0 as (EQ1 & I0 & _). apply in_sweep_some in S1 as (EQ2 & I1 & _). subst q1 q2.
    set (q1 := line_pt p0 p1 t0) in *. set (q2 := line_pt p0 p1 t1) in *.
    set (pr := match on_arc p0, on_arc p1 with
        | true, true => if (dist_squared p0 q1 <? dist_squared p0 q2)%num then (p0, p1) else (p1, p0)
        | true, false => if (dist_squared p0 q1 <? dist_squared p0 q2)%num then (p0, q2) else (q1, p0)
        | false, true => if (dist_squared p1 q1 <? dist_squared p1 q2)%num then (p1, q2) else (q1, p1)
        | false, false => (q1, q2)
        end).
    assert (G : exists x y s t, pr = (x, y) /\ on_line_arc x /\ on_line_arc y /\ x = line_pt p0 p1 s /\ y = line_pt p0 p1 t /\ s <= t).
    { unfold pr. pose proof L_pos as LP. rnum. rewrite !dist_sq_ltb.
      assert (DA : forall t, dist p0 (line_pt p0 p1 t) = Rabs t * L).
      { intros t. rewrite <- (line_pt_0 p0 p1) at 1. rewrite dist_line_pt. replace (0 - t) with (- t) by ring. now rewrite Rabs_Ropp. }
      assert (DB : forall t, dist p1 (line_pt p0 p1 t) = Rabs (1 - t) * L).
      { intros t. rewrite <- (line_pt_1 p0 p1) at 1. now rewrite dist_line_pt. }
      replace (dist p0 q1) with (Rabs t0 * L) by (symmetry; apply DA). replace (dist p0 q2) with (Rabs t1 * L) by (symmetry; apply DA).
      replace (dist p1 q1) with (Rabs (1 - t0) * L) by (symmetry; apply DB). replace (dist p1 q2) with (Rabs (1 - t1) * L) by (symmetry; apply DB). unfold in_range in I0, I1.
      assert (T0 : Rabs t0 < Rabs t1).
      { destruct (Rlt_dec t0 0) as [N0|N0].
        - rewrite (Rabs_left t0) by lra. destruct (Rlt_dec t1 0) as [N1|N1]; [nra|]. rewrite (Rabs_right t1) by lra. nra.
        - rewrite !Rabs_right by lra. lra. }
      assert (T1 : Rabs (1 - t1) < Rabs (1 - t0)).
      { destruct (Rlt_dec (1 - t1) 0) as [N0|N0].
        - rewrite (Rabs_left (1 - t1)) by lra. destruct (Rlt_dec (1 - t0) 0) as [N1|N1]; [nra|]. rewrite (Rabs_right (1 - t0)) by lra. nra.
        - rewrite !Rabs_right by lra. lra. }
      assert (P1 : 0 <= t1). { destruct (Rlt_dec t1 0) as [N|N]; [nra|lra]. }
      assert (P0 : t0 <= 1). { destruct (Rlt_dec 1 t0) as [N|N]; [nra|lra]. }
      assert (LT0 : rltb (Rabs t0 * L) (Rabs t1 * L) = true) by (apply rltb_true; nra).
      assert (LT1 : rltb (Rabs (1 - t0) * L) (Rabs (1 - t1) * L) = false).
      { destruct (rltb_spec (Rabs (1 - t0) * L) (Rabs (1 - t1) * L)) as [Z|Z]; [nra|reflexivity]. }
      rewrite LT0, LT1.
      destruct (on_arc p0), (on_arc p1).
      - exists p0, p1, 0, 1. rewrite line_pt_0, line_pt_1. repeat split; try apply E0; try apply E1; auto; lra.
      - exists p0, q2, 0, t1. rewrite line_pt_0. repeat split; try apply E0; try apply O1; auto; lra.
      - exists q1, p1, t0, 1. rewrite line_pt_1. repeat split; try apply E1; try apply O0; auto; lra.
      - exists q1, q2, t0, t1. repeat split; try apply O1; try apply O0; auto; lra. }
    fold pr. destruct G as (x & y & s & t & -> & Ox & Oy & Ex & Ey & Hst).
    rnum. rewrite dist_sq_ltb. destruct ul; cbn [orb].
    + cbn. split; [exact Ox|]. split; [exact Oy|]. exists s, t. auto.
    + destruct (rltb_spec (dist x (pos a1)) (dist y (pos a1))) as [Z|Z]; cbn; (split; [assumption|]; split; [assumption|lra]).
Qed.

(** A line that enters the circle by more than the tolerance, with ends not near the circle: all
    common points are reported. *)
Lemma line_arc_complete ul q t : 0 <= t <= 1 -> q = line_pt p0 p1 t -> on_seg a1 a2 q ->
  (exists tm, dist (line_pt p0 p1 tm) c <= r - eps) ->
  reported (line_arc_intr p0 p1 a1 a2 ul eps) q
  \/ Rabs (dist p0 c - r) < eps \/ Rabs (dist p1 c - r) < eps.
Proof.
  intros Ht Eq Hq (tm & Dm).
  destruct (Rlt_dec (Rabs (dist p0 c - r)) eps) as [?|N0]; [auto|].
  destruct (Rlt_dec (Rabs (dist p1 c - r)) eps) as [?|N1]; [auto|]. left.
  unfold line_arc_intr. rewrite (arc_radius_and_center_eq a1 a2) by (try apply Hok; assumption).
  change (centre_of (pos a1) (pos a2) (pbulge a1)) with c. change (radius_of (pos a1) (pos a2) (pbulge a1)) with r.
  pose proof circle_cases as CC.
  assert (F0 : on_arc p0 = false).
  { destruct (on_arc p0) eqn:F; [|reflexivity]. apply lies_on_arc_R in F. fold c r in F. lra. }
  assert (F1 : on_arc p1 = false).
  { destruct (on_arc p1) eqn:F; [|reflexivity]. apply lies_on_arc_R in F. fold c r in F. lra. }
  rewrite F0, F1.
  destruct (on_within a1 a2 Hok Hb _ _ He Hq) as [_ Dq]. fold c r in Dq.
  destruct (line_circle_intr p0 p1 r c eps) as [|t'|t0 t1].
  - specialize (CC tm). lra.
  - destruct CC as [C1 C2]. specialize (C2 tm). revert C1. unfold Rabs. destruct (Rcase_abs _); lra.
  - destruct CC as (T & D0 & D1 & U & _). rewrite Eq in Dq, Hq. pose proof (in_sweep_on t Ht Hq) as S0.
    destruct (U t Dq) as [-> | ->].
    + rewrite S0, <- Eq. destruct (point_in_sweep p0 p1 c a1 a2 eps t1); [|reflexivity]. destruct (ul || _); cbn; auto.
    + rewrite S0, <- Eq. destruct (point_in_sweep p0 p1 c a1 a2 eps t0); [|reflexivity]. destruct (ul || _); cbn; auto.
Qed.

(** Without the condition on the ends, something is reported. *)
Lemma line_arc_found ul q t : 0 <= t <= 1 -> q = line_pt p0 p1 t -> on_seg a1 a2 q ->
  (exists tm, dist (line_pt p0 p1 tm) c <= r - eps) ->
  line_arc_intr p0 p1 a1 a2 ul eps <> SINoIntersect.
Proof.
  intros Ht Eq Hq (tm & Dm).
  unfold line_arc_intr. rewrite (arc_radius_and_center_eq a1 a2) by (try apply Hok; assumption).
  change (centre_of (pos a1) (pos a2) (pbulge a1)) with c. change (radius_of (pos a1) (pos a2) (pbulge a1)) with r.
  pose proof circle_cases as CC.
  destruct (on_within a1 a2 Hok Hb _ _ He Hq) as [_ Dq]. fold c r in Dq.
  destruct (line_circle_intr p0 p1 r c eps) as [|t'|t0 t1].
  - specialize (CC tm). lra.
  - destruct CC as [C1 C2]. specialize (C2 tm). revert C1. unfold Rabs. destruct (Rcase_abs _); lra.
  - destruct CC as (T & D0 & D1 & U & _). rewrite Eq in Dq, Hq. pose proof (in_sweep_on t Ht Hq) as S0.
    destruct (U t Dq) as [-> | ->].
    + rewrite S0. destruct (point_in_sweep p0 p1 c a1 a2 eps t1).
      * destruct (on_arc p0), (on_arc p1); destruct (_ <? _)%num; destruct (ul || _); discriminate.
      * destruct (on_arc p0), (on_arc p1); discriminate.
    + rewrite S0. destruct (point_in_sweep p0 p1 c a1 a2 eps t0).
      * destruct (on_arc p0), (on_arc p1); destruct (_ <? _)%num; destruct (ul || _); discriminate.
      * destruct (on_arc p0), (on_arc p1); discriminate.
Qed.
End LineArc.
