(** Lines and arcs that clearly cross or clearly miss each other: the intersections reported are exactly the common points (C71). *)
From Coq Require Import Reals ZArith Bool List Arith Lra Lia Psatz Classical.
From Verif Require Import Num RNum Res ModelMath ModelIntr ModelSeg ModelPline ModelSegIntr ModelIntersects.
From Verif Require Import Spec SpecGeom SpecIntr SpecBox SpecView SpecSegIntr SpecOffset SpecOffsetJoin SpecPolyOff SpecPolyBool SpecCurve.
From Verif Require Import ProofR ProofBase ProofArc ProofIntr ProofBox2 ProofSegIntr ProofSegIntr2 ProofSegIntr3 ProofSegIntr6 ProofOffsetJoin2 ProofOffsetJoin3 ProofPolyOff ProofPolyOff2 ProofPolyBool.
Import ListNotations.
Local Open Scope R_scope.

(** The result consists of single points, each once, and these are the common points. *)
Definition exact (v1 v2 u1 u2 : vertex R) (i : seg_intr R) : Prop :=
  no_overlap i /\ (forall q, reported i q <-> on_seg v1 v2 q /\ on_seg u1 u2 q) /\ forall p q, i = SITwo p q -> p <> q.

Lemma exact_none v1 v2 u1 u2 : (forall q, on_seg v1 v2 q -> on_seg u1 u2 q -> False) -> exact v1 v2 u1 u2 SINoIntersect.
Proof. intros H. split; [exact I|]. split; [|discriminate]. intros q. cbn. split; [tauto|]. intros (A & B). eauto. Qed.

Lemma exact_sym v1 v2 u1 u2 i : exact v1 v2 u1 u2 i -> exact u1 u2 v1 v2 i.
Proof. intros (A & B & C). split; [exact A|]. split; [|exact C]. intros q. rewrite B. tauto. Qed.

Lemma arc_support v1 v2 x : pbulge v1 <> 0 -> seg_ok v1 v2 ->
  dist x (centre_of (pos v1) (pos v2) (pbulge v1)) = radius_of (pos v1) (pos v2) (pbulge v1) -> on_support v1 v2 x.
Proof.
  intros Z Ok D. right. split; [exact Z|]. eexists _, _. split; [|exact D]. eexists. apply computed_is_arc; [apply Ok, Z|exact Z].
Qed.

Lemma line_lines eps v1 v2 u1 u2 : 0 < eps -> pbulge v1 = 0 -> pbulge u1 = 0 -> lines_clear eps v1 v2 u1 u2 ->
  exact v1 v2 u1 u2 (pline_seg_intr v1 v2 u1 u2 eps).
Proof.
  intros He Z1 Z2 C. unfold lines_clear in C. rewrite <- or_assoc in C. destruct C as [B|(q & C)].
  - rewrite (lines_apart v1 v2 u1 u2 eps He Z1 Z2 B). apply exact_none. intros q. exact (beside_no_common eps v1 v2 u1 u2 q He Z1 Z2 B).
  - destruct (cross_found eps v1 v2 u1 u2 q He Z1 Z2 C) as (-> & O1 & O2 & U). split; [exact I|]. split; [|discriminate].
    intros q'. cbn. split; [intros ->; auto|]. intros (A & B). auto.
Qed.

(** A line and an arc: what is reported, either way. *)
Lemma line_arc_exact eps v1 v2 u1 u2 ul : 0 < eps -> pbulge v1 = 0 -> pbulge u1 <> 0 -> seg_ok u1 u2 -> line_arc_clear eps v1 v2 u1 u2 ->
  exact v1 v2 u1 u2 (line_arc_intr (pos v1) (pos v2) u1 u2 ul eps).
Proof.
  intros He Z1 Z2 Ok (Hp & Hd & C). assert (HP : pos u1 <> pos u2) by (apply Ok, Z2).
  set (c := centre_of (pos u1) (pos u2) (pbulge u1)) in *. set (r := radius_of (pos u1) (pos u2) (pbulge u1)) in *.
  pose proof (computed_is_arc _ _ _ HP Z2) as A. fold c r in A.
  assert (AC : arc_circle u1 u2 c r) by (eexists; exact A). specialize (C c r AC).
  assert (Hv : pos v1 <> pos v2) by (apply (fuzzy_false_neq _ _ eps He), not_point_R; exact Hp).
  unfold line_arc_intr. rewrite (arc_radius_and_center_eq u1 u2 HP Z2). fold c r.
  pose proof (line_circle_main (pos v1) (pos v2) r c eps He Hp Hd) as M.
  assert (OC : forall q, on_seg u1 u2 q -> dist q c = r) by (intros q O; apply (on_within u1 u2 Ok Z2 q eps He O)).
  destruct C as [(d & Dd & Dk)|((ki & Ki) & W & E1 & _ & DE)].
  { assert (ND : forall q, on_seg v1 v2 q -> on_seg u1 u2 q -> False).
    { intros q O1 O2. apply line_point in O1; [|exact Z1]. destruct O1 as (t & _ & ->). specialize (OC _ O2). specialize (Dk t). lra. }
    destruct (line_circle_intr _ _ _ _ _) as [|t|t0 t1].
    - now apply exact_none.
    - exfalso. destruct M as (_ & M). specialize (Dk t). apply Rabs_def2 in M. lra.
    - exfalso. destruct M as (_ & (t & M) & _). specialize (Dk t). lra. }
  assert (F : forall e, e = pos v1 \/ e = pos v2 -> point_lies_on_arc r c u1 u2 eps e = false).
  { intros e I. apply not_true_is_false. intros T. apply (E1 e I). apply (lies_near u1 u2 Ok Z2 eps eps e); auto. lra. }
  rewrite (F (pos v1)), (F (pos v2)) by auto.
  destruct (line_circle_intr _ _ _ _ _) as [|t|t0 t1].
  - exfalso. destruct M as (d & M1 & M2). specialize (M2 ki). lra.
  - exfalso. destruct M as (M1 & M2). specialize (M1 ki). apply Rabs_def2 in M2. lra.
  - destruct M as (_ & _ & M). destruct M as (T & D0 & D1 & U & _); [exists ki; lra|].
    assert (S : forall t, dist (line_pt (pos v1) (pos v2) t) c = r ->
       (point_in_sweep (pos v1) (pos v2) c u1 u2 eps t = Some (line_pt (pos v1) (pos v2) t) /\ on_seg v1 v2 (line_pt (pos v1) (pos v2) t) /\ on_seg u1 u2 (line_pt (pos v1) (pos v2) t))
       \/ (point_in_sweep (pos v1) (pos v2) c u1 u2 eps t = None /\ ~ (on_seg v1 v2 (line_pt (pos v1) (pos v2) t) /\ on_seg u1 u2 (line_pt (pos v1) (pos v2) t)))).
    { intros t D. set (x := line_pt (pos v1) (pos v2) t) in *.
      assert (Sx : on_support v1 v2 x) by (left; split; [exact Z1|exists t; reflexivity]).
      assert (Su : on_support u1 u2 x) by (apply arc_support; auto).
      destruct (point_in_sweep (pos v1) (pos v2) c u1 u2 eps t) as [y|] eqn:Ey.
      - left. destruct (in_sweep_some _ _ _ _ _ _ _ Ey) as (-> & IR & IW). split; [reflexivity|].
        destruct (DE x Sx Su) as [B|[N|N]]; [exact B| |]; exfalso; apply N.
        + eapply near_line; [exact Z1|exact He|reflexivity|exact IR].
        + apply (within_near u1 u2 Ok Z2 x eps eps); [lra|exact W| |exact IW]. fold c r. rewrite D, Rminus_diag_eq, Rabs_R0 by reflexivity. lra.
      - right. split; [reflexivity|]. intros (O1 & O2). apply line_point in O1; [|exact Z1]. destruct O1 as (t' & Ht & Et).
        assert (t = t') as <- by (unfold x in Et; now apply line_pt_inj in Et).
        pose proof (in_sweep_on (pos v1) (pos v2) u1 u2 eps He Ok Z2 Hp t Ht O2) as IS. fold c in IS. congruence. }
    assert (K : forall q, on_seg v1 v2 q -> on_seg u1 u2 q -> q = line_pt (pos v1) (pos v2) t0 \/ q = line_pt (pos v1) (pos v2) t1).
    { intros q O1 O2. apply line_point in O1; [|exact Z1]. destruct O1 as (t & _ & ->). destruct (U t (OC _ O2)) as [-> | ->]; auto. }
    assert (NE : line_pt (pos v1) (pos v2) t0 <> line_pt (pos v1) (pos v2) t1) by (intros E; apply line_pt_inj in E; [lra|exact Hv]).
    destruct (S t0 D0) as [(-> & A0 & B0)|(-> & N0)], (S t1 D1) as [(-> & A1 & B1)|(-> & N1)].
    + assert (forall b : bool, exact v1 v2 u1 u2 (if b then SITwo (line_pt (pos v1) (pos v2) t0) (line_pt (pos v1) (pos v2) t1) else SITwo (line_pt (pos v1) (pos v2) t1) (line_pt (pos v1) (pos v2) t0))).
      { intros b. split; [destruct b; exact I|]. split.
        - intros q. split; [destruct b; cbn; intros [-> | ->]; auto|]. intros (O1 & O2). destruct (K q O1 O2); destruct b; cbn; auto.
        - intros p q. destruct b; intros [= <- <-]; auto. }
      auto.
    + split; [exact I|]. split; [|discriminate]. intros q. cbn. split; [intros ->; auto|]. intros (O1 & O2). destruct (K q O1 O2) as [E|E]; [exact E|]. exfalso. apply N1. rewrite <- E. auto.
    + split; [exact I|]. split; [|discriminate]. intros q. cbn. split; [intros ->; auto|]. intros (O1 & O2). destruct (K q O1 O2) as [E|E]; [|exact E]. exfalso. apply N0. rewrite <- E. auto.
    + apply exact_none. intros q O1 O2. destruct (K q O1 O2) as [E|E]; [apply N0|apply N1]; rewrite <- E; auto.
Qed.

(** Two arcs. *)
Lemma arcs_exact eps v1 v2 u1 u2 : 0 < eps -> pbulge v1 <> 0 -> pbulge u1 <> 0 -> seg_ok v1 v2 -> seg_ok u1 u2 -> arcs_clear eps v1 v2 u1 u2 ->
  exact v1 v2 u1 u2 (arc_arc_intr v1 v2 u1 u2 eps).
Proof.
  intros He Z1 Z2 Ok1 Ok2 C. assert (HP1 : pos v1 <> pos v2) by (apply Ok1, Z1). assert (HP2 : pos u1 <> pos u2) by (apply Ok2, Z2).
  set (c1 := centre_of (pos v1) (pos v2) (pbulge v1)) in *. set (r1 := radius_of (pos v1) (pos v2) (pbulge v1)) in *.
  set (c2 := centre_of (pos u1) (pos u2) (pbulge u1)) in *. set (r2 := radius_of (pos u1) (pos u2) (pbulge u1)) in *.
  pose proof (computed_is_arc _ _ _ HP1 Z1) as A1. fold c1 r1 in A1. pose proof (computed_is_arc _ _ _ HP2 Z2) as A2. fold c2 r2 in A2.
  specialize (C c1 r1 c2 r2 (ex_intro _ _ A1) (ex_intro _ _ A2)).
  assert (R1 : 0 <= r1) by apply A1. assert (R2 : 0 <= r2) by apply A2.
  assert (OC1 : forall q, on_seg v1 v2 q -> dist q c1 = r1) by (intros q O; apply (on_within v1 v2 Ok1 Z1 q eps He O)).
  assert (OC2 : forall q, on_seg u1 u2 q -> dist q c2 = r2) by (intros q O; apply (on_within u1 u2 Ok2 Z2 q eps He O)).
  unfold arc_arc_intr. rewrite (arc_radius_and_center_eq v1 v2 HP1 Z1), (arc_radius_and_center_eq u1 u2 HP2 Z2). fold c1 r1 c2 r2.
  pose proof (circle_circle_spec r1 c1 r2 c2 eps He R1 R2) as CC.
  rewrite <- or_assoc in C. destruct C as [C|(Dc & (x & y & X1 & X2 & Y1 & Y2 & NP) & W1 & W2 & E1 & E2 & DE)].
  { pose proof (circle_none r1 c1 r2 c2 eps He R1 R2 C) as M. rewrite M in *. apply exact_none. intros q O1 O2. apply (CC q). auto. }
  destruct (circle_circle_two r1 c1 r2 c2 eps x y He R1 R2 Dc NP X1 X2 Y1 Y2) as (q1 & q2 & E & U). rewrite E in *.
  destruct CC as (NQ & A11 & A12 & A21 & A22 & _).
  assert (F1 : forall e, e = pos u1 \/ e = pos u2 -> point_lies_on_arc r1 c1 v1 v2 eps e = false).
  { intros e I. apply not_true_is_false. intros T. apply (E2 e I). apply (lies_near v1 v2 Ok1 Z1 eps eps e); auto. lra. }
  assert (F2 : forall e, e = pos v1 \/ e = pos v2 -> point_lies_on_arc r2 c2 u1 u2 eps e = false).
  { intros e I. apply not_true_is_false. intros T. apply (E1 e I). apply (lies_near u1 u2 Ok2 Z2 eps eps e); auto. lra. }
  unfold arc_arc_two. rewrite (F1 (pos u1)), (F1 (pos u2)), (F2 (pos v1)), (F2 (pos v2)) by auto. cbv beta iota zeta.
  set (sw := fun q => point_within_arc_sweep c1 (pos v1) (pos v2) (bulge_is_neg v1) q eps && point_within_arc_sweep c2 (pos u1) (pos u2) (bulge_is_neg u1) q eps).
  change (exact v1 v2 u1 u2 (if sw q1 && sw q2 then SITwo q1 q2 else if sw q1 then SIOne q1 else if sw q2 then SIOne q2 else SINoIntersect)).
  assert (S : forall q, dist q c1 = r1 -> dist q c2 = r2 -> sw q = true <-> on_seg v1 v2 q /\ on_seg u1 u2 q).
  { intros q D1 D2. unfold sw. rewrite andb_true_iff. split.
    - intros (I1 & I2). assert (S1 : on_support v1 v2 q) by (apply arc_support; auto). assert (S2 : on_support u1 u2 q) by (apply arc_support; auto).
      destruct (DE q S1 S2) as [B|[N|N]]; [exact B| |]; exfalso; apply N.
      + apply (within_near v1 v2 Ok1 Z1 q eps eps); [lra|exact W1| |exact I1]. fold c1 r1. rewrite D1, Rminus_diag_eq, Rabs_R0 by reflexivity. lra.
      + apply (within_near u1 u2 Ok2 Z2 q eps eps); [lra|exact W2| |exact I2]. fold c2 r2. rewrite D2, Rminus_diag_eq, Rabs_R0 by reflexivity. lra.
    - intros (O1 & O2). split; [apply (on_within v1 v2 Ok1 Z1 q eps He O1)|apply (on_within u1 u2 Ok2 Z2 q eps He O2)]. }
  assert (NE : q1 <> q2).
  { intros <-. apply NQ. unfold is_point. rewrite !Rminus_diag_eq, Rabs_R0 by reflexivity. lra. }
  assert (K : forall q, on_seg v1 v2 q -> on_seg u1 u2 q -> q = q1 \/ q = q2) by (intros q O1 O2; apply U; auto).
  pose proof (S q1 A11 A12) as S1. pose proof (S q2 A21 A22) as S2. clearbody sw. destruct (sw q1), (sw q2); cbn [andb].
  - split; [exact I|]. split; [|now intros p q [= <- <-]]. intros q. cbn. split; [intros [-> | ->]; tauto|intros (O1 & O2); auto].
  - split; [exact I|]. split; [|discriminate]. intros q. cbn. split; [intros ->; tauto|]. intros (O1 & O2). destruct (K q O1 O2) as [-> | ->]; [reflexivity|]. exfalso. destruct S2 as (_ & S2). discriminate S2. auto.
  - split; [exact I|]. split; [|discriminate]. intros q. cbn. split; [intros ->; tauto|]. intros (O1 & O2). destruct (K q O1 O2) as [-> | ->]; [|reflexivity]. exfalso. destruct S1 as (_ & S1). discriminate S1. auto.
  - apply exact_none. intros q O1 O2. destruct (K q O1 O2) as [-> | ->]; [destruct S1 as (_ & S1); discriminate S1; auto|destruct S2 as (_ & S2); discriminate S2; auto].
Qed.

Lemma sides_exact eps v1 v2 u1 u2 : 0 < eps -> seg_ok v1 v2 -> seg_ok u1 u2 -> sides_clear eps v1 v2 u1 u2 ->
  exact v1 v2 u1 u2 (pline_seg_intr v1 v2 u1 u2 eps).
Proof.
  intros He Ok1 Ok2 (C1 & C2 & C3 & C4).
  destruct (Req_dec (pbulge v1) 0) as [Z1|Z1], (Req_dec (pbulge u1) 0) as [Z2|Z2].
  - apply line_lines; auto.
  - unfold pline_seg_intr. rewrite (is_zero_line v1 Z1), (is_zero_arc u1 u2 Ok2 Z2). cbn [andb]. apply line_arc_exact; auto.
  - unfold pline_seg_intr. rewrite (is_zero_line u1 Z2), (is_zero_arc v1 v2 Ok1 Z1). cbn [andb]. apply exact_sym, line_arc_exact; auto.
  - unfold pline_seg_intr. rewrite (is_zero_arc u1 u2 Ok2 Z2), (is_zero_arc v1 v2 Ok1 Z1). cbn [andb]. apply arcs_exact; auto.
Qed.
