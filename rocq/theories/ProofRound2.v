(** Lines that touch or miss an arc, as the segment intersections see them (C70). *)
From Coq Require Import Reals ZArith Bool List Arith Lra Lia Psatz.
From Verif Require Import Num RNum Res ModelMath ModelIntr ModelSeg ModelPline ModelSegIntr.
From Verif Require Import Spec SpecGeom SpecIntr SpecBox SpecSegIntr SpecOffset SpecOffsetJoin.
From Verif Require Import ProofR ProofBase ProofIntr ProofArc ProofBox2 ProofSegIntr ProofSegIntr2 ProofSegIntr3 ProofOffsetJoin2.
Import ListNotations.
Local Open Scope R_scope.

Lemma arc_data u1 u2 c r a : seg_ok u1 u2 -> pbulge u1 <> 0 -> is_arc (pos u1) (pos u2) (pbulge u1) c r a -> seg_arc_radius_and_center u1 u2 = (r, c).
Proof.
  intros (_ & Hp) Hb A. rewrite arc_radius_and_center_eq by auto. destruct (arc_unique _ _ _ _ _ _ Hb A) as (-> & ->). reflexivity.
Qed.

(** The foot of the centre is [f], at distance [r]. *)
Lemma line_tangent p0 p1 c r eps t0 : 0 < eps -> ~ is_point p0 p1 eps -> clear_direction p0 p1 ->
  dist (line_pt p0 p1 t0) c = r -> (forall t, r <= dist (line_pt p0 p1 t) c) -> (forall t, dist (line_pt p0 p1 t) c = r -> t = t0) ->
  line_circle_intr p0 p1 r c eps = LCTangentIntersect t0.
Proof.
  intros He Hp Hc D M U. pose proof (line_circle_main p0 p1 r c eps He Hp Hc) as LC.
  destruct (line_circle_intr _ _ _ _ _) as [|t|u0 u1].
  - destruct LC as (k & L & Q). specialize (Q t0). lra.
  - destruct LC as (Q & _). f_equal. apply U. specialize (Q t0). specialize (M t). lra.
  - exfalso. destruct LC as (_ & _ & LC). destruct LC as (L & A & B & _); [exists t0; lra|]. apply U in A, B. lra.
Qed.

Lemma line_misses p0 p1 c r eps h : 0 < eps -> ~ is_point p0 p1 eps -> clear_direction p0 p1 -> eps < h ->
  (forall t, r + h <= dist (line_pt p0 p1 t) c) -> line_circle_intr p0 p1 r c eps = LCNoIntersect.
Proof.
  intros He Hp Hc Hh M. pose proof (line_circle_main p0 p1 r c eps He Hp Hc) as LC.
  destruct (line_circle_intr _ _ _ _ _) as [|t|u0 u1]; [reflexivity| |].
  - destruct LC as (_ & Q). specialize (M t). apply Rabs_def2 in Q. lra.
  - destruct LC as (_ & (t & Q) & _). specialize (M t). lra.
Qed.

(** A line and an arc it passes at a distance. *)
Lemma line_arc_misses v1 v2 u1 u2 c r a eps h : 0 < eps -> pbulge v1 = 0 -> seg_ok u1 u2 -> pbulge u1 <> 0 -> is_arc (pos u1) (pos u2) (pbulge u1) c r a ->
  ~ is_point (pos v1) (pos v2) eps -> clear_direction (pos v1) (pos v2) -> eps < h -> (forall t, r + h <= dist (line_pt (pos v1) (pos v2) t) c) ->
  pline_seg_intr v1 v2 u1 u2 eps = SINoIntersect /\ pline_seg_intr u1 u2 v1 v2 eps = SINoIntersect.
Proof.
  intros He Z Ok Nz A Hp Hc Hh M. unfold pline_seg_intr. rewrite (is_zero_line v1 Z), (is_zero_arc u1 u2 Ok Nz). cbn [andb]. unfold line_arc_intr. rewrite (arc_data _ _ _ _ _ Ok Nz A).
  rewrite (line_misses _ _ _ _ _ h He Hp Hc Hh M). split; reflexivity.
Qed.

Lemma lies_on u1 u2 c r a eps q : 0 < eps -> seg_ok u1 u2 -> pbulge u1 <> 0 -> is_arc (pos u1) (pos u2) (pbulge u1) c r a -> on_seg u1 u2 q ->
  point_lies_on_arc r c u1 u2 eps q = true.
Proof.
  intros He Ok Nz A On. destruct (arc_unique _ _ _ _ _ _ Nz A) as (-> & ->). destruct (on_within u1 u2 Ok Nz q eps He On) as (W & D).
  apply lies_on_arc_R. split; [exact W|]. rewrite D, Rminus_diag_eq, Rabs_R0 by reflexivity. exact He.
Qed.

Lemma lies_not u1 u2 c r a eps q : seg_ok u1 u2 -> pbulge u1 <> 0 -> is_arc (pos u1) (pos u2) (pbulge u1) c r a -> eps <= Rabs (dist q c - r) ->
  point_lies_on_arc r c u1 u2 eps q = false.
Proof.
  intros Ok Nz A F. destruct (arc_unique _ _ _ _ _ _ Nz A) as (Ec & Er). apply not_true_is_false. intros T.
  rewrite Ec, Er in T. apply lies_on_arc_R in T as (_ & D). rewrite <- Ec, <- Er in D. lra.
Qed.

(** A line that goes over into an arc it is tangent to. *)
Lemma into_arc v1 v2 v3 c r a eps : 0 < eps -> pbulge v1 = 0 -> seg_ok v2 v3 -> pbulge v2 <> 0 -> is_arc (pos v2) (pos v3) (pbulge v2) c r a ->
  ~ is_point (pos v1) (pos v2) eps -> clear_direction (pos v1) (pos v2) -> (forall t, t <> 1 -> r < dist (line_pt (pos v1) (pos v2) t) c) -> r + eps <= dist (pos v1) c ->
  pline_seg_intr v1 v2 v2 v3 eps = SITangent (pos v2).
Proof.
  intros He Z Ok Nz A Hp Hc M F. unfold pline_seg_intr. rewrite (is_zero_line v1 Z), (is_zero_arc v2 v3 Ok Nz). cbn [andb]. unfold line_arc_intr. rewrite (arc_data _ _ _ _ _ Ok Nz A).
  assert (On : on_seg v2 v3 (pos v2)). { exists 0. split; [lra|]. right. split; [exact Nz|]. exists c, r, a. split; [exact A|]. rewrite Rmult_0_l, Rplus_0_r. apply A. }
  assert (D : dist (line_pt (pos v1) (pos v2) 1) c = r). { rewrite line_pt_1. destruct (arc_unique _ _ _ _ _ _ Nz A) as (-> & ->). exact (proj2 (on_within v2 v3 Ok Nz _ eps He On)). }
  rewrite (line_tangent _ _ _ _ _ 1 He Hp Hc D).
  - rewrite (lies_not v2 v3 c r a eps (pos v1) Ok Nz A); [|rewrite Rabs_pos_eq; lra]. rewrite (lies_on v2 v3 c r a eps (pos v2) He Ok Nz A On). reflexivity.
  - intros t. destruct (Req_dec t 1) as [->|N]; [lra|]. left. now apply M.
  - intros t E. destruct (Req_dec t 1) as [->|N]; [reflexivity|]. specialize (M t N). lra.
Qed.

(** An arc that goes over into a line tangent to it. *)
Lemma out_of_arc v1 v2 v3 c r a eps : 0 < eps -> pbulge v2 = 0 -> seg_ok v1 v2 -> pbulge v1 <> 0 -> is_arc (pos v1) (pos v2) (pbulge v1) c r a ->
  ~ is_point (pos v2) (pos v3) eps -> clear_direction (pos v2) (pos v3) -> (forall t, t <> 0 -> r < dist (line_pt (pos v2) (pos v3) t) c) ->
  pline_seg_intr v1 v2 v2 v3 eps = SITangent (pos v2).
Proof.
  intros He Z Ok Nz A Hp Hc M. unfold pline_seg_intr. rewrite (is_zero_line v2 Z), (is_zero_arc v1 v2 Ok Nz). cbn [andb]. unfold line_arc_intr. rewrite (arc_data _ _ _ _ _ Ok Nz A).
  assert (On : on_seg v1 v2 (pos v2)). { exists 1. split; [lra|]. right. split; [exact Nz|]. exists c, r, a. split; [exact A|]. rewrite Rmult_1_l. apply A. }
  assert (D : dist (line_pt (pos v2) (pos v3) 0) c = r). { rewrite line_pt_0. destruct (arc_unique _ _ _ _ _ _ Nz A) as (-> & ->). exact (proj2 (on_within v1 v2 Ok Nz _ eps He On)). }
  rewrite (line_tangent _ _ _ _ _ 0 He Hp Hc D).
  - rewrite (lies_on v1 v2 c r a eps (pos v2) He Ok Nz A On). reflexivity.
  - intros t. destruct (Req_dec t 0) as [->|N]; [lra|]. left. now apply M.
  - intros t E. destruct (Req_dec t 0) as [->|N]; [reflexivity|]. specialize (M t N). lra.
Qed.
