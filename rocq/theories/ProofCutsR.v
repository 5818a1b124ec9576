(** Cutting the raw offset (C49): where a path is cut by a circle, over the reals. *)
From Coq Require Import Reals ZArith Bool List Arith Lra Lia Psatz.
From Verif Require Import Num RNum Res ModelMath ModelIntr ModelSeg ModelPline ModelView ModelSegIntr ModelIndex ModelIntersects ModelBoolean ModelOffset.
From Verif Require Import Spec SpecGeom SpecIntr SpecBox SpecOffset SpecSegIntr SpecOffsetJoin SpecCuts.
From Verif Require Import ProofR ProofBase ProofIter ProofArc ProofArc2 ProofSlice ProofIntr ProofRepeat ProofBox2 ProofSegIntr ProofSegIntr2 ProofOffset3 ProofFindR ProofOffsetJoin2.
Import ListNotations.
Local Open Scope R_scope.

(** A line is cut at points of it near the circle. *)
Lemma circle_line_sound c r eps v1 v2 q : 0 < eps -> pbulge v1 = 0 -> In q (circle_points c r eps v1 v2) ->
  on_seg v1 v2 q
  /\ (~ is_point (pos v1) (pos v2) eps -> clear_direction (pos v1) (pos v2) ->
      (exists t, dist (line_pt (pos v1) (pos v2) t) c < r + eps) -> Rabs (dist q c - r) < eps).
Proof.
  intros He Z H. unfold circle_points in H. rewrite (is_zero_line v1 Z) in H. apply in_map_iff in H as (t & Hq & Ht).
  rewrite from_parametric_R in Hq. apply filter_In in Ht as [Ht K]. rnum.
  rewrite !andb_true_iff, !negb_true_iff, !rltb_false, rltb_true in K. split.
  - exists t. split; [lra|]. apply seg_at_line; [exact Z|now symmetry].
  - intros Hpt Hdx (t1 & Hin). pose proof (line_circle_main (pos v1) (pos v2) r c eps He Hpt Hdx) as LC.
    destruct (line_circle_intr _ _ _ _ _) as [|k|k0 k1]; [destruct Ht| |].
    + destruct Ht as [<-|[]]. rewrite <- Hq. apply LC.
    + destruct LC as (_ & _ & LC). destruct LC as (_ & A & B & _); [now exists t1|].
      assert (E : dist q c = r) by (destruct Ht as [<-|[<-|[]]]; rewrite <- Hq; assumption).
      rewrite E. replace (r - r) with 0 by ring. rewrite Rabs_R0. exact He.
Qed.

(** Where it crosses the circle it is cut, except near its start. *)
Lemma circle_line_complete c r eps v1 v2 t q : 0 < eps -> pbulge v1 = 0 ->
  ~ is_point (pos v1) (pos v2) eps -> clear_direction (pos v1) (pos v2) -> passes_inside (pos v1) (pos v2) c r eps ->
  eps < t <= 1 -> q = line_pt (pos v1) (pos v2) t -> dist q c = r -> In q (circle_points c r eps v1 v2).
Proof.
  intros He Z Hpt Hdx (ki & Hin) Ht Hq D. unfold circle_points. rewrite (is_zero_line v1 Z).
  apply in_map_iff. exists t. split; [rewrite from_parametric_R; now symmetry|]. apply filter_In. split.
  - pose proof (line_circle_main (pos v1) (pos v2) r c eps He Hpt Hdx) as LC.
    destruct (line_circle_intr _ _ _ _ _) as [|k|k0 k1].
    + exfalso. destruct LC as (d & D1 & D2). specialize (D2 ki). lra.
    + exfalso. destruct LC as [L1 L2]. specialize (L1 ki). apply Rabs_def2 in L2. lra.
    + destruct LC as (_ & _ & LC). destruct LC as (_ & _ & _ & U & _); [exists ki; lra|].
      rewrite Hq in D. destruct (U t D) as [->| ->]; [now left|right; now left].
  - rnum. rewrite !andb_true_iff, !negb_true_iff, !rltb_false, rltb_true. rewrite Rabs_pos_eq; lra.
Qed.

(** An arc is cut at points near it and near the circle. *)
Lemma circle_arc_sound c r eps v1 v2 c1 r1 q tol : 0 < eps -> 0 <= r -> seg_ok v1 v2 -> pbulge v1 <> 0 -> arc_circle v1 v2 c1 r1 ->
  eps * Rmax 1 ((r1 + r) / dist c1 c) <= tol -> wide v1 v2 tol ->
  In q (circle_points c r eps v1 v2) -> near_seg v1 v2 tol q /\ Rabs (dist q c - r) <= tol.
Proof.
  intros He Hr Hok Hb (a & HA) HT W H. assert (HP : pos v1 <> pos v2) by (apply Hok, Hb).
  destruct (arc_unique _ _ _ _ _ _ Hb HA) as [Ec Er]. pose proof (radius_pos _ _ _ HP Hb) as Hr1. rewrite <- Er in Hr1.
  assert (Ht : eps <= tol).
  { eapply Rle_trans; [|exact HT]. pose proof (Rmax_l 1 ((r1 + r) / dist c1 c)). nra. }
  unfold circle_points in H. rewrite (is_zero_arc v1 v2 Hok Hb), (arc_radius_and_center_eq v1 v2 HP Hb) in H. cbn [fst snd] in H.
  rewrite <- Ec, <- Er in H. apply filter_In in H as [Hq K]. apply andb_true_iff in K as [_ K].
  assert (X : Rabs (dist q c1 - r1) <= tol /\ Rabs (dist q c - r) <= tol).
  { assert (Z : forall x y, x = y -> Rabs (x - y) <= tol).
    { intros x y ->. replace (y - y) with 0 by ring. rewrite Rabs_R0. lra. }
    pose proof (circle_circle_spec r1 c1 r c eps He (Rlt_le _ _ Hr1) Hr) as CC.
    destruct (circle_circle_intr _ _ _ _ _) as [|q1|q1 q2|]; [destruct Hq| | |destruct Hq].
    - destruct Hq as [<-|[]]. destruct CC as (_ & [(A & B & _)|(_ & k & _ & A & B)]); [auto|lra].
    - destruct CC as (_ & A1 & A2 & B1 & B2 & _). destruct Hq as [<-|[<-|[]]]; auto. }
  split; [|apply X]. apply (within_near v1 v2 Hok Hb q eps tol); try assumption; [lra| |].
  - rewrite <- Ec, <- Er. apply X.
  - rewrite <- Ec. exact K.
Qed.

(** Where it crosses the circle it is cut, except near its start. *)
Lemma circle_arc_complete c r eps v1 v2 c1 r1 q q' : 0 < eps -> 0 <= r -> seg_ok v1 v2 -> pbulge v1 <> 0 -> arc_circle v1 v2 c1 r1 ->
  eps <= dist c1 c -> dist q' c1 = r1 -> dist q' c = r -> ~ is_point q q' eps ->
  on_seg v1 v2 q -> ~ is_point (pos v1) q eps -> dist q c = r -> In q (circle_points c r eps v1 v2).
Proof.
  intros He Hr Hok Hb (a & HA) Hcc A B Hne Hq Hst D. assert (HP : pos v1 <> pos v2) by (apply Hok, Hb).
  destruct (arc_unique _ _ _ _ _ _ Hb HA) as [Ec Er]. pose proof (radius_pos _ _ _ HP Hb) as Hr1. rewrite <- Er in Hr1.
  destruct (on_within v1 v2 Hok Hb q eps He Hq) as [W D1]. rewrite <- Ec in W. rewrite <- Ec, <- Er in D1.
  unfold circle_points. rewrite (is_zero_arc v1 v2 Hok Hb), (arc_radius_and_center_eq v1 v2 HP Hb). cbn [fst snd]. rewrite <- Ec, <- Er.
  apply filter_In. split.
  - destruct (circle_circle_two r1 c1 r c eps q q') as (q1 & q2 & -> & U); try assumption; [lra|].
    destruct (U q D1 D) as [->| ->]; [now left|right; now left].
  - rewrite (not_point_R _ _ _ Hst). cbn [negb andb]. exact W.
Qed.

(** A segment with a point on the circle is looked at. *)
Lemma circle_hit (raw : pline R) c r eps hits i v1 v2 q : circle_hits raw c r hits ->
  nth_error (spec_segs (vtx raw) (is_closed raw)) i = Some (v1, v2) -> seg_ok v1 v2 -> on_seg v1 v2 q -> dist q c = r ->
  (In (i, q) (circle_cuts raw c r eps hits) <-> In q (circle_points c r eps v1 v2)).
Proof.
  intros [ND HH] E Hok Hq D.
  assert (HI : In i hits).
  { apply HH. exists (seg_fast_approx_bounding_box v1 v2). split; [now apply path_boxes_nth|].
    pose proof (fast_box v1 v2 q Hok Hq) as IN. apply overlaps_R. rnum. cbn [bmin_x bmin_y bmax_x bmax_y]. unfold inside in IN.
    assert (X : Rabs (vx q - vx c) <= r /\ Rabs (vy q - vy c) <= r).
    { split; (eapply Rle_trans; [|right; exact D]); unfold dist; rewrite <- sqrt_Rsqr_abs; apply sqrt_le_1_alt;
      pose proof (Rle_0_sqr (vx q - vx c)); pose proof (Rle_0_sqr (vy q - vy c)); unfold Rsqr in *; lra. }
    destruct X as [X Y]. unfold Rabs in X, Y. destruct (Rcase_abs (vx q - vx c)), (Rcase_abs (vy q - vy c)); lra. }
  unfold circle_cuts. split; intros H.
  - apply in_flat_map in H as (j & _ & H). destruct (nth_error _ j) as [[w1 w2]|] eqn:E2; [|destruct H].
    apply in_map_iff in H as (x & Ex & H). injection Ex as -> ->. rewrite E in E2. injection E2 as -> ->. exact H.
  - apply in_flat_map. exists i. split; [exact HI|]. rewrite E. now apply in_map.
Qed.
