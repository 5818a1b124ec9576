(** Connecting raw offset segments that do not meet, and the first vertex (C47). *)
From Coq Require Import Reals ZArith Bool List Arith Lra Lia Psatz.
From Verif Require Import Num RNum Res ModelMath ModelIntr ModelSeg ModelPline ModelView ModelSegIntr ModelIndex ModelIntersects ModelBoolean ModelOffset.
From Verif Require Import Spec SpecGeom SpecIntr SpecOffset SpecSegIntr SpecOffsetJoin.
From Verif Require Import ProofR ProofBase ProofIter ProofArc ProofArc2 ProofSlice ProofIntr ProofRepeat ProofMeasure ProofClosest ProofRedundantR ProofSegIntr ProofSegIntr2 ProofSegIntr5 ProofOffset1 ProofOffsetJoin ProofOffsetJoin2.
Import ListNotations.
Local Open Scope R_scope.

Lemma on_circle c p : p <> c -> exists a, p = circle_pt c (dist p c) a /\ a = angle c p /\ 0 < dist p c.
Proof.
  intros H. destruct (angle_spec c p H) as (r & Er & Hr & E & _). exists (angle c p).
  assert (D : dist p c = r) by (rewrite Er; reflexivity). rewrite D. auto.
Qed.

Lemma connection_bulge c p q (ccw : bool) : p <> c -> dist q c = dist p c ->
  corner_bulge c ccw p q (bulge_for_connection c p q ccw).
Proof.
  intros Hp Hd. destruct (on_circle c p Hp) as (a & Ea & Aa & Hr).
  assert (Hq : q <> c). { intros E. rewrite E in Hd. rewrite dist_self in Hd. lra. }
  destruct (on_circle c q Hq) as (b & Eb & Ab & _). rewrite Hd in Eb.
  destruct (delta_angle_spec a b) as [C B].
  exists (dist p c), a, (delta_angle a b). split; [exact Hr|]. split; [exact Ea|]. split.
  - rewrite Eb at 1. apply circle_pt_congr. destruct C as [k K]. exists (- k)%Z. rewrite opp_IZR. lra.
  - split; [exact B|]. unfold bulge_for_connection. rewrite <- Aa, <- Ab. unfold delta_angle_signed. rnum.
    assert (- PI <= (if negb ccw then - Rabs (delta_angle a b) else Rabs (delta_angle a b)) <= PI).
    { assert (Rabs (delta_angle a b) <= PI) by (apply Rabs_le; lra). pose proof (Rabs_pos (delta_angle a b)). destruct ccw; cbn [negb]; lra. }
    rewrite sweep_from_angle by assumption. destruct ccw; reflexivity.
Qed.

Lemma connect_ok s1 s2 ccw eps p : pos (rs_v2 s1) <> rs_orig_v2_pos s1 ->
  dist (pos (rs_v1 s2)) (rs_orig_v2_pos s1) = dist (pos (rs_v2 s1)) (rs_orig_v2_pos s1) ->
  connected s1 s2 ccw eps (vtx p) (vtx (connect_using_arc s1 s2 ccw p eps)).
Proof.
  intros Hp Hd. eexists. split; [apply connection_bulge; assumption|]. unfold connect_using_arc, add_or_replace.
  eexists. split; [apply put_ok|]. assert (E : rs_v1 s2 = Vtx (vx (pos (rs_v1 s2))) (vy (pos (rs_v1 s2))) (pbulge (rs_v1 s2))) by (destruct (rs_v1 s2); reflexivity).
  rewrite <- E. apply put_ok.
Qed.

Lemma connect_closed s1 s2 ccw eps (p : pline R) : is_closed (connect_using_arc s1 s2 ccw p eps) = is_closed p.
Proof. unfold connect_using_arc, add_or_replace. now rewrite !put_closed. Qed.

Lemma circle_none r1 c1 r2 c2 eps : 0 < eps -> 0 <= r1 -> 0 <= r2 ->
  r1 + r2 + eps <= dist c1 c2 \/ dist c1 c2 + eps <= Rabs (r1 - r2) -> circle_circle_intr r1 c1 r2 c2 eps = CCNoIntersect.
Proof.
  intros He H1 H2 H. unfold circle_circle_intr.
  assert (ES : nsqrt (v2dot (v2sub c2 c1) (v2sub c2 c1)) = dist c1 c2).
  { assert (ED : v2dot (v2sub c2 c1) (v2sub c2 c1) = dist c1 c2 * dist c1 c2).
    { rewrite dist_sqr. unfold v2dot, v2sub. rnum. ring. }
    rewrite ED. rnum. apply sqrt_square. apply dist_pos. }
  rewrite ES. pose proof (dist_pos c1 c2) as D0. set (d := dist c1 c2) in *.
  unfold fuzzy_eq_zero_eps, fuzzy_eq_eps, fuzzy_lt_eps, fuzzy_gt_eps. rnum. rewrite (Rabs_pos_eq d) by exact D0.
  destruct (rltb_spec d eps) as [L|L].
  - destruct (rltb_spec (Rabs (r1 - r2)) eps) as [M|M]; [|reflexivity]. exfalso. destruct H; lra.
  - destruct (rltb_spec d (r1 + r2 + eps)) as [M|M]; [|reflexivity].
    destruct (rltb_spec (Rabs (r1 - r2)) (d + eps)) as [M'|M']; [|reflexivity]. exfalso. destruct H; lra.
Qed.

(** Conditions shared by the connections. *)
Section Apart.
Variables (s1 s2 : raw_seg R) (ccw : bool) (eps : R) (p : pline R).
Let v1 := rs_v1 s1. Let v2 := rs_v2 s1. Let u1 := rs_v1 s2. Let u2 := rs_v2 s2.
Hypotheses (He : 0 < eps) (HP : pos v2 <> rs_orig_v2_pos s1) (HD : dist (pos u1) (rs_orig_v2_pos s1) = dist (pos v2) (rs_orig_v2_pos s1)).

Lemma line_arc_passes c r D : pbulge v1 = 0 -> ~ is_point (pos v1) (pos v2) eps -> clear_direction (pos v1) (pos v2) ->
  seg_ok u1 u2 -> pbulge u1 <> 0 -> arc_circle u1 u2 c r -> r + eps < D -> (forall k, D <= dist (line_pt (pos v1) (pos v2) k) c) ->
  exists p', join_seg_pair ccw eps p (s1, s2) = Ret p' /\ connected s1 s2 ccw eps (vtx p) (vtx p').
Proof.
  intros Z1 Hpt Hdx Hok Hb (a & HA) H1 H2. unfold join_seg_pair. fold v1 u1. rewrite (is_zero_line v1 Z1), (is_zero_arc u1 u2 Hok Hb).
  destruct (arc_unique _ _ _ _ _ _ Hb HA) as [Ec Er].
  unfold line_arc_join. fold v1 v2 u1 u2. rewrite (arc_radius_and_center_eq u1 u2 (proj2 Hok Hb) Hb), <- Ec, <- Er.
  pose proof (line_circle_main (pos v1) (pos v2) r c eps He Hpt Hdx) as LC.
  destruct (line_circle_intr (pos v1) (pos v2) r c eps) as [|k|k0 k1].
  - eexists. split; [reflexivity|now apply connect_ok].
  - exfalso. destruct LC as [_ L]. apply Rabs_def2 in L. specialize (H2 k). lra.
  - exfalso. destruct LC as (_ & (k & L) & _). specialize (H2 k). lra.
Qed.

Lemma arc_line_passes c r D : pbulge u1 = 0 -> ~ is_point (pos u1) (pos u2) eps -> clear_direction (pos u1) (pos u2) ->
  seg_ok v1 v2 -> pbulge v1 <> 0 -> arc_circle v1 v2 c r -> r + eps < D -> (forall k, D <= dist (line_pt (pos u1) (pos u2) k) c) ->
  exists p', join_seg_pair ccw eps p (s1, s2) = Ret p' /\ connected s1 s2 ccw eps (vtx p) (vtx p').
Proof.
  intros Z1 Hpt Hdx Hok Hb (a & HA) H1 H2. unfold join_seg_pair. fold v1 u1. rewrite (is_zero_line u1 Z1), (is_zero_arc v1 v2 Hok Hb).
  destruct (arc_unique _ _ _ _ _ _ Hb HA) as [Ec Er].
  unfold arc_line_join. fold v1 v2 u1 u2. rewrite (arc_radius_and_center_eq v1 v2 (proj2 Hok Hb) Hb), <- Ec, <- Er.
  pose proof (line_circle_main (pos u1) (pos u2) r c eps He Hpt Hdx) as LC.
  destruct (line_circle_intr (pos u1) (pos u2) r c eps) as [|k|k0 k1].
  - eexists. split; [reflexivity|now apply connect_ok].
  - exfalso. destruct LC as [_ L]. apply Rabs_def2 in L. specialize (H2 k). lra.
  - exfalso. destruct LC as (_ & (k & L) & _). specialize (H2 k). lra.
Qed.

Lemma arcs_pass c1 r1 c2 r2 : seg_ok v1 v2 -> pbulge v1 <> 0 -> arc_circle v1 v2 c1 r1 -> seg_ok u1 u2 -> pbulge u1 <> 0 -> arc_circle u1 u2 c2 r2 ->
  r1 + r2 + eps <= dist c1 c2 \/ dist c1 c2 + eps <= Rabs (r1 - r2) ->
  exists p', join_seg_pair ccw eps p (s1, s2) = Ret p' /\ connected s1 s2 ccw eps (vtx p) (vtx p').
Proof.
  intros Hok1 Hb1 (a1 & HA1) Hok2 Hb2 (a2 & HA2) H. unfold join_seg_pair. fold v1 u1. rewrite (is_zero_arc u1 u2 Hok2 Hb2), (is_zero_arc v1 v2 Hok1 Hb1).
  destruct (arc_unique _ _ _ _ _ _ Hb1 HA1) as [Ec1 Er1]. destruct (arc_unique _ _ _ _ _ _ Hb2 HA2) as [Ec2 Er2].
  unfold arc_arc_join. fold v1 v2 u1 u2.
  rewrite (arc_radius_and_center_eq v1 v2 (proj2 Hok1 Hb1) Hb1), (arc_radius_and_center_eq u1 u2 (proj2 Hok2 Hb2) Hb2), <- Ec1, <- Er1, <- Ec2, <- Er2.
  rewrite (circle_none r1 c1 r2 c2 eps He (proj1 HA1) (proj1 HA2) H).
  eexists. split; [reflexivity|now apply connect_ok].
Qed.

Lemma arcs_same c1 r1 c2 r2 : seg_ok v1 v2 -> pbulge v1 <> 0 -> arc_circle v1 v2 c1 r1 -> seg_ok u1 u2 -> pbulge u1 <> 0 -> arc_circle u1 u2 c2 r2 ->
  dist c1 c2 < eps -> Rabs (r1 - r2) < eps ->
  exists p', join_seg_pair ccw eps p (s1, s2) = Ret p' /\ put eps (vtx p) u1 (vtx p').
Proof.
  intros Hok1 Hb1 (a1 & HA1) Hok2 Hb2 (a2 & HA2) H H'. unfold join_seg_pair. fold v1 u1. rewrite (is_zero_arc u1 u2 Hok2 Hb2), (is_zero_arc v1 v2 Hok1 Hb1).
  destruct (arc_unique _ _ _ _ _ _ Hb1 HA1) as [Ec1 Er1]. destruct (arc_unique _ _ _ _ _ _ Hb2 HA2) as [Ec2 Er2].
  unfold arc_arc_join. fold v1 v2 u1 u2.
  rewrite (arc_radius_and_center_eq v1 v2 (proj2 Hok1 Hb1) Hb1), (arc_radius_and_center_eq u1 u2 (proj2 Hok2 Hb2) Hb2), <- Ec1, <- Er1, <- Ec2, <- Er2.
  assert (E : circle_circle_intr r1 c1 r2 c2 eps = CCOverlapping).
  { unfold circle_circle_intr.
    assert (ES : nsqrt (v2dot (v2sub c2 c1) (v2sub c2 c1)) = dist c1 c2).
    { assert (ED : v2dot (v2sub c2 c1) (v2sub c2 c1) = dist c1 c2 * dist c1 c2).
      { rewrite dist_sqr. unfold v2dot, v2sub. rnum. ring. }
      rewrite ED. rnum. apply sqrt_square. apply dist_pos. }
    rewrite ES. unfold fuzzy_eq_zero_eps, fuzzy_eq_eps. rnum. rewrite (Rabs_pos_eq (dist c1 c2)) by apply dist_pos.
    apply rltb_true in H, H'. rewrite H, H'. reflexivity. }
  rewrite E. eexists. split; [reflexivity|apply put_ok].
Qed.

(** The nearest crossing of a line with the circle of an arc is not on both. *)
Lemma line_arc_apart k x c r : pbulge v1 = 0 -> ~ is_point (pos v1) (pos v2) eps -> clear_direction (pos v1) (pos v2) ->
  seg_ok u1 u2 -> pbulge u1 <> 0 -> arc_circle u1 u2 c r -> wide u1 u2 eps -> rs_collapsed_arc s1 = false ->
  x = line_pt (pos v1) (pos v2) k -> dist x c = r -> passes_inside (pos v1) (pos v2) c r eps ->
  (forall k, dist (line_pt (pos v1) (pos v2) k) c = r -> line_pt (pos v1) (pos v2) k <> x ->
     dist x (rs_orig_v2_pos s1) < dist (line_pt (pos v1) (pos v2) k) (rs_orig_v2_pos s1)) ->
  (1 < k -> ~ near_seg u1 u2 eps x -> exists p', join_seg_pair ccw eps p (s1, s2) = Ret p' /\ connected s1 s2 ccw eps (vtx p) (vtx p'))
  /\ ((k < 0 \/ 1 < k) /\ on_seg u1 u2 x \/ k <= 1 /\ ~ near_seg u1 u2 eps x ->
      exists p', join_seg_pair ccw eps p (s1, s2) = Ret p' /\ put2 eps (vtx p) (vertex_at (pos v2) 0) u1 (vtx p')).
Proof.
  intros Z1 Hpt Hdx Hok Hb Hac Hwide Hcol Hx Hxr Hin Hnear.
  unfold join_seg_pair. fold v1 u1. rewrite (is_zero_line v1 Z1), (is_zero_arc u1 u2 Hok Hb).
  rewrite (line_arc_pick s1 s2 ccw eps p k x c r) by assumption.
  destruct Hac as (a & HA). destruct (arc_unique _ _ _ _ _ _ Hb HA) as [Ec Er].
  unfold line_arc_process. fold v2 u1 u2. rewrite Hcol.
  assert (NF : ~ near_seg u1 u2 eps x -> point_within_arc_sweep c (pos u1) (pos u2) (bulge_is_neg u1) x eps = false).
  { intros N. apply not_true_is_false. intros T. apply N. rewrite Ec in T. apply (within_near u1 u2 Hok Hb x eps eps); [lra|exact Hwide| |exact T].
    rewrite <- Ec, <- Er, Hxr. rewrite Rminus_diag_eq, Rabs_R0 by reflexivity. lra. }
  assert (ON : on_seg u1 u2 x -> point_within_arc_sweep c (pos u1) (pos u2) (bulge_is_neg u1) x eps = true).
  { intros O. rewrite Ec. apply (on_within u1 u2 Hok Hb x eps He O). }
  assert (ST : put2 eps (vtx p) (vertex_at (pos v2) 0) u1 (vtx (add_or_replace_vertex (add_or_replace p (px v2) (py v2) nzero eps) u1 eps))).
  { eexists. split; [|apply put_ok]. apply put_ok. }
  split.
  - intros K N. rewrite (NF N), andb_false_r. cbn [negb andb]. rnum. destruct (rltb_spec 1 k) as [L|L]; [|lra]. cbn [andb].
    eexists. split; [reflexivity|now apply connect_ok].
  - intros [[K O]|[K N]].
    + rewrite (ON O). assert (is_false_intersect k = true) as -> by (apply false_intr; exact K). cbn [negb andb]. rewrite andb_false_r.
      eexists. split; [reflexivity|exact ST].
    + rewrite (NF N), andb_false_r. cbn [negb andb]. rnum. destruct (rltb_spec 1 k) as [L|L]; [lra|]. cbn [andb].
      eexists. split; [reflexivity|exact ST].
Qed.

Lemma arc_line_apart k x c r :
  let near := if rs_collapsed_arc s2 then pos u1 else rs_orig_v2_pos s1 in
  pbulge u1 = 0 -> ~ is_point (pos u1) (pos u2) eps -> clear_direction (pos u1) (pos u2) ->
  seg_ok v1 v2 -> pbulge v1 <> 0 -> arc_circle v1 v2 c r -> wide v1 v2 eps ->
  x = line_pt (pos u1) (pos u2) k -> dist x c = r -> passes_inside (pos u1) (pos u2) c r eps ->
  (forall k, dist (line_pt (pos u1) (pos u2) k) c = r -> line_pt (pos u1) (pos u2) k <> x ->
     dist x near < dist (line_pt (pos u1) (pos u2) k) near) ->
  (k < 0 \/ 1 < k \/ ~ near_seg v1 v2 eps x) ->
  exists p', join_seg_pair ccw eps p (s1, s2) = Ret p' /\ connected s1 s2 ccw eps (vtx p) (vtx p').
Proof.
  intros near Z1 Hpt Hdx Hok Hb Hac Hwide Hx Hxr Hin Hnear HN.
  unfold join_seg_pair. fold v1 u1. rewrite (is_zero_line u1 Z1), (is_zero_arc v1 v2 Hok Hb).
  rewrite (arc_line_pick s1 s2 ccw eps p k x c r) by assumption.
  destruct Hac as (a & HA). destruct (arc_unique _ _ _ _ _ _ Hb HA) as [Ec Er].
  unfold arc_line_process. fold v1 v2.
  assert (F : negb (is_false_intersect k) && point_within_arc_sweep c (pos v1) (pos v2) (bulge_is_neg v1) x eps = false).
  { apply andb_false_iff. assert (HN' : (k < 0 \/ 1 < k) \/ ~ near_seg v1 v2 eps x) by tauto. destruct HN' as [K|N].
    - left. apply false_intr in K. now rewrite K.
    - right. apply not_true_is_false. intros T. apply N. rewrite Ec in T. apply (within_near v1 v2 Hok Hb x eps eps); [lra|exact Hwide| |exact T].
      rewrite <- Ec, <- Er, Hxr. rewrite Rminus_diag_eq, Rabs_R0 by reflexivity. lra. }
  rewrite F. eexists. split; [reflexivity|now apply connect_ok].
Qed.

Lemma arcs_apart x y c1 r1 c2 r2 :
  let near := rs_orig_v2_pos s1 in
  seg_ok v1 v2 -> pbulge v1 <> 0 -> arc_circle v1 v2 c1 r1 -> wide v1 v2 eps -> seg_ok u1 u2 -> pbulge u1 <> 0 -> arc_circle u1 u2 c2 r2 -> wide u1 u2 eps ->
  eps <= dist c1 c2 -> dist x c1 = r1 -> dist x c2 = r2 -> dist y c1 = r1 -> dist y c2 = r2 -> ~ is_point x y eps ->
  dist x near * dist x near + eps <= dist y near * dist y near ->
  ~ near_seg v1 v2 eps x \/ ~ near_seg u1 u2 eps x ->
  exists p', join_seg_pair ccw eps p (s1, s2) = Ret p' /\ connected s1 s2 ccw eps (vtx p) (vtx p').
Proof.
  intros near Hok1 Hb1 Hac1 Hwide1 Hok2 Hb2 Hac2 Hwide2 Hc Dx1 Dx2 Dy1 Dy2 Hxy Hnear HN.
  unfold join_seg_pair. fold v1 u1. rewrite (is_zero_arc u1 u2 Hok2 Hb2), (is_zero_arc v1 v2 Hok1 Hb1).
  rewrite (arc_arc_pick s1 s2 ccw eps p x y c1 r1 c2 r2) by assumption. fold v1 v2 u1 u2.
  destruct Hac1 as (a1 & HA1). destruct Hac2 as (a2 & HA2).
  destruct (arc_unique _ _ _ _ _ _ Hb1 HA1) as [Ec1 Er1]. destruct (arc_unique _ _ _ _ _ _ Hb2 HA2) as [Ec2 Er2].
  assert (F : point_within_arc_sweep c1 (pos v1) (pos v2) (bulge_is_neg v1) x eps && point_within_arc_sweep c2 (pos u1) (pos u2) (bulge_is_neg u1) x eps = false).
  { apply andb_false_iff. destruct HN as [N|N]; [left|right]; apply not_true_is_false; intros T; apply N.
    - rewrite Ec1 in T. apply (within_near v1 v2 Hok1 Hb1 x eps eps); [lra|exact Hwide1| |exact T].
      rewrite <- Ec1, <- Er1, Dx1. rewrite Rminus_diag_eq, Rabs_R0 by reflexivity. lra.
    - rewrite Ec2 in T. apply (within_near u1 u2 Hok2 Hb2 x eps eps); [lra|exact Hwide2| |exact T].
      rewrite <- Ec2, <- Er2, Dx2. rewrite Rminus_diag_eq, Rabs_R0 by reflexivity. lra. }
  rewrite F. unfold arc_arc_process. cbn [negb]. eexists. split; [reflexivity|now apply connect_ok].
Qed.
End Apart.

(** Two arcs of circles that cross in points about equally near to the corner: the crossing on both arcs is used. *)
Lemma arcs_even s1 s2 ccw eps pre w cl tw tx ty x y c1 r1 c2 r2 :
  let v1 := rs_v1 s1 in let v2 := rs_v2 s1 in let u1 := rs_v1 s2 in let u2 := rs_v2 s2 in
  let near := rs_orig_v2_pos s1 in
  0 < eps -> seg_ok v1 v2 -> pbulge v1 <> 0 -> arc_circle v1 v2 c1 r1 -> seg_ok u1 u2 -> pbulge u1 <> 0 -> arc_circle u1 u2 c2 r2 ->
  0 <= tw -> tw < tx -> tx <= 1 -> drawn v1 v2 tw 1 w v2 -> seg_at v1 v2 tx x ->
  0 <= ty -> ty < 1 -> seg_at u1 u2 ty x -> ~ is_point (pos w) x eps ->
  1 / 100000000 <= Rabs (pbulge w) -> ~ is_point (pos w) (pos v2) eps ->
  eps <= dist c1 c2 -> dist y c1 = r1 -> dist y c2 = r2 -> ~ is_point x y eps ->
  Rabs (dist x near * dist x near - dist y near * dist y near) < eps -> wide v1 v2 eps -> wide u1 u2 eps ->
  ~ near_seg v1 v2 eps y \/ ~ near_seg u1 u2 eps y ->
  exists vs, join_seg_pair ccw eps (PL (pre ++ [w]) cl) (s1, s2) = Ret (PL vs cl) /\ joined_at s1 s2 tw tx ty pre w x vs.
Proof.
  intros v1 v2 u1 u2 near He Hok1 Hb1 HA1 Hok2 Hb2 HA2 W0 W1 W2 Hw Hx Y0 Y1 Hy Hwx Hwb Hwv Hc Dy1 Dy2 Hxy Hnear Hwide1 Hwide2 HN.
  apply (arcs_from s1 s2 ccw eps pre w cl tw tx ty x c1 r1 c2 r2); try assumption. intros Dx1 Dx2 In1 In2. fold v1 v2 u1 u2 in In1, In2.
  destruct HA1 as (a1 & HA1), HA2 as (a2 & HA2).
  assert (HP1 : pos v1 <> pos v2) by (apply Hok1, Hb1). assert (HP2 : pos u1 <> pos u2) by (apply Hok2, Hb2).
  destruct (arc_unique _ _ _ _ _ _ Hb1 HA1) as [Ec1 Er1]. destruct (arc_unique _ _ _ _ _ _ Hb2 HA2) as [Ec2 Er2].
  assert (R1 : 0 <= r1) by apply HA1. assert (R2 : 0 <= r2) by apply HA2.
  assert (F : point_within_arc_sweep c1 (pos v1) (pos v2) (bulge_is_neg v1) y eps && point_within_arc_sweep c2 (pos u1) (pos u2) (bulge_is_neg u1) y eps = false).
  { apply andb_false_iff. destruct HN as [N|N]; [left|right]; apply not_true_is_false; intros T; apply N.
    - rewrite Ec1 in T. apply (within_near v1 v2 Hok1 Hb1 y eps eps); [lra|exact Hwide1| |exact T].
      rewrite <- Ec1, <- Er1, Dy1. rewrite Rminus_diag_eq, Rabs_R0 by reflexivity. lra.
    - rewrite Ec2 in T. apply (within_near u1 u2 Hok2 Hb2 y eps eps); [lra|exact Hwide2| |exact T].
      rewrite <- Ec2, <- Er2, Dy2. rewrite Rminus_diag_eq, Rabs_R0 by reflexivity. lra. }
  unfold arc_arc_join. fold v1 v2 u1 u2. rewrite (arc_radius_and_center_eq v1 v2 HP1 Hb1), (arc_radius_and_center_eq u1 u2 HP2 Hb2), <- Ec1, <- Er1, <- Ec2, <- Er2.
  destruct (circle_circle_two r1 c1 r2 c2 eps x y He R1 R2 Hc Hxy Dx1 Dx2 Dy1 Dy2) as (q1 & q2 & E & U). rewrite E.
  cbv zeta. fold near. rewrite !dist_sq_R. unfold fuzzy_eq_eps. rnum.
  assert (Nxy : x <> y). { intros X. apply Hxy. rewrite X. split; rewrite Rminus_diag_eq, Rabs_R0; auto; lra. }
  assert (K : (x = q1 /\ y = q2) \/ (x = q2 /\ y = q1)).
  { destruct (U x Dx1 Dx2) as [X|X], (U y Dy1 Dy2) as [Y|Y]; try (exfalso; apply Nxy; congruence); auto. }
  destruct K as [[<- <-]|[<- <-]].
  - apply rltb_true in Hnear. rewrite Hnear, In1, In2. reflexivity.
  - rewrite Rabs_minus_sym in Hnear. apply rltb_true in Hnear. rewrite Hnear, F, In1, In2. reflexivity.
Qed.

(** Moving the first vertex along its segment. *)
Lemma first_moved (s1 s2 : vertex R) (v0 w : vertex R) rest cl u t x : seg_ok s1 s2 ->
  drawn s1 s2 0 u v0 w -> pbulge v0 = 0 \/ 1 / 100000000 <= Rabs (pbulge v0) -> 0 <= t -> t < u -> u <= 1 -> seg_at s1 s2 t x ->
  exists x', update_first_vertex (PL (v0 :: w :: rest) cl) x = Ret (PL (x' :: w :: rest) cl) /\ pos x' = x /\ drawn s1 s2 t u x' w.
Proof.
  intros Hok Hd Hz T0 T1 U1 Hx. unfold update_first_vertex. cbn [at_ index vtx nth_error rbind].
  change (at_ (PL (v0 :: w :: rest) cl) 0) with (Ret v0). cbn [rbind].
  assert (SV : forall b, set_vertex (PL (v0 :: w :: rest) cl) 0 (Vtx (vx x) (vy x) b) = Ret (PL (vertex_at x b :: w :: rest) cl)) by reflexivity.
  destruct (Req_dec (pbulge s1) 0) as [Z|Z].
  - pose proof (drawn_line_bulge _ _ _ _ _ _ Z Hd) as B. rewrite (is_zero_line v0 B), SV. eexists. split; [reflexivity|]. split; [apply pos_vertex_at|].
    apply drawn_line; [exact Z|exact B|now rewrite pos_vertex_at|apply Hd].
  - assert (Hu : 0 < u) by lra. destruct (drawn_bulge s1 s2 0 u v0 w Z Hu Hd) as [B SG].
    destruct Hz as [|Hz]; [contradiction|].
    assert (BZ : bulge_is_zero v0 = false).
    { unfold bulge_is_zero, fuzzy_eq_zero, fuzzy_eq_zero_eps. rnum. apply rltb_false. cbn. lra. }
    rewrite BZ. change (1 <? vertex_count (PL (v0 :: w :: rest) cl))%nat with true. cbn match.
    change (at_ (PL (v0 :: w :: rest) cl) 1) with (Ret w). cbn [rbind].
    pose proof (drawn_distinct s1 s2 0 u v0 w Hok Z (Rle_refl 0) Hu U1 Hd) as Dw.
    rewrite (arc_radius_and_center_eq v0 w Dw B). cbn [snd].
    pose proof (drawn_ok s1 s2 0 u v0 w Hok Z Hd) as HA. destruct (arc_unique _ _ _ _ _ _ B HA) as [EC _]. rewrite <- EC.
    set (c := centre_of (pos s1) (pos s2) (pbulge s1)).
    destruct Hd as (D1 & D2 & D3).
    assert (SP : forall y, pbulge y = pbulge v0 -> bulge_is_pos y = rltb 0 (pbulge s1)) by (intros y Ey; rewrite bulge_pos_R, Ey; exact SG).
    assert (SN : bulge_is_neg v0 = negb (rltb 0 (pbulge s1))).
    { rewrite <- SG, is_neg_R. destruct (rltb_spec (pbulge v0) 0), (rltb_spec 0 (pbulge v0)); try reflexivity; lra. }
    rewrite SN, (SP v0 eq_refl). rnum.
    destruct (turn_between s1 s2 t x u (pos w) Hok Z T0 T1 U1 Hx D2) as [(E & V & BB)|(E & V1 & V2 & V3)]; fold c in E.
    + fold c in V, BB. set (th := delta_angle (angle c x) (angle c (pos w))) in *.
      assert (F : (rltb th 0 && rltb 0 (pbulge s1)) || (rltb 0 th && negb (rltb 0 (pbulge s1))) = false).
      { apply eqb_prop in E. rewrite <- E. destruct (rltb_spec th 0), (rltb_spec 0 th); try reflexivity; lra. }
      rewrite F, SV. eexists. split; [reflexivity|]. split; [apply pos_vertex_at|]. split; [now rewrite pos_vertex_at|]. split; [exact D2|].
      cbn [vertex_at pbulge]. rewrite sweep_from_angle by exact BB. exact V.
    + fold c in V3. set (th := delta_angle (angle c x) (angle c (pos w))) in *. pose proof PI_pos.
      assert (TH : rltb 0 th = true) by (apply rltb_true; lra). rewrite TH in *.
      assert (NT : rltb 0 (pbulge s1) = false) by (destruct (rltb 0 (pbulge s1)); [discriminate|reflexivity]). rewrite NT. cbn [negb andb orb]. rewrite orb_true_r.
      rewrite SV. eexists. split; [reflexivity|]. split; [apply pos_vertex_at|]. split; [now rewrite pos_vertex_at|]. split; [exact D2|].
      cbn [vertex_at pbulge]. rewrite D3, V1. reflexivity.
Qed.
