(** Joining raw offset segments at a common point (C47). *)
From Coq Require Import Reals ZArith Bool List Arith Lra Lia Psatz.
From Verif Require Import Num RNum Res ModelMath ModelIntr ModelSeg ModelPline ModelView ModelSegIntr ModelIndex ModelIntersects ModelBoolean ModelOffset.
From Verif Require Import Spec SpecGeom SpecIntr SpecOffset SpecSegIntr SpecOffsetJoin.
From Verif Require Import ProofR ProofBase ProofIter ProofArc ProofArc2 ProofSlice ProofIntr ProofRepeat ProofMeasure ProofClosest ProofRedundantR ProofSegIntr ProofSegIntr2 ProofSegIntr5 ProofOffset1 ProofOffsetJoin.
Import ListNotations.
Local Open Scope R_scope.

Lemma is_zero_line (v : vertex R) : pbulge v = 0 -> bulge_is_zero v = true.
Proof. intros E. unfold bulge_is_zero, fuzzy_eq_zero, fuzzy_eq_zero_eps. rnum. rewrite E, Rabs_R0. apply rltb_true. cbn. lra. Qed.

Lemma is_zero_arc (v1 v2 : vertex R) : seg_ok v1 v2 -> pbulge v1 <> 0 -> bulge_is_zero v1 = false.
Proof.
  intros [H _] N. destruct (bulge_is_zero v1) eqn:E; [|reflexivity]. exfalso. apply N. now apply (bulge_ok_zero v1 H).
Qed.

Lemma not_false_intr t : 0 <= t <= 1 -> is_false_intersect t = false.
Proof. intros H. unfold is_false_intersect. rnum. destruct (rltb_spec t 0), (rltb_spec 1 t); try reflexivity; lra. Qed.

Lemma false_intr t : is_false_intersect t = true <-> t < 0 \/ 1 < t.
Proof. unfold is_false_intersect. rnum. rewrite orb_true_iff, !rltb_true. tauto. Qed.

Lemma put_far pre w cl x y b eps : ~ is_point (pos w) (V2 x y) eps ->
  add_or_replace (PL (pre ++ [w]) cl) x y b eps = PL (pre ++ [w; Vtx x y b]) cl.
Proof.
  intros H. unfold add_or_replace. rewrite add_or_replace_vertex_snoc. change (pos (Vtx x y b)) with (V2 x y).
  now rewrite (not_point_R _ _ _ H).
Qed.

Lemma drawn_line v1 v2 t u w x : pbulge v1 = 0 -> pbulge w = 0 -> seg_at v1 v2 t (pos w) -> seg_at v1 v2 u (pos x) -> drawn v1 v2 t u w x.
Proof.
  intros Z W A B. split; [exact A|]. split; [exact B|]. rewrite Z, W. assert (sweep 0 = 0) as -> by now apply sweep_zero_iff. ring.
Qed.

Lemma drawn_line_bulge v1 v2 t u w x : pbulge v1 = 0 -> drawn v1 v2 t u w x -> pbulge w = 0.
Proof. intros Z (_ & _ & E). apply sweep_zero_iff. rewrite E, Z. assert (sweep 0 = 0) as -> by now apply sweep_zero_iff. ring. Qed.

(** A line that touches a circle. *)
Lemma line_touches p0 p1 c r eps t0 x : 0 < eps -> ~ is_point p0 p1 eps -> clear_direction p0 p1 ->
  x = line_pt p0 p1 t0 -> dist x c = r -> (forall t, line_pt p0 p1 t <> x -> r < dist (line_pt p0 p1 t) c) ->
  line_circle_intr p0 p1 r c eps = LCTangentIntersect t0.
Proof.
  intros He Hp Hc -> D M. assert (Hv : p0 <> p1) by (apply (fuzzy_false_neq _ _ eps He), not_point_R; exact Hp).
  assert (U : forall t, dist (line_pt p0 p1 t) c = r -> t = t0).
  { intros t E. destruct (Req_dec t t0) as [T|N]; [exact T|]. exfalso. enough (r < dist (line_pt p0 p1 t) c) by lra. apply M. intros E'. apply N. now apply (line_pt_inj p0 p1). }
  pose proof (line_circle_main p0 p1 r c eps He Hp Hc) as LC. destruct (line_circle_intr _ _ _ _ _) as [|t|u0 u1].
  - destruct LC as (k & L & Q). specialize (Q t0). lra.
  - destruct LC as (Q & _). f_equal. destruct (Req_dec t t0) as [T|N]; [exact T|]. exfalso. specialize (Q t0).
    enough (r < dist (line_pt p0 p1 t) c) by lra. apply M. intros E'. apply N. now apply (line_pt_inj p0 p1).
  - exfalso. destruct LC as (_ & _ & LC). destruct LC as (L & A & B & _); [exists t0; lra|]. apply U in A, B. lra.
Qed.

(** The crossing of a line with the circle of an arc that is nearest to the original vertex is the one
    used. *)
Lemma line_arc_pick s1 s2 ccw eps p k x c r :
  let v1 := rs_v1 s1 in let v2 := rs_v2 s1 in let u1 := rs_v1 s2 in let u2 := rs_v2 s2 in
  0 < eps -> ~ is_point (pos v1) (pos v2) eps -> clear_direction (pos v1) (pos v2) ->
  seg_ok u1 u2 -> pbulge u1 <> 0 -> arc_circle u1 u2 c r ->
  x = line_pt (pos v1) (pos v2) k -> dist x c = r ->
  passes_inside (pos v1) (pos v2) c r eps ->
  (forall k, dist (line_pt (pos v1) (pos v2) k) c = r -> line_pt (pos v1) (pos v2) k <> x ->
     dist x (rs_orig_v2_pos s1) < dist (line_pt (pos v1) (pos v2) k) (rs_orig_v2_pos s1)) ->
  line_arc_join s1 s2 ccw eps p = line_arc_process s1 s2 ccw eps p c k x.
Proof.
  intros v1 v2 u1 u2 He Hpt Hdx Hok Hb (a & HA) Hx Hxr (ki & Hin) Hnear.
  assert (HP : pos u1 <> pos u2) by (apply Hok, Hb).
  destruct (arc_unique _ _ _ _ _ _ Hb HA) as [Ec Er].
  assert (Hv : pos v1 <> pos v2) by (apply (fuzzy_false_neq _ _ eps He), not_point_R; exact Hpt).
  unfold line_arc_join. fold v1 v2 u1 u2. rewrite (arc_radius_and_center_eq u1 u2 HP Hb), <- Ec, <- Er.
    pose proof (line_circle_main (pos v1) (pos v2) r c eps He Hpt Hdx) as LC.
    destruct (line_circle_intr (pos v1) (pos v2) r c eps) as [|k'|k0 k1].
    - exfalso. destruct LC as (d & D1 & D2). specialize (D2 ki). lra.
    - exfalso. destruct LC as [L1 L2]. specialize (L1 ki). apply Rabs_def2 in L2. lra.
    - destruct LC as (_ & _ & LC). destruct LC as (K01 & K0 & K1 & KU & _). { exists ki. lra. }
      cbv zeta. rewrite (from_parametric_R (pos v1) (pos v2) k0), (from_parametric_R (pos v1) (pos v2) k1). rnum. rewrite dist_sq_ltb.
      assert (K : k = k0 \/ k = k1) by (apply KU; rewrite <- Hx; exact Hxr).
      assert (ND : line_pt (pos v1) (pos v2) k0 <> line_pt (pos v1) (pos v2) k1).
      { intros E. apply line_pt_inj in E; [lra|exact Hv]. }
      destruct K as [K|K].
      + assert (E : line_pt (pos v1) (pos v2) k0 = x) by (rewrite Hx, K; reflexivity). rewrite E, <- K in *.
        assert (L : dist x (rs_orig_v2_pos s1) < dist (line_pt (pos v1) (pos v2) k1) (rs_orig_v2_pos s1)) by (apply Hnear; congruence).
        apply rltb_true in L. rewrite L. reflexivity.
      + assert (E : line_pt (pos v1) (pos v2) k1 = x) by (rewrite Hx, K; reflexivity). rewrite E, <- K in *.
        assert (L : dist x (rs_orig_v2_pos s1) < dist (line_pt (pos v1) (pos v2) k0) (rs_orig_v2_pos s1)) by (apply Hnear; congruence).
        destruct (rltb_spec (dist (line_pt (pos v1) (pos v2) k0) (rs_orig_v2_pos s1)) (dist x (rs_orig_v2_pos s1))); [lra|]. reflexivity.
Qed.

(** A line that meets an arc in the point used. *)
Lemma line_arc_from s1 s2 ccw eps pre w cl tw tx ty x c r :
  let v1 := rs_v1 s1 in let v2 := rs_v2 s1 in let u1 := rs_v1 s2 in let u2 := rs_v2 s2 in
  0 < eps -> pbulge v1 = 0 -> ~ is_point (pos v1) (pos v2) eps -> clear_direction (pos v1) (pos v2) ->
  seg_ok u1 u2 -> pbulge u1 <> 0 -> arc_circle u1 u2 c r ->
  0 <= tw -> tw < tx -> tx <= 1 -> drawn v1 v2 tw 1 w v2 -> seg_at v1 v2 tx x ->
  0 <= ty -> ty < 1 -> seg_at u1 u2 ty x -> ~ is_point (pos w) x eps ->
  (dist x c = r -> line_arc_join s1 s2 ccw eps (PL (pre ++ [w]) cl) = line_arc_process s1 s2 ccw eps (PL (pre ++ [w]) cl) c tx x) ->
  exists vs, join_seg_pair ccw eps (PL (pre ++ [w]) cl) (s1, s2) = Ret (PL vs cl) /\ joined_at s1 s2 tw tx ty pre w x vs.
Proof.
  intros v1 v2 u1 u2 He Z1 Hpt Hdx Hok Hb (a & HA) W0 W1 W2 Hw Hx Y0 Y1 Hy Hwx GJ.
  unfold join_seg_pair. fold v1 u1. rewrite (is_zero_line v1 Z1), (is_zero_arc u1 u2 Hok Hb).
  assert (HP : pos u1 <> pos u2) by (apply Hok, Hb).
  destruct (arc_unique _ _ _ _ _ _ Hb HA) as [Ec Er].
  pose proof (seg_at_line v1 v2 tx x Z1) as SL. apply SL in Hx. 
  assert (Hxr : dist x c = r).
  { rewrite Ec, Er. apply (on_within u1 u2 Hok Hb x 1); [lra|]. exists ty. split; [lra|exact Hy]. }
  assert (Hv : pos v1 <> pos v2) by (apply (fuzzy_false_neq _ _ eps He), not_point_R; exact Hpt).
  assert (PR : line_arc_process s1 s2 ccw eps (PL (pre ++ [w]) cl) c tx x
               = PL (pre ++ [w; vertex_at x (if Bool.eqb (rltb 0 (delta_angle (angle c x) (angle c (pos u2)))) (rltb 0 (pbulge u1))
                                              then bulge_from_angle (delta_angle (angle c x) (angle c (pos u2))) else pbulge u1)]) cl).
  { unfold line_arc_process. fold u1 u2. rewrite not_false_intr by lra. cbn [negb].
    assert (T : point_within_arc_sweep c (pos u1) (pos u2) (bulge_is_neg u1) x eps = true).
    { rewrite Ec. apply (on_within u1 u2 Hok Hb x eps He). exists ty. split; [lra|exact Hy]. }
    rewrite T. cbn [andb]. rewrite bulge_pos_R. rnum.
    assert (P : pos w = pos w /\ V2 (vx x) (vy x) = x) by (split; [reflexivity|destruct x; reflexivity]). destruct P as [_ P].
    destruct (Bool.eqb _ _); apply put_far; rewrite P; exact Hwx. }
  specialize (GJ Hxr).
  rewrite GJ, PR. eexists. split; [reflexivity|]. exists w. eexists. split; [reflexivity|]. split; [reflexivity|].
  split; [apply pos_vertex_at|]. split.
  - apply drawn_line; [exact Z1|now apply (drawn_line_bulge v1 v2 tw 1 w v2)|apply Hw|]. rewrite pos_vertex_at. apply SL. exact Hx.
  - rewrite Ec. now apply enter_arc.
Qed.

(** A line crossing an arc. *)
Lemma line_arc_meets s1 s2 ccw eps pre w cl tw tx ty x c r :
  let v1 := rs_v1 s1 in let v2 := rs_v2 s1 in let u1 := rs_v1 s2 in let u2 := rs_v2 s2 in
  0 < eps -> pbulge v1 = 0 -> ~ is_point (pos v1) (pos v2) eps -> clear_direction (pos v1) (pos v2) ->
  seg_ok u1 u2 -> pbulge u1 <> 0 -> arc_circle u1 u2 c r ->
  0 <= tw -> tw < tx -> tx <= 1 -> drawn v1 v2 tw 1 w v2 -> seg_at v1 v2 tx x ->
  0 <= ty -> ty < 1 -> seg_at u1 u2 ty x -> ~ is_point (pos w) x eps ->
  passes_inside (pos v1) (pos v2) c r eps ->
  (forall k, dist (line_pt (pos v1) (pos v2) k) c = r -> line_pt (pos v1) (pos v2) k <> x ->
     dist x (rs_orig_v2_pos s1) < dist (line_pt (pos v1) (pos v2) k) (rs_orig_v2_pos s1)) ->
  exists vs, join_seg_pair ccw eps (PL (pre ++ [w]) cl) (s1, s2) = Ret (PL vs cl) /\ joined_at s1 s2 tw tx ty pre w x vs.
Proof.
  intros v1 v2 u1 u2 He Z1 Hpt Hdx Hok Hb HA W0 W1 W2 Hw Hx Y0 Y1 Hy Hwx Hin Hnear. apply (line_arc_from s1 s2 ccw eps pre w cl tw tx ty x c r); try assumption.
  intros Hxr. apply (line_arc_pick s1 s2 ccw eps _ tx x c r); try assumption. now apply (seg_at_line v1 v2 tx x Z1).
Qed.

(** A line touching an arc. *)
Lemma line_arc_touch s1 s2 ccw eps pre w cl tw tx ty x c r :
  let v1 := rs_v1 s1 in let v2 := rs_v2 s1 in let u1 := rs_v1 s2 in let u2 := rs_v2 s2 in
  0 < eps -> pbulge v1 = 0 -> ~ is_point (pos v1) (pos v2) eps -> clear_direction (pos v1) (pos v2) ->
  seg_ok u1 u2 -> pbulge u1 <> 0 -> arc_circle u1 u2 c r ->
  0 <= tw -> tw < tx -> tx <= 1 -> drawn v1 v2 tw 1 w v2 -> seg_at v1 v2 tx x ->
  0 <= ty -> ty < 1 -> seg_at u1 u2 ty x -> ~ is_point (pos w) x eps ->
  (forall k, line_pt (pos v1) (pos v2) k <> x -> r < dist (line_pt (pos v1) (pos v2) k) c) ->
  exists vs, join_seg_pair ccw eps (PL (pre ++ [w]) cl) (s1, s2) = Ret (PL vs cl) /\ joined_at s1 s2 tw tx ty pre w x vs.
Proof.
  intros v1 v2 u1 u2 He Z1 Hpt Hdx Hok Hb HA W0 W1 W2 Hw Hx Y0 Y1 Hy Hwx Ht. apply (line_arc_from s1 s2 ccw eps pre w cl tw tx ty x c r); try assumption.
  intros Hxr. apply (seg_at_line v1 v2 tx x Z1) in Hx. destruct HA as (a & HA). assert (HP : pos u1 <> pos u2) by (apply Hok, Hb).
  destruct (arc_unique _ _ _ _ _ _ Hb HA) as [Ec Er].
  unfold line_arc_join. fold v1 v2 u1 u2. rewrite (arc_radius_and_center_eq u1 u2 HP Hb), <- Ec, <- Er.
  rewrite (line_touches (pos v1) (pos v2) c r eps tx x He Hpt Hdx Hx Hxr Ht), from_parametric_R, <- Hx. reflexivity.
Qed.

(** The same for an arc and a line. *)
Lemma arc_line_pick s1 s2 ccw eps p k x c r :
  let v1 := rs_v1 s1 in let v2 := rs_v2 s1 in let u1 := rs_v1 s2 in let u2 := rs_v2 s2 in
  let near := if rs_collapsed_arc s2 then pos u1 else rs_orig_v2_pos s1 in
  0 < eps -> ~ is_point (pos u1) (pos u2) eps -> clear_direction (pos u1) (pos u2) ->
  seg_ok v1 v2 -> pbulge v1 <> 0 -> arc_circle v1 v2 c r ->
  x = line_pt (pos u1) (pos u2) k -> dist x c = r ->
  passes_inside (pos u1) (pos u2) c r eps ->
  (forall k, dist (line_pt (pos u1) (pos u2) k) c = r -> line_pt (pos u1) (pos u2) k <> x ->
     dist x near < dist (line_pt (pos u1) (pos u2) k) near) ->
  arc_line_join s1 s2 ccw eps p = arc_line_process s1 s2 ccw eps p c k x.
Proof.
  intros v1 v2 u1 u2 near He Hpt Hdx Hok Hb (a & HA) Hy Hxr (ki & Hin) Hnear.
  assert (HP : pos v1 <> pos v2) by (apply Hok, Hb).
  destruct (arc_unique _ _ _ _ _ _ Hb HA) as [Ec Er].
  assert (Hv : pos u1 <> pos u2) by (apply (fuzzy_false_neq _ _ eps He), not_point_R; exact Hpt).
  unfold arc_line_join. fold v1 v2 u1 u2. rewrite (arc_radius_and_center_eq v1 v2 HP Hb), <- Ec, <- Er.
    pose proof (line_circle_main (pos u1) (pos u2) r c eps He Hpt Hdx) as LC.
    destruct (line_circle_intr (pos u1) (pos u2) r c eps) as [|k'|k0 k1].
    - exfalso. destruct LC as (d & D1 & D2). specialize (D2 ki). lra.
    - exfalso. destruct LC as [L1 L2]. specialize (L1 ki). apply Rabs_def2 in L2. lra.
    - destruct LC as (_ & _ & LC). destruct LC as (K01 & K0 & K1 & KU & _). { exists ki. lra. }
      cbv zeta. rewrite (from_parametric_R (pos u1) (pos u2) k0), (from_parametric_R (pos u1) (pos u2) k1). fold near. rnum. rewrite dist_sq_ltb.
      assert (K : k = k0 \/ k = k1) by (apply KU; rewrite <- Hy; exact Hxr).
      assert (ND : line_pt (pos u1) (pos u2) k0 <> line_pt (pos u1) (pos u2) k1).
      { intros E. apply line_pt_inj in E; [lra|exact Hv]. }
      destruct K as [K|K].
      + assert (E : line_pt (pos u1) (pos u2) k0 = x) by (rewrite Hy, K; reflexivity). rewrite E, <- K in *.
        assert (L : dist x near < dist (line_pt (pos u1) (pos u2) k1) near) by (apply Hnear; congruence).
        apply rltb_true in L. rewrite L. reflexivity.
      + assert (E : line_pt (pos u1) (pos u2) k1 = x) by (rewrite Hy, K; reflexivity). rewrite E, <- K in *.
        assert (L : dist x near < dist (line_pt (pos u1) (pos u2) k0) near) by (apply Hnear; congruence).
        destruct (rltb_spec (dist (line_pt (pos u1) (pos u2) k0) near) (dist x near)); [lra|]. reflexivity.
Qed.

(** An arc that meets a line in the point used. *)
Lemma arc_line_from s1 s2 ccw eps pre w cl tw tx ty x c r :
  let v1 := rs_v1 s1 in let v2 := rs_v2 s1 in let u1 := rs_v1 s2 in let u2 := rs_v2 s2 in
  0 < eps -> pbulge u1 = 0 -> ~ is_point (pos u1) (pos u2) eps -> clear_direction (pos u1) (pos u2) ->
  seg_ok v1 v2 -> pbulge v1 <> 0 -> arc_circle v1 v2 c r ->
  0 <= tw -> tw < tx -> tx <= 1 -> drawn v1 v2 tw 1 w v2 -> seg_at v1 v2 tx x ->
  0 <= ty -> ty < 1 -> seg_at u1 u2 ty x -> ~ is_point (pos w) x eps ->
  1 / 100000000 <= Rabs (pbulge w) -> ~ is_point (pos w) (pos v2) eps ->
  (dist x c = r -> arc_line_join s1 s2 ccw eps (PL (pre ++ [w]) cl) = arc_line_process s1 s2 ccw eps (PL (pre ++ [w]) cl) c ty x) ->
  exists vs, join_seg_pair ccw eps (PL (pre ++ [w]) cl) (s1, s2) = Ret (PL vs cl) /\ joined_at s1 s2 tw tx ty pre w x vs.
Proof.
  intros v1 v2 u1 u2 He Z1 Hpt Hdx Hok Hb (a & HA) W0 W1 W2 Hw Hx Y0 Y1 Hy Hwx Hwb Hwv GJ.
  unfold join_seg_pair. fold v1 u1. rewrite (is_zero_line u1 Z1), (is_zero_arc v1 v2 Hok Hb).
  assert (HP : pos v1 <> pos v2) by (apply Hok, Hb).
  destruct (arc_unique _ _ _ _ _ _ Hb HA) as [Ec Er].
  pose proof (seg_at_line u1 u2 ty x Z1) as SL. apply SL in Hy.
  assert (Hxr : dist x c = r).
  { rewrite Ec, Er. apply (on_within v1 v2 Hok Hb x 1); [lra|]. exists tx. split; [lra|exact Hx]. }
  assert (Hv : pos u1 <> pos u2) by (apply (fuzzy_false_neq _ _ eps He), not_point_R; exact Hpt).
  destruct (trim_arc v1 v2 tw tx w x pre cl eps Hok Hb W0 W1 W2 Hw Hx Hwb Hwv) as (b & TR & TD). rewrite <- Ec in TR.
  assert (PR : arc_line_process s1 s2 ccw eps (PL (pre ++ [w]) cl) c ty x = Ret (PL (pre ++ [with_bulge w b; vertex_at x 0]) cl)).
  { unfold arc_line_process. fold v1 v2. rewrite not_false_intr by lra. cbn [negb].
    assert (T : point_within_arc_sweep c (pos v1) (pos v2) (bulge_is_neg v1) x eps = true).
    { rewrite Ec. apply (on_within v1 v2 Hok Hb x eps He). exists tx. split; [lra|exact Hx]. }
    rewrite T. cbn [andb]. rewrite TR. cbn [rbind]. f_equal. apply put_far. change (pos (with_bulge w b)) with (pos w).
    replace (V2 (vx x) (vy x)) with x by (destruct x; reflexivity). exact Hwx. }
  specialize (GJ Hxr).
  rewrite GJ, PR. eexists. split; [reflexivity|]. exists (with_bulge w b), (vertex_at x 0). split; [reflexivity|]. split; [reflexivity|].
  split; [apply pos_vertex_at|]. split; [apply TD, pos_vertex_at|].
  apply drawn_line; [exact Z1|reflexivity| |].
  - rewrite pos_vertex_at. apply SL. exact Hy.
  - apply seg_at_line; [exact Z1|]. now rewrite line_pt_1.
Qed.

(** An arc crossing a line. *)
Lemma arc_line_meets s1 s2 ccw eps pre w cl tw tx ty x c r :
  let v1 := rs_v1 s1 in let v2 := rs_v2 s1 in let u1 := rs_v1 s2 in let u2 := rs_v2 s2 in
  let near := if rs_collapsed_arc s2 then pos u1 else rs_orig_v2_pos s1 in
  0 < eps -> pbulge u1 = 0 -> ~ is_point (pos u1) (pos u2) eps -> clear_direction (pos u1) (pos u2) ->
  seg_ok v1 v2 -> pbulge v1 <> 0 -> arc_circle v1 v2 c r ->
  0 <= tw -> tw < tx -> tx <= 1 -> drawn v1 v2 tw 1 w v2 -> seg_at v1 v2 tx x ->
  0 <= ty -> ty < 1 -> seg_at u1 u2 ty x -> ~ is_point (pos w) x eps ->
  1 / 100000000 <= Rabs (pbulge w) -> ~ is_point (pos w) (pos v2) eps ->
  passes_inside (pos u1) (pos u2) c r eps ->
  (forall k, dist (line_pt (pos u1) (pos u2) k) c = r -> line_pt (pos u1) (pos u2) k <> x ->
     dist x near < dist (line_pt (pos u1) (pos u2) k) near) ->
  exists vs, join_seg_pair ccw eps (PL (pre ++ [w]) cl) (s1, s2) = Ret (PL vs cl) /\ joined_at s1 s2 tw tx ty pre w x vs.
Proof.
  intros v1 v2 u1 u2 near He Z1 Hpt Hdx Hok Hb HA W0 W1 W2 Hw Hx Y0 Y1 Hy Hwx Hwb Hwv Hin Hnear. apply (arc_line_from s1 s2 ccw eps pre w cl tw tx ty x c r); try assumption.
  intros Hxr. apply (arc_line_pick s1 s2 ccw eps _ ty x c r); try assumption. now apply (seg_at_line u1 u2 ty x Z1).
Qed.

(** An arc touching a line. *)
Lemma arc_line_touch s1 s2 ccw eps pre w cl tw tx ty x c r :
  let v1 := rs_v1 s1 in let v2 := rs_v2 s1 in let u1 := rs_v1 s2 in let u2 := rs_v2 s2 in
  0 < eps -> pbulge u1 = 0 -> ~ is_point (pos u1) (pos u2) eps -> clear_direction (pos u1) (pos u2) ->
  seg_ok v1 v2 -> pbulge v1 <> 0 -> arc_circle v1 v2 c r ->
  0 <= tw -> tw < tx -> tx <= 1 -> drawn v1 v2 tw 1 w v2 -> seg_at v1 v2 tx x ->
  0 <= ty -> ty < 1 -> seg_at u1 u2 ty x -> ~ is_point (pos w) x eps ->
  1 / 100000000 <= Rabs (pbulge w) -> ~ is_point (pos w) (pos v2) eps ->
  (forall k, line_pt (pos u1) (pos u2) k <> x -> r < dist (line_pt (pos u1) (pos u2) k) c) ->
  exists vs, join_seg_pair ccw eps (PL (pre ++ [w]) cl) (s1, s2) = Ret (PL vs cl) /\ joined_at s1 s2 tw tx ty pre w x vs.
Proof.
  intros v1 v2 u1 u2 He Z1 Hpt Hdx Hok Hb HA W0 W1 W2 Hw Hx Y0 Y1 Hy Hwx Hwb Hwv Ht. apply (arc_line_from s1 s2 ccw eps pre w cl tw tx ty x c r); try assumption.
  intros Hxr. apply (seg_at_line u1 u2 ty x Z1) in Hy. destruct HA as (a & HA). assert (HP : pos v1 <> pos v2) by (apply Hok, Hb).
  destruct (arc_unique _ _ _ _ _ _ Hb HA) as [Ec Er].
  unfold arc_line_join. fold v1 v2 u1 u2. rewrite (arc_radius_and_center_eq v1 v2 HP Hb), <- Ec, <- Er.
  rewrite (line_touches (pos u1) (pos u2) c r eps ty x He Hpt Hdx Hy Hxr Ht), from_parametric_R, <- Hy. reflexivity.
Qed.

(** The same for two arcs. *)
Lemma arc_arc_pick s1 s2 ccw eps p x y c1 r1 c2 r2 :
  let v1 := rs_v1 s1 in let v2 := rs_v2 s1 in let u1 := rs_v1 s2 in let u2 := rs_v2 s2 in
  let near := rs_orig_v2_pos s1 in
  0 < eps -> seg_ok v1 v2 -> pbulge v1 <> 0 -> arc_circle v1 v2 c1 r1 -> seg_ok u1 u2 -> pbulge u1 <> 0 -> arc_circle u1 u2 c2 r2 ->
  eps <= dist c1 c2 -> dist x c1 = r1 -> dist x c2 = r2 -> dist y c1 = r1 -> dist y c2 = r2 -> ~ is_point x y eps ->
  dist x near * dist x near + eps <= dist y near * dist y near ->
  arc_arc_join s1 s2 ccw eps p = arc_arc_process s1 s2 ccw eps p c1 c2 x
    (point_within_arc_sweep c1 (pos v1) (pos v2) (bulge_is_neg v1) x eps
     && point_within_arc_sweep c2 (pos u1) (pos u2) (bulge_is_neg u1) x eps).
Proof.
  intros v1 v2 u1 u2 near He Hok1 Hb1 (a1 & HA1) Hok2 Hb2 (a2 & HA2) Hc Dx1 Dx2 Dy1 Dy2 Hxy Hnear.
  assert (HP1 : pos v1 <> pos v2) by (apply Hok1, Hb1). assert (HP2 : pos u1 <> pos u2) by (apply Hok2, Hb2).
  destruct (arc_unique _ _ _ _ _ _ Hb1 HA1) as [Ec1 Er1]. destruct (arc_unique _ _ _ _ _ _ Hb2 HA2) as [Ec2 Er2].
  assert (R1 : 0 <= r1) by apply HA1. assert (R2 : 0 <= r2) by apply HA2.
  unfold arc_arc_join. fold v1 v2 u1 u2. rewrite (arc_radius_and_center_eq v1 v2 HP1 Hb1), (arc_radius_and_center_eq u1 u2 HP2 Hb2), <- Ec1, <- Er1, <- Ec2, <- Er2.
    pose proof (circle_circle_spec r1 c1 r2 c2 eps He R1 R2) as CC.
    destruct (circle_circle_two r1 c1 r2 c2 eps x y He R1 R2 Hc Hxy Dx1 Dx2 Dy1 Dy2) as (q1 & q2 & E & U). rewrite E in CC |- *.
    destruct CC as (NQ & A1 & A2 & B1 & B2 & _). cbv zeta. fold near. rewrite !dist_sq_R. unfold fuzzy_eq_eps. rnum.
    assert (Nxy : x <> y). { intros X. apply Hxy. rewrite X. split; rewrite Rminus_diag_eq, Rabs_R0; auto; lra. }
    assert (K : (x = q1 /\ y = q2) \/ (x = q2 /\ y = q1)).
    { destruct (U x Dx1 Dx2) as [X|X], (U y Dy1 Dy2) as [Y|Y]; try (exfalso; apply Nxy; congruence); auto. }
    destruct K as [[<- <-]|[<- <-]].
    - destruct (rltb_spec (Rabs (dist x near * dist x near - dist y near * dist y near)) eps) as [L|L].
      { apply Rabs_def2 in L. lra. }
      destruct (rltb_spec (dist x near * dist x near) (dist y near * dist y near)) as [M|M]; [|lra].
      reflexivity.
    - destruct (rltb_spec (Rabs (dist y near * dist y near - dist x near * dist x near)) eps) as [L|L].
      { apply Rabs_def2 in L. lra. }
      destruct (rltb_spec (dist y near * dist y near) (dist x near * dist x near)) as [M|M]; [lra|].
      reflexivity.
Qed.

(** Two arcs that meet in the point used. *)
Lemma arcs_from s1 s2 ccw eps pre w cl tw tx ty x c1 r1 c2 r2 :
  let v1 := rs_v1 s1 in let v2 := rs_v2 s1 in let u1 := rs_v1 s2 in let u2 := rs_v2 s2 in
  0 < eps -> seg_ok v1 v2 -> pbulge v1 <> 0 -> arc_circle v1 v2 c1 r1 -> seg_ok u1 u2 -> pbulge u1 <> 0 -> arc_circle u1 u2 c2 r2 ->
  0 <= tw -> tw < tx -> tx <= 1 -> drawn v1 v2 tw 1 w v2 -> seg_at v1 v2 tx x ->
  0 <= ty -> ty < 1 -> seg_at u1 u2 ty x -> ~ is_point (pos w) x eps ->
  1 / 100000000 <= Rabs (pbulge w) -> ~ is_point (pos w) (pos v2) eps ->
  (dist x c1 = r1 -> dist x c2 = r2 -> point_within_arc_sweep c1 (pos v1) (pos v2) (bulge_is_neg v1) x eps = true ->
   point_within_arc_sweep c2 (pos u1) (pos u2) (bulge_is_neg u1) x eps = true ->
   arc_arc_join s1 s2 ccw eps (PL (pre ++ [w]) cl) = arc_arc_process s1 s2 ccw eps (PL (pre ++ [w]) cl) c1 c2 x true) ->
  exists vs, join_seg_pair ccw eps (PL (pre ++ [w]) cl) (s1, s2) = Ret (PL vs cl) /\ joined_at s1 s2 tw tx ty pre w x vs.
Proof.
  intros v1 v2 u1 u2 He Hok1 Hb1 (a1 & HA1) Hok2 Hb2 (a2 & HA2) W0 W1 W2 Hw Hx Y0 Y1 Hy Hwx Hwb Hwv GJ.
  unfold join_seg_pair. fold v1 u1. rewrite (is_zero_arc u1 u2 Hok2 Hb2), (is_zero_arc v1 v2 Hok1 Hb1).
  assert (HP1 : pos v1 <> pos v2) by (apply Hok1, Hb1). assert (HP2 : pos u1 <> pos u2) by (apply Hok2, Hb2).
  destruct (arc_unique _ _ _ _ _ _ Hb1 HA1) as [Ec1 Er1]. destruct (arc_unique _ _ _ _ _ _ Hb2 HA2) as [Ec2 Er2].
  destruct (trim_arc v1 v2 tw tx w x pre cl eps Hok1 Hb1 W0 W1 W2 Hw Hx Hwb Hwv) as (b & TR & TD). rewrite <- Ec1 in TR.
  destruct (on_within v1 v2 Hok1 Hb1 x eps He) as [In1 Dx1]. { exists tx. split; [lra|exact Hx]. }
  destruct (on_within u1 u2 Hok2 Hb2 x eps He) as [In2 Dx2]. { exists ty. split; [lra|exact Hy]. }
  rewrite <- Ec1 in In1, Dx1. rewrite <- Er1 in Dx1. rewrite <- Ec2 in In2, Dx2. rewrite <- Er2 in Dx2.
  assert (PR : arc_arc_process s1 s2 ccw eps (PL (pre ++ [w]) cl) c1 c2 x true
     = Ret (PL (pre ++ [with_bulge w b; vertex_at x (if Bool.eqb (rltb 0 (delta_angle (angle c2 x) (angle c2 (pos u2)))) (rltb 0 (pbulge u1))
                                              then bulge_from_angle (delta_angle (angle c2 x) (angle c2 (pos u2))) else pbulge u1)]) cl)).
  { unfold arc_arc_process. fold v1 v2 u1 u2. cbn [negb]. rewrite TR. cbn [rbind]. rewrite bulge_pos_R. rnum.
    assert (P : ~ is_point (pos (with_bulge w b)) (V2 (vx x) (vy x)) eps).
    { change (pos (with_bulge w b)) with (pos w). replace (V2 (vx x) (vy x)) with x by (destruct x; reflexivity). exact Hwx. }
    destruct (Bool.eqb _ _); f_equal; apply put_far; exact P. }
  specialize (GJ Dx1 Dx2 In1 In2).
  rewrite GJ, PR. eexists. split; [reflexivity|]. exists (with_bulge w b). eexists. split; [reflexivity|]. split; [reflexivity|].
  split; [apply pos_vertex_at|]. split; [apply TD, pos_vertex_at|].
  rewrite Ec2. now apply enter_arc.
Qed.

(** Two arcs that cross. *)
Lemma arcs_meet s1 s2 ccw eps pre w cl tw tx ty x y c1 r1 c2 r2 :
  let v1 := rs_v1 s1 in let v2 := rs_v2 s1 in let u1 := rs_v1 s2 in let u2 := rs_v2 s2 in
  let near := rs_orig_v2_pos s1 in
  0 < eps -> seg_ok v1 v2 -> pbulge v1 <> 0 -> arc_circle v1 v2 c1 r1 -> seg_ok u1 u2 -> pbulge u1 <> 0 -> arc_circle u1 u2 c2 r2 ->
  0 <= tw -> tw < tx -> tx <= 1 -> drawn v1 v2 tw 1 w v2 -> seg_at v1 v2 tx x ->
  0 <= ty -> ty < 1 -> seg_at u1 u2 ty x -> ~ is_point (pos w) x eps ->
  1 / 100000000 <= Rabs (pbulge w) -> ~ is_point (pos w) (pos v2) eps ->
  eps <= dist c1 c2 -> dist y c1 = r1 -> dist y c2 = r2 -> ~ is_point x y eps ->
  dist x near * dist x near + eps <= dist y near * dist y near ->
  exists vs, join_seg_pair ccw eps (PL (pre ++ [w]) cl) (s1, s2) = Ret (PL vs cl) /\ joined_at s1 s2 tw tx ty pre w x vs.
Proof.
  intros v1 v2 u1 u2 near He Hok1 Hb1 HA1 Hok2 Hb2 HA2 W0 W1 W2 Hw Hx Y0 Y1 Hy Hwx Hwb Hwv Hc Dy1 Dy2 Hxy Hnear.
  apply (arcs_from s1 s2 ccw eps pre w cl tw tx ty x c1 r1 c2 r2); try assumption. intros Dx1 Dx2 In1 In2.
  rewrite (arc_arc_pick s1 s2 ccw eps _ x y c1 r1 c2 r2); try assumption. unfold v1, v2, u1, u2 in In1, In2. rewrite In1, In2. reflexivity.
Qed.

(** Two arcs of circles that touch. *)
Lemma arcs_touch s1 s2 ccw eps pre w cl tw tx ty x c1 r1 c2 r2 :
  let v1 := rs_v1 s1 in let v2 := rs_v2 s1 in let u1 := rs_v1 s2 in let u2 := rs_v2 s2 in
  0 < eps -> seg_ok v1 v2 -> pbulge v1 <> 0 -> arc_circle v1 v2 c1 r1 -> seg_ok u1 u2 -> pbulge u1 <> 0 -> arc_circle u1 u2 c2 r2 ->
  0 <= tw -> tw < tx -> tx <= 1 -> drawn v1 v2 tw 1 w v2 -> seg_at v1 v2 tx x ->
  0 <= ty -> ty < 1 -> seg_at u1 u2 ty x -> ~ is_point (pos w) x eps ->
  1 / 100000000 <= Rabs (pbulge w) -> ~ is_point (pos w) (pos v2) eps ->
  eps <= dist c1 c2 -> (forall y, dist y c1 = r1 -> dist y c2 = r2 -> y = x) ->
  exists vs, join_seg_pair ccw eps (PL (pre ++ [w]) cl) (s1, s2) = Ret (PL vs cl) /\ joined_at s1 s2 tw tx ty pre w x vs.
Proof.
  intros v1 v2 u1 u2 He Hok1 Hb1 HA1 Hok2 Hb2 HA2 W0 W1 W2 Hw Hx Y0 Y1 Hy Hwx Hwb Hwv Hc U.
  apply (arcs_from s1 s2 ccw eps pre w cl tw tx ty x c1 r1 c2 r2); try assumption. intros Dx1 Dx2 In1 In2.
  destruct HA1 as (a1 & HA1), HA2 as (a2 & HA2).
  assert (HP1 : pos v1 <> pos v2) by (apply Hok1, Hb1). assert (HP2 : pos u1 <> pos u2) by (apply Hok2, Hb2).
  destruct (arc_unique _ _ _ _ _ _ Hb1 HA1) as [Ec1 Er1]. destruct (arc_unique _ _ _ _ _ _ Hb2 HA2) as [Ec2 Er2].
  assert (R1 : 0 <= r1) by apply HA1. assert (R2 : 0 <= r2) by apply HA2.
  unfold arc_arc_join. fold v1 v2 u1 u2. rewrite (arc_radius_and_center_eq v1 v2 HP1 Hb1), (arc_radius_and_center_eq u1 u2 HP2 Hb2), <- Ec1, <- Er1, <- Ec2, <- Er2.
  pose proof (circle_circle_spec r1 c1 r2 c2 eps He R1 R2) as CC.
  destruct (circle_circle_intr r1 c1 r2 c2 eps) as [|q|q1 q2|].
  - exfalso. now apply (CC x).
  - destruct CC as (_ & [(Q1 & Q2 & _)|(CC & _)]); [|exfalso; now apply (CC x)].
    rewrite (U q Q1 Q2). fold v1 v2 u1 u2 in In1, In2. cbv zeta. rewrite In1, In2. reflexivity.
  - exfalso. destruct CC as (N & A1 & A2 & B1 & B2 & _). apply N. rewrite (U q1 A1 A2), (U q2 B1 B2). split; rewrite Rminus_diag_eq, Rabs_R0; auto; lra.
  - exfalso. lra.
Qed.

