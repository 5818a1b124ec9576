(** The offset of a polygon whose raw offset keeps the distance: which points it is made of, its direction and area, and
    the offset with self-intersection handling (C78). *)
From Coq Require Import Reals ZArith Bool List Arith Lra Lia Psatz Classical.
From Verif Require Import Num RNum Res ModelMath ModelIntr ModelSeg ModelPline ModelView ModelSegIntr ModelIndex ModelIntersects ModelBoolean ModelOffset.
From Verif Require Import Spec SpecPline SpecGeom SpecIntr SpecSegIntr SpecWinding SpecOffset SpecOffsetJoin SpecIndex SpecIntersects SpecCuts SpecOffNear SpecBoolean SpecView SpecBox SpecPrune SpecPolyOff SpecJordan SpecConvex SpecRound SpecCurve SpecSimple SpecRegion.
From Verif Require Import ProofR ProofArc ProofWhole ProofPolyOff ProofPolyOff2 ProofWinding6 ProofWinding7 ProofNest ProofOverlap ProofRay ProofConvexOff ProofRound1 ProofOff1 ProofOff2 ProofOff3 ProofOff5 ProofOff6 ProofOff7 ProofOff8 ProofArea6 ProofJordan ProofTotal4.
From Verif Require ProofIntr ProofConvex ProofJordan2 ProofJordan5 ProofOffsetJoin4 ProofWinding2 ProofSlice ProofCurve1 ProofSegIntr ProofSegIntr2 ProofSegIntr3 ProofOffsetJoin2 ProofOffsetJoin2.
Import ListNotations.
Local Open Scope R_scope.

Section Level.
Variables (ps : list (vec2 R)) (d : R) (o : offset_options R) (vss : list (list (vertex R))) (A : R).
Let p := polygon ps.
Let raw := PL (going_round vss) true.
Let eps := oo_pos_equal_eps o.
Hypothesis He : 0 < eps.
Hypothesis Hd : d <> 0.
Hypothesis Po : passes_once p.
Hypothesis MC : made_corners p d eps vss.
Hypothesis LP : lone_path eps raw.
Hypothesis Keep : forall q y, on_path raw q -> on_path p y -> Rabs d <= dist q y.
Hypothesis EA : area p = Ret A.

Lemma lv_direction : exists u, orientation p = Ret u /\ (once u = 1%Z \/ once u = (-1)%Z) /\ 0 < IZR (once u) * A
  /\ (forall x, ~ on_path p x -> wn p x = 0%Z \/ wn p x = once u) /\ (0 < IZR (once u) * d <-> 0 < d * A).
Proof.
  pose proof (wo_valid ps d o vss Po MC LP Keep) as Vl. pose proof (ProofConvex.polygon_ok ps) as Okp. destruct (loop_direction p Okp Vl Po) as (u & A' & Eo & No & EA' & S & Wn & _). rewrite EA in EA'. injection EA' as <-.
  exists u. assert (Ho : once u = 1%Z \/ once u = (-1)%Z) by (destruct u; cbn; auto; now destruct No).
  split; [exact Eo|]. split; [exact Ho|]. split; [exact S|]. split; [intros x O; apply (Wn x _ O), winding_wn|].
  destruct Ho as [E|E]; rewrite E in *; destruct (Rdichotomy _ _ Hd) as [Q|Q]; split; intros Y; try (exfalso; lra); nra.
Qed.

Lemma lv_diff a b : In (a, b) (spec_segs (vtx raw) true) -> pos a <> pos b.
Proof. intros I; destruct (In_nth_error _ _ I) as (i & E); exact (proj2 (proj2 (lp_seg raw eps He LP i a b E))). Qed.

Theorem level x : on_path raw x <->
  (inside p x = true <-> 0 < d * A) /\ (forall y, on_path p y -> Rabs d <= dist x y) /\ exists y, on_path p y /\ dist x y = Rabs d.
Proof.
  destruct lv_direction as (u & _ & Ho & _ & W & SG). pose proof (wo_valid ps d o vss Po MC LP Keep) as Vl. pose proof (wo_made ps d o vss MC) as WM. fold p eps in WM. fold p in Vl.
  assert (Ed : 0 < Rabs d) by now apply Rabs_pos_lt. split.
  - intros O. split; [|split].
    + rewrite <- SG. exact (right_side ps d eps vss (once u) Hd He Vl Po Ho W WM (lp_ok raw eps He LP) Keep lv_diff x O).
    + intros y Oy. now apply Keep.
    + exact (touches ps d eps vss (once u) Hd He Vl Po W WM x O).
  - intros (Sd & F & y & Oy & D). apply (covers_all ps d eps vss (once u) Hd He Vl Po Ho W WM x y); [|rewrite SG; exact Sd|exact F|exact Oy|exact D].
    intros O. specialize (F x O). rewrite ProofJordan5.dist_self in F. lra.
Qed.

Theorem same_sense : orientation raw = orientation p /\ exists B, area raw = Ret B /\ 0 < A * B.
Proof.
  destruct lv_direction as (u & Eo & Ho & SA & W & SG). pose proof (wo_valid ps d o vss Po MC LP Keep) as Vl. pose proof (wo_made ps d o vss MC) as WM. fold p eps in WM. fold p in Vl.
  pose proof (lp_ok raw eps He LP) as Okr. pose proof (lp_valid raw eps LP) as Vlr. pose proof (lp_once raw eps He LP) as Por.
  destruct (loop_direction raw Okr Vlr Por) as (u' & B & Eo' & No' & EB & SB & Wn' & _).
  assert (Ho' : once u' = 1%Z \/ once u' = (-1)%Z) by (destruct u'; cbn; auto; now destruct No').
  assert (W' : forall x, ~ on_path raw x -> wn raw x = 0%Z \/ wn raw x = once u') by (intros x O; apply (Wn' x _ O), winding_wn).
  assert (Ed : 0 < Rabs d) by now apply Rabs_pos_lt.
  cut (once u' = once u).
  { intros Q. split.
    - rewrite Eo, Eo'. f_equal. pose proof (ProofConvex.polygon_ok ps) as Okp. destruct (loop_direction p Okp Vl Po) as (u2 & _ & Eo2 & No2 & _). rewrite Eo in Eo2. injection Eo2 as <-. destruct u, u'; cbn in Q; congruence.
    - exists B. split; [exact EB|]. rewrite Q in SB. destruct Ho as [E|E]; rewrite E in *; nra. }
  destruct (side_nth ps Vl 0) as (b & c & E); [pose proof (cv_n ps Vl); lia|].
  assert (Nbc : b <> c).
  { intros Q. rewrite Q in E. assert (A0 : point_at p 0 0 c) by (apply (side_point ps _ _ _ _ E); [lra|apply line_pt_ends]). assert (A1 : point_at p 0 (1 / 2) c) by (apply (side_point ps _ _ _ _ E); [lra|cbn [fst snd]; unfold line_pt; apply vec2_eq; cbn [vx vy]; ring]).
    destruct (Po _ _ _ _ _ A0 A1 ltac:(lra) ltac:(lra)). lra. }
  assert (exists m, left_normal b c m) as (m & N) by (eexists; apply ProofOffsetJoin4.left_normal_exists; exact Nbc).
  destruct (side_line ps d eps vss (once u) Hd He Vl Po W WM 0 b c m E N) as (v & v' & u1 & t & J & Bv & Pv & Pv' & Hu & Ht & T1 & T2).
  assert (ON : forall k, 0 <= k <= 1 -> on_path raw (line_pt (pos v) (pos v') k)). { intros k Hk. exists v, v'. split; [exact J|]. exists k. split; [exact Hk|]. apply seg_at_line; [exact Bv|reflexivity]. }
  assert (UT : u1 < t).
  { destruct (Rtotal_order u1 t) as [L|[L|L]]; [exact L| |]; exfalso.
    - apply (lv_diff v v' J). rewrite Pv, Pv', L. reflexivity.
    - destruct (T2 u1 ltac:(lra)) as (y & On & D). pose proof (Keep (pos v) y) as K. rewrite moved_line, <- Pv in D. destruct (line_pt_ends (pos v) (pos v')) as (X0 & _). rewrite <- X0 in K at 1. specialize (K (ON 0 ltac:(lra)) On). lra. }
  set (s := (u1 + t) / 2). set (f := line_pt b c s). set (z := moved f m d).
  assert (Ez : z = line_pt (pos v) (pos v') (1 / 2)) by (unfold z, f; rewrite moved_line, Pv, Pv'; unfold s, line_pt; apply vec2_eq; cbn [vx vy]; field).
  assert (Of : on_path p f) by (apply ProofConvex.polygon_path; exists b, c, s; split; [exact (nth_error_In _ _ E)|]; split; [unfold s; lra|reflexivity]).
  destruct (inside_left raw (v, v') (1 / 2) z (once u') Okr Vlr Por J ltac:(lra)) as (r & Hr & IL); [apply seg_at_line; [exact Bv|exact Ez]|exact Ho'|exact W'|].
  set (k := Rmin (1 / 2) (r / (2 * Rabs d))). assert (Hk : 0 < k <= 1 / 2) by (split; [apply Rmin_glb_lt; [lra|apply Rdiv_lt_0_compat; lra]|apply Rmin_l]).
  assert (Kr : k * Rabs d < r). { assert (k <= r / (2 * Rabs d)) by apply Rmin_r. apply Rle_lt_trans with (r / (2 * Rabs d) * Rabs d); [apply Rmult_le_compat_r; lra|]. replace (r / (2 * Rabs d) * Rabs d) with (r / 2) by (field; lra). lra. }
  destruct (normal_dir _ _ _ N) as (U & Lp & Xc & Yc).
  set (x := moved f m ((1 - k) * d)).
  assert (MD : forall e1 e2, dist (moved f m e1) (moved f m e2) = Rabs (e1 - e2)).
  { intros e1 e2. rewrite <- (Rabs_pos_eq (dist _ _)) by apply ProofIntr.dist_pos. apply Rsqr_eq_abs_0. unfold Rsqr. rewrite ProofIntr.dist_sqr. unfold moved. cbn [vx vy]. transitivity ((e1 - e2) * (e1 - e2) * (vx m * vx m + vy m * vy m)); [ring|rewrite U; ring]. }
  assert (Dx : dist z x < r). { unfold z, x. rewrite MD. replace (d - (1 - k) * d) with (k * d) by ring. rewrite Rabs_mult, (Rabs_pos_eq k) by lra. exact Kr. }
  assert (Df : dist x f < Rabs d). { replace f with (moved f m 0) by (unfold moved; apply vec2_eq; cbn [vx vy]; ring). unfold x. rewrite MD, Rminus_0_r, Rabs_mult, (Rabs_pos_eq (1 - k)) by lra. nra. }
  assert (SX : sideof (v, v') x = - (k * (t - u1) * dist b c) * d).
  { unfold sideof. cbn [fst snd]. rewrite Bv. unfold ProofWinding2.perp.
    assert (P1 : px v = vx (line_pt (moved b m d) (moved c m d) u1)) by (rewrite <- Pv; reflexivity). assert (P2 : py v = vy (line_pt (moved b m d) (moved c m d) u1)) by (rewrite <- Pv; reflexivity).
    assert (P3 : px v' = vx (line_pt (moved b m d) (moved c m d) t)) by (rewrite <- Pv'; reflexivity). assert (P4 : py v' = vy (line_pt (moved b m d) (moved c m d) t)) by (rewrite <- Pv'; reflexivity).
    rewrite P1, P2, P3, P4. unfold x, f, line_pt, moved. cbn [vx vy]. rewrite Xc, Yc. transitivity (- (k * (t - u1) * dist b c) * d * (vx m * vx m + vy m * vy m)); [ring|rewrite U; ring]. }
  assert (KP : 0 < k * (t - u1) * dist b c) by (apply Rmult_lt_0_compat; [apply Rmult_lt_0_compat; lra|exact Lp]). set (K := k * (t - u1) * dist b c) in *.
  assert (SN : sideof (v, v') x <> 0) by (rewrite SX; intros Q; destruct (Rmult_integral _ _ Q); lra).
  destruct (IL x Dx SN) as (Nx & IX). rewrite SX in IX.
  destruct (wo_region ps d o vss He Hd Po MC LP Keep A EA) as (RI & RO). fold raw p in RI, RO.
  assert (G : 0 < d * A \/ d * A < 0). { assert (A <> 0) by (intros Q; rewrite Q in SA; lra). assert (Q : d * A <> 0) by now apply Rmult_integral_contrapositive. lra. }
  assert (Q : 0 < IZR (once u') * d <-> 0 < IZR (once u) * d).
  { rewrite SG. split; intros Y.
    - destruct G as [G|G]; [exact G|]. exfalso. assert (I : inside raw x = true) by (apply (RO G x Nx); right; right; exists f; split; [exact Of|lra]). apply IX in I. assert (0 < K * (IZR (once u') * d)) by now apply Rmult_lt_0_compat. lra.
    - destruct (Rdichotomy _ _ Hd) as [Q|Q]; destruct Ho' as [Ho'|Ho']; rewrite Ho' in *; try lra; exfalso.
      + assert (I : inside raw x = true) by (apply IX; assert (0 < K * - d) by (apply Rmult_lt_0_compat; lra); lra). apply (RI Y x Nx) in I as (_ & _ & F). specialize (F f Of). lra.
      + assert (I : inside raw x = true) by (apply IX; assert (0 < K * d) by (apply Rmult_lt_0_compat; lra); lra). apply (RI Y x Nx) in I as (_ & _ & F). specialize (F f Of). lra. }
  destruct Ho as [Ho|Ho], Ho' as [Ho'|Ho']; rewrite Ho, Ho' in *; try reflexivity; exfalso; destruct (Rdichotomy _ _ Hd); lra.
Qed.

Theorem nested_areas B : area raw = Ret B -> (0 < d * A -> Rabs B <= Rabs A) /\ (d * A < 0 -> Rabs A <= Rabs B).
Proof.
  intros EB. pose proof (wo_valid ps d o vss Po MC LP Keep) as Vl. pose proof (ProofConvex.polygon_ok ps) as Okp.
  pose proof (lp_ok raw eps He LP) as Okr. pose proof (lp_valid raw eps LP) as Vlr. pose proof (lp_once raw eps He LP) as Por.
  destruct (wo_region ps d o vss He Hd Po MC LP Keep A EA) as (RI & RO). fold raw p in RI, RO.
  split; intros D.
  - apply (nested_area raw p B A Okr Okp Vlr Vl Por Po EB EA). intros x Nx _ I. now apply (RI D x Nx) in I as (_ & I & _).
  - apply (nested_area p raw A B Okp Okr Vl Vlr Po Por EA EB). intros x _ Nx I. apply (RO D x Nx). auto.
Qed.
End Level.

Lemma touch_once a b c r t t' : a <> b -> dist (line_pt a b t) c = r -> dist (line_pt a b t') c = r -> (forall k, r <= dist (line_pt a b k) c) -> t = t'.
Proof.
  intros N D D' M. destruct (Req_dec t t') as [E|E]; [exact E|exfalso]. specialize (M ((t + t') / 2)). assert (R0 : 0 <= r) by (rewrite <- D; apply ProofIntr.dist_pos).
  pose proof (ProofIntr.dist_sqr (line_pt a b t) c) as Q. pose proof (ProofIntr.dist_sqr (line_pt a b t') c) as Q'. pose proof (ProofIntr.dist_sqr (line_pt a b ((t + t') / 2)) c) as Qm. rewrite D in Q. rewrite D' in Q'.
  assert (L : 0 < (vx b - vx a) * (vx b - vx a) + (vy b - vy a) * (vy b - vy a)).
  { assert (H : vx b - vx a <> 0 \/ vy b - vy a <> 0). { destruct (Req_dec (vx b - vx a) 0); [|now left]. right. intros Y. apply N. apply vec2_eq; lra. }
    pose proof (Rle_0_sqr (vx b - vx a)) as S1. pose proof (Rle_0_sqr (vy b - vy a)) as S2. unfold Rsqr in *. destruct H as [H|H]; apply Rsqr_pos_lt in H; unfold Rsqr in H; lra. }
  assert (T : 0 < (t - t') * (t - t')) by (apply (Rsqr_pos_lt (t - t')); lra).
  pose proof (Rmult_lt_0_compat _ _ T L) as P. assert (r * r <= dist (line_pt a b ((t + t') / 2)) c * dist (line_pt a b ((t + t') / 2)) c) by (apply Rmult_le_compat; lra).
  unfold line_pt in *. cbn [vx vy] in *. lra.
Qed.

Lemma touch_none eps v1 v2 u1 u2 ul : 0 < eps -> seg_ok u1 u2 -> touches_elsewhere eps v1 v2 u1 u2 -> line_arc_intr (pos v1) (pos v2) u1 u2 ul eps = SINoIntersect.
Proof.
  intros He Ok (Z1 & Z2 & Hp & Hd & W & N1 & N2 & c & r & t & AC & D & M & NN). assert (HP : pos u1 <> pos u2) by (apply Ok, Z2).
  destruct AC as (al & A). destruct (ProofArc.arc_unique _ _ _ _ _ _ Z2 A) as (Ec & Er).
  assert (Hv : pos v1 <> pos v2) by (apply (ProofIntr.fuzzy_false_neq _ _ eps He), ProofIntr.not_point_R; exact Hp).
  unfold line_arc_intr. rewrite (arc_radius_and_center_eq u1 u2 HP Z2). rewrite <- Ec, <- Er.
  assert (F : forall e, ~ near_seg u1 u2 eps e -> point_lies_on_arc r c u1 u2 eps e = false).
  { intros e I. apply not_true_is_false. intros T. apply I. rewrite Ec, Er in T. apply (ProofSegIntr.lies_near u1 u2 Ok Z2 eps eps e); auto. lra. }
  rewrite (F _ N1), (F _ N2). pose proof (ProofIntr.line_circle_main (pos v1) (pos v2) r c eps He Hp Hd) as LM.
  destruct (line_circle_intr _ _ _ _ _) as [|t'|t0 t1]; [reflexivity| |].
  - destruct LM as (L1 & _). assert (D' : dist (line_pt (pos v1) (pos v2) t') c = r) by (pose proof (L1 t); pose proof (M t'); lra).
    pose proof (touch_once _ _ _ _ _ _ Hv D D' M) as <-.
    destruct (point_in_sweep (pos v1) (pos v2) c u1 u2 eps t) as [y|] eqn:Ey; [|reflexivity]. exfalso. rewrite Ec in Ey.
    destruct (ProofSegIntr2.in_sweep_some _ _ _ _ _ _ _ Ey) as (-> & IR & IW). destruct NN as [NN|NN]; apply NN.
    + eapply ProofSegIntr3.near_line; [exact Z1|exact He|reflexivity|exact IR].
    + apply (ProofSegIntr.within_near u1 u2 Ok Z2 _ eps eps); [lra|exact W| |exact IW]. rewrite <- Ec, <- Er, D, Rminus_diag_eq, Rabs_R0 by reflexivity. lra.
  - exfalso. destruct LM as (_ & _ & L). destruct L as (_ & _ & _ & _ & k & K); [exists t; lra|]. specialize (M k). lra.
Qed.

Section Dual.
Variables (mk : list (aabb R) -> sindex R) (ps : list (vec2 R)) (d : R) (o : offset_options R) (vss wss : list (list (vertex R))).
Let p := polygon ps.
Let raw := PL (going_round vss) true.
Let dual := PL (going_round wss) true.
Let eps := oo_pos_equal_eps o.
Hypothesis He : 0 < eps.
Hypothesis Po : passes_once p.
Hypothesis MC : made_corners p d eps vss.
Hypothesis MD : made_corners p (- d) eps wss.
Hypothesis LP : lone_path eps raw.
Hypothesis CD : clear_pline eps dual.
Hypothesis CM : clearly_miss eps raw dual.
Hypothesis Keep : forall q y, on_path raw q -> on_path p y -> Rabs d <= dist q y.

Lemma dual_cross ij : cross_pair raw dual eps ij = [].
Proof.
  destruct ij as (i, j). unfold cross_pair. destruct (nth_error (spec_segs (vtx raw) (is_closed raw)) i) as [(a, b)|] eqn:E1; [|reflexivity]. destruct (nth_error (spec_segs (vtx dual) (is_closed dual)) j) as [(c, e)|] eqn:E2; [|reflexivity].
  pose proof (proj1 (lp_seg raw eps He LP _ _ _ E1)) as Ok1. pose proof (proj1 (CD _ _ (nth_error_In _ _ E2))) as Ok2.
  assert (Z : pline_seg_intr a b c e eps = SINoIntersect); [|rewrite Z; reflexivity].
  destruct (CM a b c e (nth_error_In _ _ E1) (nth_error_In _ _ E2)) as [(SC & No)|[T|T]].
  - destruct (ProofCurve1.sides_exact eps a b c e He Ok1 Ok2 SC) as (NO & RP & _).
    assert (Z : forall q, ~ reported (pline_seg_intr a b c e eps) q) by (intros q Rq; apply RP in Rq as (O1 & O2); exact (No q O1 O2)).
    destruct (pline_seg_intr a b c e eps) as [|q|q|q q'|q q'|q q']; [reflexivity| | | |destruct NO..]; exfalso; apply (Z q); cbn [reported]; auto.
  - pose proof T as (Z1 & Z2 & _). unfold pline_seg_intr. rewrite (ProofOffsetJoin2.is_zero_line a Z1), (ProofOffsetJoin2.is_zero_arc c e Ok2 Z2). cbn [andb]. now apply touch_none.
  - pose proof T as (Z1 & Z2 & _). unfold pline_seg_intr. rewrite (ProofOffsetJoin2.is_zero_line c Z1), (ProofOffsetJoin2.is_zero_arc a b Ok1 Z2). cbn [andb]. now apply touch_none.
Qed.

Theorem dual_path idx : makes_index mk -> pline_index p idx -> 0 < oo_slice_join_eps o -> 0 < oo_offset_dist_eps o < 2 * Rabs d -> parallel_offset mk p idx d o = Ret [raw].
Proof.
  intros MK IDX Hj Ho. destruct (oo_handle_self_intersects o) eqn:HS; [|now apply wo_path].
  destruct (wo_valid ps d o vss Po MC LP Keep) as (VC & _). pose proof (lp_n raw eps LP) as L3. cbn [vtx raw] in L3.
  assert (exists v w l, going_round vss = v :: w :: l) as (v & w & l & EG) by (destruct (going_round vss) as [|v [|w l]]; [cbn in L3; lia..|eauto]).
  assert (Ov : on_path raw (pos v)).
  { exists v, w. unfold raw. cbn [is_closed vtx]. rewrite EG. split; [now left|]. exists 0. split; [lra|]. apply ProofSlice.seg_at_0.
    - apply (lp_ok raw eps He LP). unfold raw. cbn [is_closed vtx]. rewrite EG. now left. }
  apply (uncut_whole mk p idx d o raw MK IDX) with (v := v).
  - exact VC.
  - reflexivity.
  - apply made_raw; [exact He|apply wo_polygon|exact VC|exact MC].
  - unfold vertex_count, raw. cbn [vtx]. lia.
  - intros cuts. unfold offset_cuts. change (is_closed p) with true. rewrite HS. cbn [negb andb]. intros (dual' & pairs & cross & ends & ED & PO & _ & -> & ->).
    assert (Q : create_raw_offset_polyline p (- d) eps = Ret dual) by (apply made_raw; [exact He|apply wo_polygon|exact VC|exact MD]).
    assert (X : Ret dual' = Ret dual) by (rewrite <- Q, <- ED; reflexivity). injection X as ->. fold eps dual.
    rewrite (lp_no_cuts raw eps He LP pairs PO). unfold dual_cuts.
    assert (Z : flat_map (cross_pair raw dual eps) cross = []) by (clear - He LP CD CM; induction cross as [|ij c IH]; [reflexivity|cbn [flat_map]; rewrite dual_cross; exact IH]).
    rewrite Z. reflexivity.
  - exact Hj.
  - intros a b I. apply ProofIntr.not_point_R. destruct (In_nth_error _ _ I) as (i & E). exact (proj1 (proj2 (lp_seg raw eps He LP i a b E))).
  - unfold raw. cbn [vtx]. rewrite EG. reflexivity.
  - apply clear_lies; [apply wo_polygon|exact He|]. intros v1 v2 q I ON. pose proof (Keep (pos v) q Ov) as K. assert (Oq : on_path p q) by (exists v1, v2; split; assumption). specialize (K Oq). eapply Rlt_le_trans; [|exact K]. apply Rabs_def1; lra.
Qed.
End Dual.

Theorem simple_path ps d o vss A : let p := polygon ps in let raw := PL (going_round vss) true in
  0 < oo_pos_equal_eps o -> d <> 0 -> passes_once p -> area p = Ret A ->
  made_corners p d (oo_pos_equal_eps o) vss -> lone_path (oo_pos_equal_eps o) raw -> (forall q y, on_path raw q -> on_path p y -> Rabs d <= dist q y) ->
  (forall x, on_path raw x <-> (inside p x = true <-> 0 < d * A) /\ (forall y, on_path p y -> Rabs d <= dist x y) /\ exists y, on_path p y /\ dist x y = Rabs d)
  /\ orientation raw = orientation p
  /\ exists B, area raw = Ret B /\ 0 < A * B /\ (0 < d * A -> Rabs B <= Rabs A) /\ (d * A < 0 -> Rabs A <= Rabs B).
Proof.
  intros p raw He Hd Po EA MC LP Keep. split; [intros x; exact (level ps d o vss A He Hd Po MC LP Keep EA x)|].
  destruct (same_sense ps d o vss A He Hd Po MC LP Keep EA) as (E & B & EB & S). split; [exact E|]. exists B. split; [exact EB|]. split; [exact S|].
  exact (nested_areas ps d o vss A He Hd Po MC LP Keep EA B EB).
Qed.

Theorem simple_handled mk ps idx d o vss wss : let p := polygon ps in let raw := PL (going_round vss) true in let dual := PL (going_round wss) true in
  makes_index mk -> pline_index p idx -> 0 < oo_pos_equal_eps o -> 0 < oo_slice_join_eps o -> 0 < oo_offset_dist_eps o < 2 * Rabs d -> passes_once p ->
  made_corners p d (oo_pos_equal_eps o) vss -> lone_path (oo_pos_equal_eps o) raw -> (forall q y, on_path raw q -> on_path p y -> Rabs d <= dist q y) ->
  made_corners p (- d) (oo_pos_equal_eps o) wss -> clear_pline (oo_pos_equal_eps o) dual -> clearly_miss (oo_pos_equal_eps o) raw dual ->
  parallel_offset mk p idx d o = Ret [raw].
Proof. intros p raw dual MK IX He Hj Ho Po MC LP Keep MD CD CM. exact (dual_path mk ps d o vss wss He Po MC MD LP CD CM Keep idx MK IX Hj Ho). Qed.
