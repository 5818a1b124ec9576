(** An offset of which every place where it is cut is too near is empty (C81). *)
From Coq Require Import Reals ZArith Bool List Arith Lra Lia Permutation Sorted.
From Verif Require Import Num RNum Res ModelMath ModelSeg ModelPline ModelView ModelIndex ModelIntersects ModelOffset.
From Verif Require Import Spec SpecPline SpecGeom SpecBox SpecView SpecStitch SpecIndex SpecIntersects SpecShape SpecChain SpecCuts SpecClosest SpecOffNear SpecNothing.
From Verif Require Import ProofR ProofBase ProofIter ProofIntr ProofArc ProofCircleOff ProofOffNear2 ProofRepeat ProofWinding7 ProofRegion7 ProofCuts ProofCuts3 ProofPolyOff2.
Import ListNotations.

Section Any.
Context {T : Type} {N : Num T}.
Implicit Types (p raw : pline T) (o : offset_options T).

Lemma slice_ends raw sp i ep j eps d : view_from_slice_points raw sp i ep j eps = Ret (Some d) -> vd_end_point d = ep.
Proof.
  unfold view_from_slice_points. intros H.
  destruct (if negb (is_closed raw) && (j <=? i)%nat then _ else _) as [(si, b)|]; cbn [rbind] in H; [|discriminate].
  destruct (fwd_wrapping_dist raw si j) as [dd|]; cbn [rbind] in H; [|discriminate].
  destruct (if (dd =? 0)%nat && is_closed raw && _ then _ else _) as [tc|]; cbn [rbind] in H; [|discriminate].
  destruct (at_ raw si) as [v1|]; cbn [rbind] in H; [|discriminate].
  destruct (at_ raw (next_wrapping_index raw si)) as [v2|]; cbn [rbind] in H; [|discriminate].
  destruct (tc =? 0)%nat eqn:E0.
  - unfold create_on_single_segment in H. destruct (v2fuzzy_eq_eps _ _ _) in H; [discriminate|]. injection H as <-. reflexivity.
  - unfold view_create in H. rewrite E0 in H. destruct (at_ raw j) as [cv|]; cbn [rbind] in H; [|discriminate].
    destruct (if v2fuzzy_eq_eps ep (pos cv) eps then _ else _) as [(k, bb)|] in H; cbn [rbind] in H; [|discriminate]. injection H as <-. reflexivity.
Qed.

Lemma kept_any test vos ds d : kept test vos ds -> In d ds -> In (Some d) (vos : list (option (view_data T))) /\ exists b, b = true /\ test d b.
Proof.
  induction 1 as [|l ds K IH|d' l ds Y K IH|d' l ds Nn K IH]; intros I; [destruct I| | |].
  - destruct (IH I) as (A & B). split; [now right|exact B].
  - destruct I as [<-|I]; [split; [left; reflexivity|exists true; auto]|]. destruct (IH I) as (A & B). split; [now right|exact B].
  - destruct (IH I) as (A & B). split; [now right|exact B].
Qed.

Lemma any_slices_cuts p offset o raw slices : offset_slices p offset o raw slices ->
  exists cuts, offset_cuts p offset o raw cuts /\ cut_slices p offset o (is_closed p) raw cuts slices.
Proof.
  unfold offset_slices, offset_cuts. destruct (is_closed p && negb (oo_handle_self_intersects o)) eqn:E.
  - intros (pairs & PO & C). exists (self_cuts raw (oo_pos_equal_eps o) pairs). split; [eauto|]. apply andb_prop in E as (-> & _). exact C.
  - intros (dual & ED & (pairs & cross & ends & PO & CO & HE & C)). eexists. split; [|exact C]. exists dual, pairs, cross, ends. auto.
Qed.

Lemma last_of_path raw d : exists w, In w (view_path_of raw d) /\ pos w = vd_end_point d.
Proof.
  unfold view_path_of, spec_view. exists (Vtx (vx (vd_end_point d)) (vy (vd_end_point d)) nzero). split; [|unfold pos; cbn [px py]; destruct (vd_end_point d); reflexivity]. right. apply in_or_app. right. left. reflexivity.
Qed.

(** Where a stretch ends. *)
Lemma stretch_end round raw order x y : In (x, y) (stretches round raw order) ->
  In y order \/ (round = false /\ exists v, hd_error (rev (vtx raw)) = Some v /\ snd y = pos v).
Proof.
  unfold stretches. destruct round.
  - intros I. left. apply in_combine_r in I. apply in_app_or in I as [I|I]; [destruct order; [destruct I|now right]|]. destruct order; [destruct I|]. destruct I as [<-|[]]. now left.
  - cbv zeta. intros I. apply in_combine_r in I.
    assert (J : In y (order ++ match hd_error (rev (vtx raw)) with Some v => [((vertex_count raw - 1)%nat, pos v)] | None => [] end)).
    { destruct (hd_error (vtx raw)); cbn [app tl] in I; [exact I|]. destruct (order ++ _); [destruct I|now right]. }
    apply in_app_or in J as [J|J]; [now left|right]. split; [reflexivity|]. destruct (hd_error (rev (vtx raw))) as [v|]; [|destruct J]. destruct J as [<-|[]]. exists v. auto.
Qed.

Theorem cut_nothing mk p idx offset o raw : makes_index mk -> pline_index p idx -> (2 <= vertex_count p)%nat ->
  create_raw_offset_polyline p offset (oo_pos_equal_eps o) = Ret raw ->
  (forall v, hd_error (vtx raw) = Some v \/ (is_closed p = false /\ hd_error (rev (vtx raw)) = Some v) -> ~ clear_point p offset o (pos v)) ->
  (forall cuts i q, offset_cuts p offset o raw cuts -> In (i, q) cuts -> ~ clear_point p offset o q) ->
  parallel_offset mk p idx offset o = Ret [].
Proof.
  intros MK IDX TP ER HV HQ. destruct (offset_cut mk p idx offset o MK IDX TP) as (raw' & ER' & H). rewrite ER in ER'. injection ER' as <-.
  destruct H as [(_ & E)|(TR & slices & last & chains & Ks & OS & EO & AC & PM)]; [exact E|]. rewrite EO. f_equal.
  destruct (any_slices_cuts _ _ _ _ _ OS) as (cuts & OC & C0 & C1).
  assert (SE : slices = []).
  { assert (EC : cuts = [] \/ cuts <> []) by (destruct cuts; [left; reflexivity|right; discriminate]). destruct EC as [EC|EC].
    - destruct (C0 EC) as (d0 & b & E & -> & HB). destruct b; [exfalso|reflexivity]. destruct (vtx raw) as [|v l] eqn:EV; [unfold vertex_count in TR; rewrite EV in TR; cbn in TR; lia|].
      apply (HV v); [left; reflexivity|]. now apply HB.
    - destruct (C1 EC) as (order & vos & PMo & _ & _ & F & K). destruct slices as [|d ds]; [reflexivity|exfalso].
      destruct (kept_any _ _ _ d K (or_introl eq_refl)) as (I & b & -> & HB). destruct HB as (HB & _). destruct (HB eq_refl) as (CL & _).
      destruct (last_of_path raw d) as (w & Iw & Ew). specialize (CL w Iw). rewrite Ew in CL.
      apply In_nth_error in I as (m & Em). destruct (ProofOffNear2.Forall2_nth_error_r _ _ _ _ _ F Em) as ((x, y) & Exy & V). cbn [fst snd] in V. apply slice_ends in V. rewrite V in CL.
      apply nth_error_In in Exy. apply stretch_end in Exy as [Iy|(CP & v & Ev & Ey)].
      + destruct y as [i q]. apply (HQ cuts i q OC); [|exact CL]. now apply (Permutation_in _ PMo).
      + rewrite Ey in CL. apply (HV v); [right; auto|exact CL]. }
  subst slices. cbn [length seq] in PM. apply Permutation_sym, Permutation_nil in PM. unfold offset_results.
  destruct AC as [|chains' Ks' first c cur K AC NU EA CH CA]; [reflexivity|]. exfalso. rewrite concat_app in PM. cbn [concat] in PM. apply app_eq_nil in PM as (_ & PM). rewrite app_nil_r in PM. destruct c; discriminate.
Qed.
End Any.

Local Open Scope R_scope.

Lemma near_unclear (p : pline R) d o q : 0 < oo_pos_equal_eps o -> too_near p d o q -> ~ clear_point p d o q.
Proof.
  intros He (v1 & v2 & y & I & OK & ON & NM) CP. specialize (CP v1 v2 I). rnum. set (x := Rabs d - oo_offset_dist_eps o) in *. assert (D0 : 0 <= dist q y) by apply sqrt_pos.
  assert (OV : aabb_overlaps (seg_fast_approx_bounding_box v1 v2) (AABB (vx q - x) (vy q - x) (vx q + x) (vy q + x)) = true).
  { destruct (ProofBox2.fast_box v1 v2 y OK ON) as ((I1 & I2) & (I3 & I4)).
    assert (Y : Rabs (vx q - vx y) <= Rabs x /\ Rabs (vy q - vy y) <= Rabs x).
    { pose proof (dist_sqr q y) as Q. pose proof (Rle_0_sqr (vx q - vx y)) as Q1. pose proof (Rle_0_sqr (vy q - vy y)) as Q2. unfold Rsqr in Q1, Q2. assert (dist q y * dist q y <= x * x) by (apply Rmult_le_compat; lra). split; apply Rsqr_le_abs_0; unfold Rsqr; lra. }
    rewrite (Rabs_pos_eq x ltac:(lra)) in Y. destruct Y as (Y1 & Y2). apply Rabs_le_inv' in Y1, Y2.
    unfold aabb_overlaps. cbn [bmin_x bmin_y bmax_x bmax_y]. rnum. rewrite !(proj2 (rltb_false _ _)) by lra. reflexivity. }
  specialize (CP OV). destruct (ProofClosest2.seg_closest v1 v2 q _ OK He) as (_ & NF & _). specialize (NF y ON). unfold not_much_further in NF.
  rewrite ProofPolyOff2.dist_squared_dist in CP. revert CP. rewrite (dist_sym _ q). intros CP. apply rltb_true in CP.
  set (z := dist q y + 3 * oo_pos_equal_eps o) in *. assert (Z : 0 <= z) by (unfold z; lra). assert ((z + 1 / 5000) * (z + 1 / 5000) <= x * x) by (apply Rmult_le_compat; lra). nra.
Qed.

Theorem near_nothing mk (p : pline R) idx d o raw : makes_index mk -> pline_index p idx -> (2 <= vertex_count p)%nat -> 0 < oo_pos_equal_eps o ->
  create_raw_offset_polyline p d (oo_pos_equal_eps o) = Ret raw ->
  (forall v, hd_error (vtx raw) = Some v \/ (is_closed p = false /\ hd_error (rev (vtx raw)) = Some v) -> too_near p d o (pos v)) ->
  (forall cuts i q, offset_cuts p d o raw cuts -> In (i, q) cuts -> too_near p d o q) ->
  parallel_offset mk p idx d o = Ret [].
Proof.
  intros MK IDX TP He ER HV HQ. apply (cut_nothing mk p idx d o raw MK IDX TP ER).
  - intros v Hv. apply near_unclear; [exact He|auto].
  - intros cuts i q OC I. apply near_unclear; [exact He|]. exact (HQ cuts i q OC I).
Qed.
