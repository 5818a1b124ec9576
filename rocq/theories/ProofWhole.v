(** A raw offset that is not cut is the result or nothing is (C59). *)
From Coq Require Import Reals ZArith Bool List Arith Lra Lia Permutation.
From Verif Require Import Num RNum Res ModelMath ModelSeg ModelPline ModelView ModelIndex ModelIntersects ModelOffset.
From Verif Require Import Spec SpecPline SpecGeom SpecIntr SpecView SpecStitch SpecIndex SpecIntersects SpecShape SpecChain SpecCuts SpecOffsetJoin SpecOffNear.
From Verif Require Import ProofR ProofBase ProofIter ProofIntr ProofView ProofRepeat ProofWinding7 ProofRegion4 ProofRegion7 ProofChain2 ProofCuts ProofCuts3 ProofOffNear ProofOffNear4.
Import ListNotations.
Local Open Scope R_scope.

Lemma rebulge_same (l : list (vertex R)) x : rebulge_last (l ++ [x]) (pbulge x) = l ++ [x].
Proof.
  induction l as [|a l IH]; [cbn; destruct x; reflexivity|]. destruct l as [|b l]; cbn in *; [destruct x; reflexivity|]. now rewrite IH.
Qed.

Lemma whole_path (raw : pline R) d v l : view_from_entire_pline raw = Ret d -> is_closed raw = true -> vtx raw = v :: l -> l <> [] ->
  view_path_of raw d = vtx raw ++ [vertex_at (pos v) 0].
Proof.
  intros E HC HV NE. destruct (exists_last NE) as (m & x & ->). destruct raw as [w c]. cbn in HC, HV. subst c w.
  assert (L : length (v :: m ++ [x]) = S (S (length m))) by (cbn; rewrite app_length; cbn; lia).
  unfold view_from_entire_pline, vertex_count in E. cbn [vtx is_closed] in E. rewrite L in E. cbn [Nat.ltb Nat.leb] in E.
  unfold at_, index in E. cbn [vtx nth_error] in E. change (v :: m ++ [x]) with ((v :: m) ++ [x]) in E. rewrite last_snoc_pline in E. cbn [rbind unwrap] in E.
  injection E as <-. unfold view_path_of, spec_view, spec_following, spec_rotate. cbn [vd_updated_start vd_start_index vd_end_index_offset vd_updated_end_bulge vd_end_point vtx].
  change (skipn (0 + 1) (v :: m ++ [x]) ++ firstn (0 + 1) (v :: m ++ [x])) with ((m ++ [x]) ++ [v]). change (S (S (length m)) - 1)%nat with (S (length m)).
  replace (firstn (S (length m)) ((m ++ [x]) ++ [v])) with (m ++ [x]).
  2:{ replace (S (length m)) with (length (m ++ [x]) + 0)%nat by (rewrite app_length; cbn; lia). rewrite firstn_app_2, firstn_O, app_nil_r. reflexivity. }
  rewrite rebulge_same. reflexivity.
Qed.

Lemma single_chain (raw : pline R) d0 je last eps chains Ks : no_repeat (close_by eps) (view_path_of raw d0) ->
  all_chained (path_at raw [d0]) (next_at [d0] je) (nearest_ahead [d0] last eps) true eps chains Ks -> Permutation (concat chains) [0%nat] ->
  Ks = [view_path_of raw d0].
Proof.
  intros NR AC PM. destruct AC as [|chains' Ks' first c cur K AC NU EA CH CA].
  - cbn [concat] in PM. apply Permutation_nil in PM. discriminate.
  - rewrite concat_app in PM. cbn [concat] in PM. rewrite app_nil_r in PM. apply Permutation_sym, Permutation_length_1_inv in PM.
    assert (CC : concat chains' = [] /\ c = [] /\ cur = 0%nat).
    { destruct (concat chains') as [|x t]; cbn in PM.
      - destruct c as [|y c]; cbn in PM; [injection PM as ->; auto|]. injection PM as _ PM. destruct c; discriminate.
      - injection PM as _ PM. destruct t, c; discriminate. }
    destruct CC as (C0 & -> & ->).
    assert (KE : Ks' = []).
    { destruct AC as [|? ? ? ? ? ? ? ? ? ? ?]; [reflexivity|]. rewrite concat_app in C0. cbn [concat] in C0. apply app_eq_nil in C0 as (_ & C0). rewrite app_nil_r in C0. destruct c; discriminate. }
    subst Ks'. cbn [app]. f_equal. cbn [app] in CH. inversion CH as [l rs P R E1 E2|c' cur' K' v avail b l rs S CA' CH' P R E1 E2].
    + subst. destruct P as (d1 & Ed & ->). cbn in Ed. injection Ed as <-. apply (runs_single (close_by eps)); assumption.
    + exfalso. destruct c'; [|destruct c']; discriminate.
Qed.

Section Whole.
Context (mk : list (aabb R) -> sindex R) (p : pline R) (idx : sindex R) (d : R) (o : offset_options R) (raw : pline R).
Hypothesis MK : makes_index mk.
Hypothesis IDX : pline_index p idx.
Hypothesis TP : (2 <= vertex_count p)%nat.
Hypothesis HC : is_closed p = true.
Hypothesis ER : create_raw_offset_polyline p d (oo_pos_equal_eps o) = Ret raw.
Hypothesis TR : (2 <= vertex_count raw)%nat.
Hypothesis NC : forall cuts, offset_cuts p d o raw cuts -> cuts = [].

Lemma uncut_none v : hd_error (vtx raw) = Some v -> ~ clear_point p d o (pos v) -> parallel_offset mk p idx d o = Ret [].
Proof.
  intros HV N. destruct (offset_cut mk p idx d o MK IDX TP) as (raw' & ER' & H). rewrite ER in ER'. injection ER' as <-.
  destruct H as [(Z & _)|(_ & slices & last & chains & Ks & OS & EO & AC & PM)]; [lia|]. rewrite EO. f_equal.
  destruct (offset_slices_cuts _ _ _ _ _ OS) as (cuts & OC & CS). apply NC in OC. subst cuts. destruct CS as (C0 & _).
  destruct (C0 eq_refl) as (d0 & b & E & -> & HB). destruct b.
  - exfalso. apply N. destruct HB as (HB & _). now apply HB.
  - cbn [length seq] in PM. apply Permutation_sym, Permutation_nil in PM. unfold offset_results.
    destruct AC as [|chains' Ks' first c cur K AC NU EA CH CA]; [reflexivity|]. exfalso. rewrite concat_app in PM. cbn [concat] in PM. apply app_eq_nil in PM as (_ & PM). rewrite app_nil_r in PM. destruct c; discriminate.
Qed.

Lemma uncut_whole v : 0 < oo_slice_join_eps o -> (forall a b, In (a, b) (spec_segs (vtx raw) true) -> v2fuzzy_eq_eps (pos a) (pos b) (oo_pos_equal_eps o) = false) ->
  hd_error (vtx raw) = Some v -> clear_point p d o (pos v) -> parallel_offset mk p idx d o = Ret [raw].
Proof.
  intros Hj NF HV CP. destruct (offset_cut mk p idx d o MK IDX TP) as (raw' & ER' & H). rewrite ER in ER'. injection ER' as <-.
  destruct H as [(Z & _)|(_ & slices & last & chains & Ks & OS & EO & AC & PM)]; [lia|]. rewrite EO. f_equal.
  assert (RC : is_closed raw = true) by (rewrite (raw_closed _ _ _ _ ER); [exact HC|lia]).
  destruct (offset_slices_cuts _ _ _ _ _ OS) as (cuts & OC & CS). apply NC in OC. subst cuts. destruct CS as (C0 & _).
  destruct (C0 eq_refl) as (d0 & b & E & -> & HB). replace b with true in * by (symmetry; apply HB; intros w; rewrite HV; intros [= <-]; exact CP).
  destruct (vtx raw) as [|v' l] eqn:EV; [discriminate|]. cbn in HV. injection HV as ->.
  assert (NE : l <> []) by (intros ->; unfold vertex_count in TR; rewrite EV in TR; cbn in TR; lia).
  pose proof (whole_path raw d0 v l E RC EV NE) as WP. cbn [length seq] in PM.
  assert (K : Ks = [view_path_of raw d0]).
  { apply (single_chain raw d0 (oo_slice_join_eps o) last (oo_pos_equal_eps o) chains Ks); [|exact AC|exact PM]. apply all_pairs_no_repeat. intros (a, w) I. rewrite WP, EV in I. cbn [fst snd].
    assert (J : exists w', pos w' = pos w /\ In (a, w') (spec_segs (v :: l) true)).
    { rewrite (pairs_loop v l NE). destruct (exists_last (l := v :: l) ltac:(discriminate)) as (m & x & EM). rewrite EM in I |- *. rewrite <- app_assoc in I |- *. cbn [app] in I |- *.
      rewrite pairs_app in I |- *. apply in_app_or in I as [I|I]; [exists w; split; [reflexivity|apply in_or_app; now left]|]. cbn in I. destruct I as [I|[]]. injection I as <- <-. exists v. split; [reflexivity|].
      apply in_or_app. right. now left. }
    destruct J as (w' & E1 & J). apply NF in J. unfold close_by. rewrite <- E1. exact J. }
  rewrite K. cbn [offset_results map]. f_equal. rewrite WP, EV. unfold close_path. rewrite rev_app_distr. cbn [app rev hd_error]. rewrite HC. cbn [andb].
  replace (v2fuzzy_eq_eps (pos v) (pos (vertex_at (pos v) 0)) (oo_slice_join_eps o)) with true.
  - change (v :: l ++ [vertex_at (pos v) 0]) with ((v :: l) ++ [vertex_at (pos v) 0]). rewrite removelast_last. destruct raw as [w c]. cbn in EV, RC. now subst.
  - symmetry. apply v2fuzzy_R. unfold vertex_at, pos. cbn. rewrite !Rminus_diag_eq, Rabs_R0 by reflexivity. auto.
Qed.
End Whole.
