(** Moving both polylines moves the result of a boolean operation. *)
From Coq Require Import Reals List Lra Lia Bool ZArith Arith.
From Verif Require Import Num RNum Res ModelMath ModelIntr ModelSeg ModelSegIntr ModelPline ModelView ModelIndex
  ModelIntersects ModelBoolean ModelOffset Spec SpecGeom SpecTranslate ProofR ProofIter ProofInvert ProofMeasure ProofTranslate ProofTranslate2 ProofTranslate3
  ProofTranslate4 ProofTranslate5.
Import ListNotations.
Local Open Scope R_scope.

Section Tr.
Variables X Y : R.
Notation tv := (moved_point X Y).
Notation tV := (moved_vertex X Y).
Notation tp := (moved X Y).
Notation tb := (moved_box X Y).
Notation t_vd := (t_vd X Y).
Notation t_bi := (t_bi X Y).
Notation t_oi := (t_oi X Y).
Notation t2 := (fun s => (tV (fst s), tV (snd s))).

Lemma area_step_acc a s : area_step a s = a + area_step 0 s.
Proof. unfold area_step. destruct s as [v u]. destruct (negb _); rnum; ring. Qed.
Lemma fold_area l a : fold_left area_step l a = a + rsum (map (area_step 0) l).
Proof.
  revert a. induction l as [| s t IH]; intros a; cbn [fold_left map]; [unfold rsum; cbn; ring |].
  change (rsum (area_step 0 s :: map (area_step 0) t)) with (area_step 0 s + rsum (map (area_step 0) t)). rewrite IH, (area_step_acc a). ring.
Qed.
Lemma t_area_step v u : area_step 0 (tV v, tV u) = area_step 0 (v, u) + (X * (py u - py v) - Y * (px u - px v)).
Proof.
  unfold area_step. rewrite !t_pos, t_sub, t_bz, t_bn, t_bulge. unfold moved_vertex. cbn [px py].
  destruct (negb _); rnum; ring.
Qed.
Lemma t_area p : area (tp p) = area p.
Proof.
  unfold area. rewrite t_closed. destruct (is_closed p) eqn:C; cbn [negb]; [| reflexivity].
  rewrite t_segs, iter_segments_spec, C. cbn [rmap rbind]. f_equal. rewrite !fold_area, map_map. f_equal. f_equal.
  pose proof (loop_telescope (fun v : vertex R => X * py v - Y * px v) (vtx p)) as HT.
  etransitivity; [| apply Rplus_0_r]. etransitivity; [| apply f_equal; exact HT]. rewrite <- rsum_map_plus. f_equal.
  apply map_ext. intros [v u]. cbn [fst snd]. rewrite t_area_step. ring.
Qed.
Lemma t_orient p : orientation (tp p) = orientation p.
Proof. unfold orientation. rewrite t_closed, t_area. reflexivity. Qed.

(** ** Overlapping slices *)
Definition t_os (s : overlapping_slice R) : overlapping_slice R :=
  OS (os_start_indexes s) (os_end_indexes s) (t_vd (os_view s)) (os_is_loop s) (os_opposing s).

Lemma t_os_new p1 p2 a b e :
  overlapping_slice_new (tp p1) (tp p2) (t_oi a) (option_map t_oi b) e = rmap t_os (overlapping_slice_new p1 p2 a b e).
Proof.
  unfold overlapping_slice_new.
  change (oi_index1 (t_oi a)) with (oi_index1 a). change (oi_index2 (t_oi a)) with (oi_index2 a).
  change (oi_point1 (t_oi a)) with (tv (oi_point1 a)). change (oi_point2 (t_oi a)) with (tv (oi_point2 a)).
  rewrite !t_next, t_vc.
  eapply rmap_bind; [apply t_at |]. intros v1. eapply rmap_bind; [apply t_at |]. intros v2.
  eapply rmap_bind; [apply t_at |]. intros u1. eapply rmap_bind; [apply t_at |]. intros u2.
  rewrite !t_tangent, !t_split. cbn [moved_split updated_start split_vertex]. rewrite !t_split.
  destruct b as [b |]; cbn [option_map]; [| reflexivity].
  change (oi_index1 (t_oi b)) with (oi_index1 b). change (oi_index2 (t_oi b)) with (oi_index2 b).
  change (oi_point1 (t_oi b)) with (tv (oi_point1 b)). change (oi_point2 (t_oi b)) with (tv (oi_point2 b)).
  rewrite t_fuzzy. destruct (v2fuzzy_eq_eps _ _ _).
  - apply same_bind. intros o. eapply rmap_bind; [apply t_at |]. reflexivity.
  - rewrite t_fwd_dist. apply same_bind. intros d. rewrite t_split.
    destruct (Nat.eqb _ _); [reflexivity |]. rewrite t_next.
    eapply rmap_bind; [apply t_at |]. intros w1. eapply rmap_bind; [apply t_at |]. intros w2.
    rewrite !t_split. cbn [moved_split updated_start split_vertex]. rewrite t_split. reflexivity.
Qed.

Lemma t_ocmp p a b : overlap_cmp (tp p) (t_oi a) (t_oi b) = overlap_cmp p a b.
Proof.
  unfold overlap_cmp. cbn [ProofTranslate4.t_oi oi_index1 oi_index2 oi_point1 oi_point2].
  rewrite t_get. destruct (get p (oi_index2 a)); cbn [option_map]; [| reflexivity].
  rewrite t_pos, !t_dist. reflexivity.
Qed.

Lemma t_join_loop p1 p2 e l r a b c :
  join_loop (tp p1) (tp p2) e (map t_oi l) (map t_os r) (t_oi a) (option_map t_oi b) (tv c)
  = rmap (map t_os) (join_loop p1 p2 e l r a b c).
Proof.
  revert r a b c. induction l as [| i t IH]; intros r a b c; cbn [map join_loop].
  - eapply rmap_bind; [apply t_os_new |]. intros s. cbn [rmap]. rewrite map_app. reflexivity.
  - change (oi_point1 (t_oi i)) with (tv (oi_point1 i)). change (oi_point2 (t_oi i)) with (tv (oi_point2 i)).
    rewrite t_fuzzy. destruct (negb _).
    + eapply rmap_bind; [apply t_os_new |]. intros s.
      change ([t_os s]) with (map t_os [s]). rewrite <- map_app. apply (IH _ i None).
    + apply (IH r a (Some i)).
Qed.

Lemma t_join_ends p e r : join_ends (tp p) e (map t_os r) = rmap (map t_os) (join_ends p e r).
Proof.
  unfold join_ends. destruct r as [| f [| s t]]; try reflexivity.
  cbn [map]. change (t_os f :: t_os s :: map t_os t) with (map t_os (f :: s :: t)). rewrite <- map_rev.
  destruct (rev (f :: s :: t)) as [| l b]; [reflexivity |]. cbn [map].
  change (vd_end_point (os_view (t_os l))) with (tv (vd_end_point (os_view l))).
  change (pos (vd_updated_start (os_view (t_os f)))) with (tv (pos (vd_updated_start (os_view f)))).
  rewrite t_fuzzy. destruct (v2fuzzy_eq_eps _ _ _); [| reflexivity].
  eapply rmap_bind; [apply t_at |]. intros v. rewrite t_pos, t_fuzzy. cbn [rmap]. f_equal.
  rewrite <- map_rev, skipn_map. cbn [map]. reflexivity.
Qed.

Lemma t_sort_join l p1 p2 e :
  sort_and_join_overlapping_intersects (map t_oi l) (tp p1) (tp p2) e
  = rmap (map t_os) (sort_and_join_overlapping_intersects l p1 p2 e).
Proof.
  unfold sort_and_join_overlapping_intersects, join_sorted_overlaps.
  rewrite (isort_map t_oi (fun a b => cmp_leb (overlap_cmp p2 a b))) by (intros; rewrite t_ocmp; reflexivity).
  destruct (isort _ l) as [| a t]; [reflexivity |]. cbn [map].
  eapply rmap_bind; [apply (t_join_loop p1 p2 e t [] a None) |]. intros r. apply t_join_ends.
Qed.

(** ** Boolean slices *)
Definition t_bs (s : boolean_slice R) := BS (t_vd (bs_view s)) (bs_source_is_pline1 s) (bs_overlapping s).
Definition t_bn (b : boolean_info R) :=
  BInfo (map t_os (bn_overlapping b)) (map t_bi (bn_intersects b)) (bn_orientation1 b) (bn_orientation2 b).
Definition t_sp (s : slice_point R) := SP (tv (sp_pos s)) (sp_is_start s).
Notation te := (fun e : nat * list (slice_point R) => (fst e, map t_sp (snd e))).

Lemma t_process p1 p2 idx idx' e : moved_index X Y idx idx' ->
  process_for_boolean (tp p1) (tp p2) idx' e = rmap t_bn (process_for_boolean p1 p2 idx e).
Proof.
  intros M. unfold process_for_boolean. eapply rmap_bind; [apply t_find; exact M |]. intros r. cbn [fst snd].
  eapply rmap_bind; [apply t_sort_join |]. intros sl. rewrite !t_orient.
  apply same_bind. intros o1. apply same_bind. intros o2. reflexivity.
Qed.

Lemma t_adjust p i q e : adjust_index (tp p) i (tv q) e = adjust_index p i q e.
Proof.
  unfold adjust_index. rewrite t_next. eapply inv_bind; [apply t_at |]. intros v. rewrite t_pos, t_fuzzy. reflexivity.
Qed.
Lemma t_push' k q m : map_push k (t_sp q) (map te m) = map te (map_push k q m).
Proof.
  induction m as [| [i l] t IH]; [reflexivity |]. cbn [map map_push fst snd].
  destruct (Nat.ltb _ _); [reflexivity |]. destruct (Nat.eqb _ _); cbn [map fst snd].
  - rewrite map_app. reflexivity.
  - rewrite IH. reflexivity.
Qed.
Lemma t_add_ov p b e m s : add_overlapping (tp p) b e (map te m) (t_os s) = rmap (map te) (add_overlapping p b e m s).
Proof.
  unfold add_overlapping.
  change (pos (vd_updated_start (os_view (t_os s)))) with (tv (pos (vd_updated_start (os_view s)))).
  change (vd_end_point (os_view (t_os s))) with (tv (vd_end_point (os_view s))).
  rewrite !t_adjust. change (os_start_indexes (t_os s)) with (os_start_indexes s).
  change (os_end_indexes (t_os s)) with (os_end_indexes s). change (os_opposing (t_os s)) with (os_opposing s).
  apply same_bind. intros i. apply same_bind. intros j. cbn [rmap].
  rewrite <- t_push', <- t_push'. reflexivity.
Qed.
Lemma t_lookup p bn b e : intersects_lookup (tp p) (t_bn bn) b e = rmap (map te) (intersects_lookup p bn b e).
Proof.
  unfold intersects_lookup. cbn [t_bn bn_intersects bn_overlapping].
  eapply rmap_bind.
  - change (@nil (nat * list (slice_point R))) with (map te []) at 1.
    rewrite (fold_map t_bi (map te) (fun m b0 => map_push (if b then bi_index2 b0 else bi_index1 b0) (SP (bi_point b0) false) m)).
    2: { intros m i. exact (t_push' (if b then bi_index2 i else bi_index1 i) (SP (bi_point i) false) m). }
    apply rfold_map. intros. apply t_add_ov.
  - intros m. apply rmapM_map. intros [i l]. cbn [fst snd]. eapply rmap_bind; [apply t_at |]. intros v.
    cbn [rmap fst snd]. f_equal. f_equal. apply isort_map. intros x y. unfold t_sp. cbn [sp_pos]. rewrite t_pos, !t_dist. reflexivity.
Qed.

Section Pred.
Variables pred pred' : vec2 R -> res bool.
Hypothesis pred_ok : forall q, pred' (tv q) = pred q.

Lemma t_within b e i v u sp l :
  slices_within_segment b pred' e i (tV v) (tV u) (t_sp sp) (map t_sp l)
  = rmap (map t_bs) (slices_within_segment b pred e i v u sp l).
Proof.
  revert u sp. induction l as [| q t IH]; intros u sp; [reflexivity |]. cbn [map slices_within_segment].
  change (sp_pos (t_sp q)) with (tv (sp_pos q)). rewrite t_split.
  cbn [moved_split updated_start split_vertex]. change (sp_is_start (t_sp sp)) with (sp_is_start sp).
  eapply (rmap_bind (map t_bs)).
  - destruct (sp_is_start sp); [reflexivity |]. rewrite !t_pos, t_fuzzy. destruct (v2fuzzy_eq_eps _ _ _); [reflexivity |].
    rewrite t_midp, pred_ok. apply same_bind. intros [|]; [| reflexivity]. cbn [negb]. rewrite t_single.
    destruct (create_on_single_segment _ _ _ _); reflexivity.
  - intros here. eapply rmap_bind; [apply IH |]. intros rest. cbn [rmap]. rewrite map_app. reflexivity.
Qed.

Lemma t_map_get k m : map_get k (map te m) = option_map (map t_sp) (map_get k m).
Proof.
  unfold map_get. rewrite (find_map' te (fun e => Nat.eqb (fst e) k)) by reflexivity.
  destruct (find _ m); reflexivity.
Qed.

Lemma t_to_next f p b e m i v j k :
  slice_to_next_intersect f (tp p) b pred' e (map te m) i (tV v) j k
  = rmap (map t_bs) (slice_to_next_intersect f p b pred e m i v j k).
Proof.
  revert j k. induction f as [| f IH]; intros j k; [reflexivity |]. cbn [slice_to_next_intersect].
  rewrite t_vc. destruct (_ <? _)%nat; [reflexivity |]. rewrite t_map_get.
  destruct (map_get j m) as [l |]; cbn [option_map]; [| rewrite t_next; apply IH].
  eapply rmap_bind; [apply map_index |]. intros sp. change (sp_pos (t_sp sp)) with (tv (sp_pos sp)).
  eapply rmap_bind; [apply t_view_create |]. intros d. rewrite t_next.
  change (vd_start_index (bs_view (from_open_pline_slice (t_vd d) (negb b) false)))
    with (vd_start_index (bs_view (from_open_pline_slice d (negb b) false))).
  eapply rmap_bind; [apply t_at |]. intros nv.
  change (vd_updated_start (bs_view (from_open_pline_slice (t_vd d) (negb b) false)))
    with (tV (vd_updated_start (bs_view (from_open_pline_slice d (negb b) false)))).
  rewrite t_midp, pred_ok. apply same_bind. intros [|]; reflexivity.
Qed.

Lemma t_bentry p b e m en :
  slices_for_entry (tp p) b pred' e (map te m) (te en) = rmap (map t_bs) (slices_for_entry p b pred e m en).
Proof.
  destruct en as [i l]. unfold slices_for_entry. cbn [fst snd]. rewrite t_next, map_length, t_vc.
  eapply rmap_bind; [apply t_at |]. intros v. eapply rmap_bind; [apply t_at |]. intros u.
  eapply (rmap_bind (map t_bs)).
  - destruct (negb _); [| reflexivity]. eapply rmap_bind; [apply map_index |]. intros sp.
    change (sp_pos (t_sp sp)) with (tv (sp_pos sp)). rewrite t_split. cbn [moved_split split_vertex].
    replace (tl (map t_sp l)) with (map t_sp (tl l)) by (destruct l; reflexivity). apply t_within.
  - intros w. rewrite nth_error_map. eapply rmap_bind; [apply t_unwrap |]. intros sp.
    change (sp_is_start (t_sp sp)) with (sp_is_start sp). destruct (sp_is_start sp); [reflexivity |].
    change (sp_pos (t_sp sp)) with (tv (sp_pos sp)). rewrite t_split. cbn [moved_split split_vertex].
    eapply rmap_bind; [apply t_to_next |]. intros r. cbn [rmap]. rewrite map_app. reflexivity.
Qed.

Lemma t_slice_at p bn b e : slice_at_intersects (tp p) (t_bn bn) b pred' e = rmap (map t_bs) (slice_at_intersects p bn b pred e).
Proof.
  unfold slice_at_intersects. eapply rmap_bind; [apply t_lookup |]. intros m.
  eapply rmap_bind; [apply (rmapM_map te (map t_bs)); intros; apply t_bentry |]. intros l. cbn [rmap].
  rewrite concat_map. reflexivity.
Qed.
End Pred.

Definition t_ps (s : pruned_slices R) :=
  PS (map t_bs (ps_slices s)) (ps_start2 s) (ps_start1_overlapping s) (ps_start2_overlapping s).
Lemma t_prune_slices p1 p2 bn q1 q1' q2 q2' b e :
  (forall q, q1' (tv q) = q1 q) -> (forall q, q2' (tv q) = q2 q) ->
  prune_slices (tp p1) (tp p2) (t_bn bn) q1' q2' b e = rmap t_ps (prune_slices p1 p2 bn q1 q2 b e).
Proof.
  intros H1 H2. unfold prune_slices. eapply rmap_bind; [apply t_slice_at; exact H1 |]. intros s1.
  eapply rmap_bind; [apply t_slice_at; exact H2 |]. intros s2. cbn [rmap].
  change (opposing_directions (t_bn bn)) with (opposing_directions bn). cbn [t_bn bn_overlapping].
  rewrite !map_length. unfold t_ps. cbn [ps_slices ps_start2 ps_start1_overlapping ps_start2_overlapping].
  rewrite !map_app, !map_map. f_equal. f_equal. f_equal. destruct (negb _); [| reflexivity].
  rewrite !map_map. reflexivity.
Qed.

(** ** Stitching *)
Definition t_brp (r : boolean_result_pline R) := BRP (tp (brp_pline r)) (map t_bs (brp_subslices r)).
Definition t_br (r : boolean_result R) := BR (map t_brp (br_pos r)) (map t_brp (br_neg r)) (br_info r).

Lemma t_start s : slice_start_point (t_bs s) = tv (slice_start_point s).
Proof. unfold slice_start_point. cbn [t_bs bs_view ProofTranslate4.t_vd vd_inverted vd_end_point vd_updated_start]. destruct (vd_inverted _); reflexivity. Qed.
Lemma t_sview s p1 p2 : slice_view (t_bs s) (tp p1) (tp p2) = rmap tp (slice_view s p1 p2).
Proof.
  unfold slice_view. cbn [t_bs bs_view bs_source_is_pline1]. destruct (bs_source_is_pline1 s); apply t_view.
Qed.
Lemma t_close_pline p l : close_pline (tp p) (map t_bs l) = rmap (map t_brp) (close_pline p l).
Proof.
  unfold close_pline. rewrite t_vc. destruct (_ <? _)%nat; [reflexivity |].
  eapply rmap_bind; [apply t_remove_last |]. reflexivity.
Qed.
Notation tr := (fun r : list bool * list (boolean_result_pline R) => (fst r, map t_brp (snd r))).
Lemma t_bloop f sl idx idx' p1 p2 sel e b c lc vis cur sub : moved_index X Y idx idx' ->
  stitch_loop f (map t_bs sl) idx' (tp p1) (tp p2) sel e b c lc vis (tp cur) (map t_bs sub)
  = rmap tr (stitch_loop f sl idx p1 p2 sel e b c lc vis cur sub).
Proof.
  intros M. revert c lc vis cur sub. induction f as [| f IH]; intros c lc vis cur sub; [reflexivity |].
  cbn [stitch_loop]. rewrite map_length. destruct (_ <? _)%nat; [reflexivity |].
  eapply rmap_bind; [apply t_last |]. intros lo. eapply rmap_bind; [apply t_unwrap |]. intros lv.
  rewrite t_pos, t_pbox, t_grow. destruct (M) as (_ & _ & ->). apply same_bind. intros [| q qs]; [reflexivity |].
  apply same_bind. intros [n |]; [| reflexivity]. destruct (Nat.eqb _ _).
  - eapply rmap_bind; [apply t_close_pline |]. reflexivity.
  - eapply rmap_bind; [apply map_index |]. intros s. eapply rmap_bind; [apply t_remove_last |]. intros r. cbn [snd].
    eapply rmap_bind; [apply t_sview |]. intros v. rewrite t_err. apply same_bind. intros vis'.
    change ([t_bs s]) with (map t_bs [s]). rewrite <- map_app. apply IH.
Qed.

Section WithIndex.
Variable mk : list (aabb R) -> sindex R.
Hypothesis mk_ok : forall l, moved_index X Y (mk l) (mk (map tb l)).

Lemma t_bstitch sl p1 p2 sel e :
  stitch_slices_into_closed_polylines mk (map t_bs sl) (tp p1) (tp p2) sel e
  = rmap (map t_brp) (stitch_slices_into_closed_polylines mk sl p1 p2 sel e).
Proof.
  unfold stitch_slices_into_closed_polylines. destruct sl as [| s t]; [reflexivity |].
  assert (B : map (fun s => point_box (slice_start_point s)) (map t_bs (s :: t))
              = map tb (map (fun s => point_box (slice_start_point s)) (s :: t))).
  { rewrite !map_map. apply map_ext. intros z. rewrite t_start. reflexivity. }
  rewrite B. clear B. change (map t_bs (s :: t)) with (t_bs s :: map t_bs t) at 1. cbv beta iota.
  set (sl := s :: t). set (bs := map (fun s => point_box (slice_start_point s)) sl).
  rewrite map_length. eapply rmap_bind.
  - apply (rfold_same tr (stitch_from sl (mk bs) p1 p2 sel e) _ _ (repeat false (length sl), [])).
    intros [vis res] i. unfold stitch_from. cbn [fst snd]. apply same_bind. intros [|]; [reflexivity |].
    apply same_bind. intros vis'. eapply rmap_bind; [apply map_index |]. intros w.
    eapply rmap_bind; [apply t_sview |]. intros v. eapply rmap_bind; [apply t_cfr |]. intros cur. rewrite map_length.
    eapply rmap_bind; [apply (t_bloop _ sl (mk bs) _ p1 p2 sel e i i 0%nat vis' cur [w]); apply mk_ok |].
    intros r. cbn [fst snd rmap]. rewrite map_app. reflexivity.
  - reflexivity.
Qed.

Lemma t_in p q : point_in_pline (tp p) (tv q) = point_in_pline p q.
Proof. unfold point_in_pline. rewrite t_winding. reflexivity. Qed.
Lemma t_out p q : point_not_in_pline (tp p) (tv q) = point_not_in_pline p q.
Proof. unfold point_not_in_pline. rewrite t_in. reflexivity. Qed.
Lemma t_is_in p q : is_in (tp p) (tp q) = is_in p q.
Proof. unfold is_in. eapply inv_bind; [apply t_at |]. intros v. rewrite t_pos. apply t_in. Qed.
Lemma t_complete bn : completely_overlapping (t_bn bn) = completely_overlapping bn.
Proof. unfold completely_overlapping. cbn [t_bn bn_overlapping]. destruct (bn_overlapping bn) as [| a [| b t]]; reflexivity. Qed.
Lemma t_any bn : any_intersects (t_bn bn) = any_intersects bn.
Proof. unfold any_intersects. cbn [t_bn bn_overlapping bn_intersects]. destruct (bn_overlapping bn), (bn_intersects bn); reflexivity. Qed.
Lemma t_whole_pl a b i : from_whole_plines (map tp a) (map tp b) i = t_br (from_whole_plines a b i).
Proof. unfold from_whole_plines, t_br. cbn [br_pos br_neg br_info]. rewrite !map_map. reflexivity. Qed.
Lemma t_split_or o st r :
  split_by_orientation o (map t_brp (fst st), map t_brp (snd st)) (t_brp r)
  = rmap (fun st => (map t_brp (fst st), map t_brp (snd st))) (split_by_orientation o st r).
Proof.
  unfold split_by_orientation. cbn [t_brp brp_pline]. rewrite t_orient. apply same_bind. intros o'.
  destruct (negb _); cbn [rmap fst snd]; rewrite map_app; reflexivity.
Qed.

Lemma t_boolean p1 p2 op idx idx' e : moved_index X Y idx idx' ->
  polyline_boolean mk (tp p1) (tp p2) op idx' e = rmap t_br (polyline_boolean mk p1 p2 op idx e).
Proof.
  intros M. unfold polyline_boolean. rewrite !t_vc, !t_closed. destruct (_ || _ || _ || _); [reflexivity |].
  eapply rmap_bind; [apply t_process; exact M |]. intros bn. rewrite t_complete, t_any, !t_is_in.
  change (bn_orientation2 (t_bn bn)) with (bn_orientation2 bn).
  assert (I : forall p q, point_in_pline (tp p) (tv q) = point_in_pline p q) by apply t_in.
  assert (O : forall p q, point_not_in_pline (tp p) (tv q) = point_not_in_pline p q) by apply t_out.
  destruct op; (destruct (completely_overlapping bn); [reflexivity |]); (destruct (negb (any_intersects bn));
    [apply same_bind; intros [|]; [reflexivity |]; apply same_bind; intros [|]; reflexivity |]);
    (eapply rmap_bind; [apply t_prune_slices; auto |]); intros ps; cbn [t_ps ps_slices];
    (eapply rmap_bind; [apply t_bstitch |]); intros r.
  - eapply rmap_bind; [apply (rfold_map t_brp (fun st => (map t_brp (fst st), map t_brp (snd st))) _ _ r ([], [])); intros; apply t_split_or |].
    reflexivity.
  - reflexivity.
  - reflexivity.
  - eapply rmap_bind; [apply t_prune_slices; auto |]. intros ps2. cbn [t_ps ps_slices].
    eapply rmap_bind; [apply t_bstitch |]. intros r2. cbn [rmap]. unfold t_br. cbn [br_pos br_neg br_info].
    rewrite map_app. reflexivity.
Qed.

Lemma t_boolean_constructed p1 p2 op e :
  boolean_constructed mk (tp p1) (tp p2) op e = rmap t_br (boolean_constructed mk p1 p2 op e).
Proof.
  unfold boolean_constructed. eapply rmap_bind; [apply t_index |]. intros bs. apply t_boolean. apply mk_ok.
Qed.
End WithIndex.
End Tr.
