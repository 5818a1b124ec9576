(** Moving the polyline moves its offsets. *)
From Coq Require Import Reals List Lra Lia Bool ZArith Arith.
From Verif Require Import Num RNum Res ModelMath ModelIntr ModelSeg ModelSegIntr ModelPline ModelView ModelIndex
  ModelIntersects ModelBoolean ModelOffset SpecTranslate ProofR ProofTranslate ProofTranslate2 ProofTranslate3
  ProofTranslate4.
Import ListNotations.
Local Open Scope R_scope.

Lemma rexists_ext {A} (f g : A -> res bool) l : (forall a, f a = g a) -> rexists f l = rexists g l.
Proof.
  intros H. induction l as [| a t IH]; [reflexivity |]. cbn. rewrite H. destruct (g a) as [[|] |]; cbn; auto.
Qed.
Lemma isort_map {A B} (f : A -> B) le le' l : (forall a b, le' (f a) (f b) = le a b) ->
  isort le' (map f l) = map f (isort le l).
Proof.
  intros H. induction l as [| a t IH]; [reflexivity |]. cbn. rewrite IH. generalize (isort le t).
  intros m. induction m as [| b m IHm]; [reflexivity |]. cbn. rewrite H. destruct (le a b); [reflexivity |].
  cbn. rewrite IHm. reflexivity.
Qed.
Lemma find_map' {A B} (f : A -> B) (g : A -> bool) g' l : (forall a, g' (f a) = g a) ->
  find g' (map f l) = option_map f (find g l).
Proof. intros H. induction l as [| a t IH]; [reflexivity |]. cbn. rewrite H. destruct (g a); auto. Qed.

Section Tr.
Variables X Y : R.
Notation tv := (moved_point X Y).
Notation tV := (moved_vertex X Y).
Notation tp := (moved X Y).
Notation tb := (moved_box X Y).
Notation t_vd := (t_vd X Y).
Notation t_bi := (t_bi X Y).
Notation t2 := (fun s => (tV (fst s), tV (snd s))).
Notation te := (fun e : nat * list (vec2 R) => (fst e, map tv (snd e))).

Lemma t_valid p o idx idx' q e d : moved_index X Y idx idx' ->
  point_valid_for_offset (tp p) o idx' (tv q) e d = point_valid_for_offset p o idx q e d.
Proof.
  intros (_ & _ & Q). unfold point_valid_for_offset. rewrite t_pbox, t_grow, Q. f_equal.
  apply rexists_ext. intros i. rewrite t_next. eapply inv_bind; [apply t_at |]. intros v.
  eapply inv_bind; [apply t_at |]. intros u. rewrite t_closest, t_dist. reflexivity.
Qed.
Lemma t_orig p idx idx' e v u : moved_index X Y idx idx' ->
  intersects_original (tp p) idx' e (tV v) (tV u) = intersects_original p idx e v u.
Proof.
  intros (_ & _ & Q). unfold intersects_original. rewrite t_fast_box, t_grow, Q.
  apply rexists_ext. intros i. rewrite t_next. eapply inv_bind; [apply t_at |]. intros a.
  eapply inv_bind; [apply t_at |]. intros b. rewrite t_seg_intr. destruct (pline_seg_intr _ _ _ _ _); reflexivity.
Qed.
Lemma t_segs_valid p idx idx' o opt l : moved_index X Y idx idx' ->
  segments_valid (tp p) idx' o opt (map t2 l) = segments_valid p idx o opt l.
Proof.
  intros M. induction l as [| [v u] t IH]; [reflexivity |]. cbn [map segments_valid fst snd].
  rewrite t_pos, (t_valid _ _ _ _ _ _ _ M), (t_orig _ _ _ _ _ _ M), IH. reflexivity.
Qed.
Lemma t_slice_valid p raw idx idx' o opt s : moved_index X Y idx idx' ->
  slice_is_valid (tp p) (tp raw) idx' o opt (t_vd s) = slice_is_valid p raw idx o opt s.
Proof.
  intros M. unfold slice_is_valid.
  change (vd_end_index_offset (t_vd s)) with (vd_end_index_offset s).
  change (vd_start_index (t_vd s)) with (vd_start_index s).
  change (vd_updated_start (t_vd s)) with (tV (vd_updated_start s)).
  change (vd_end_point (t_vd s)) with (tv (vd_end_point s)).
  change (vd_updated_end_bulge (t_vd s)) with (vd_updated_end_bulge s).
  rewrite !t_from_v2, !t_pos, !t_midp, !(t_valid _ _ _ _ _ _ _ M), !(t_orig _ _ _ _ _ _ M), t_next, t_fwd.
  destruct (Nat.eqb _ _); [reflexivity |].
  eapply inv_bind; [apply t_at |]. intros v. rewrite t_midp, (t_valid _ _ _ _ _ _ _ M). f_equal.
  eapply inv_bind; [apply t_at |]. intros u. rewrite t_with, t_midp, (t_valid _ _ _ _ _ _ _ M). f_equal.
  eapply inv_bind; [apply t_view |]. intros w. eapply inv_bind; [apply t_segs |]. intros l.
  rewrite (t_segs_valid _ _ _ _ _ _ M). reflexivity.
Qed.
Lemma t_valid_slice p raw idx idx' o opt s : moved_index X Y idx idx' ->
  valid_slice (tp p) (tp raw) idx' o opt (option_map t_vd s) = rmap (map t_vd) (valid_slice p raw idx o opt s).
Proof.
  intros M. destruct s as [s |]; [| reflexivity]. cbn [option_map valid_slice].
  rewrite (t_slice_valid _ _ _ _ _ _ _ M). apply same_bind. intros [|]; reflexivity.
Qed.

Lemma t_sort p m : sort_lookup (tp p) (map te m) = rmap (map te) (sort_lookup p m).
Proof.
  unfold sort_lookup. apply rmapM_map. intros [i l]. cbn [fst snd].
  eapply rmap_bind; [apply t_at |]. intros v. cbn [rmap fst snd]. f_equal. f_equal.
  apply isort_map. intros a b. rewrite t_pos, !t_dist. reflexivity.
Qed.

Lemma t_entry p raw idx idx' o opt w m e : moved_index X Y idx idx' ->
  slices_from_entry (tp p) (tp raw) idx' o opt w (map te m) (te e)
  = rmap (fun r => (map t_vd (fst r), snd r)) (slices_from_entry p raw idx o opt w m e).
Proof.
  intros M. destruct e as [i l]. unfold slices_from_entry. cbn [fst snd].
  eapply rmap_bind.
  { rewrite windows2_map. apply (rmapM_map _ (map t_vd)). intros [a b]. cbn [fst snd].
    eapply rmap_bind; [apply t_slice |]. intros s. apply t_valid_slice. exact M. }
  intros within. rewrite map_length, nth_error_map, t_next.
  eapply rmap_bind; [apply t_unwrap |]. intros q.
  assert (K : forall f, (let! ep := index (map tv (snd f)) 0 in
      let! s := view_from_slice_points (tp raw) (tv q) i ep (fst f) (oo_pos_equal_eps opt) in
      let! r := valid_slice (tp p) (tp raw) idx' o opt s in
      Ret (concat (map (map t_vd) within) ++ r, false))
    = rmap (fun r => (map t_vd (fst r), snd r))
     (let! ep := index (snd f) 0 in
      let! s := view_from_slice_points raw q i ep (fst f) (oo_pos_equal_eps opt) in
      let! r := valid_slice p raw idx o opt s in
      Ret (concat within ++ r, false))).
  { intros f. eapply rmap_bind; [apply map_index |]. intros ep. eapply rmap_bind; [apply t_slice |]. intros s.
    eapply rmap_bind; [apply (t_valid_slice _ _ _ _ _ _ _ M) |]. intros r. cbn [rmap fst snd].
    rewrite map_app, concat_map. reflexivity. }
  rewrite (find_map' te (fun f => (next_wrapping_index raw i <=? fst f)%nat)) by reflexivity.
  destruct (find _ m) as [f |]; cbn [option_map]; [exact (K f) |].
  destruct w.
  - rewrite (find_map' te (fun f => (fst f <=? i)%nat)) by reflexivity.
    eapply rmap_bind; [apply t_unwrap |]. intros f. exact (K f).
  - eapply rmap_bind; [apply t_last |]. intros lo. eapply rmap_bind; [apply t_unwrap |]. intros lv.
    rewrite t_vc. apply same_bind. intros ei. rewrite t_pos.
    eapply rmap_bind; [apply t_slice |]. intros s.
    eapply rmap_bind; [apply (t_valid_slice _ _ _ _ _ _ _ M) |]. intros r. cbn [rmap fst snd].
    rewrite map_app, concat_map. reflexivity.
Qed.
Lemma t_entries p raw idx idx' o opt w m l : moved_index X Y idx idx' ->
  slices_from_entries (tp p) (tp raw) idx' o opt w (map te m) (map te l)
  = rmap (map t_vd) (slices_from_entries p raw idx o opt w m l).
Proof.
  intros M. induction l as [| e t IH]; [reflexivity |]. cbn [map slices_from_entries].
  eapply rmap_bind; [apply (t_entry _ _ _ _ _ _ _ _ _ M) |]. intros r. cbn [fst snd].
  destruct (snd r); [reflexivity |]. eapply rmap_bind; [apply IH |]. intros rest. cbn [rmap].
  rewrite map_app. reflexivity.
Qed.

Lemma t_push k q m : map_push k (tv q) (map te m) = map te (map_push k q m).
Proof.
  induction m as [| [i l] t IH]; [reflexivity |]. cbn [map map_push fst snd].
  destruct (Nat.ltb _ _); [reflexivity |]. destruct (Nat.eqb _ _); cbn [map fst snd].
  - rewrite map_app. reflexivity.
  - rewrite IH. reflexivity.
Qed.
Lemma t_push_both m b : push_both (map te m) (t_bi b) = map te (push_both m b).
Proof. unfold push_both. cbn [ProofTranslate4.t_bi bi_index1 bi_index2 bi_point]. rewrite !t_push. reflexivity. Qed.

Lemma t_whole p raw idx idx' o opt : moved_index X Y idx idx' ->
  whole_slice (tp p) (tp raw) idx' o opt = rmap (map t_vd) (whole_slice p raw idx o opt).
Proof.
  intros M. unfold whole_slice. eapply rmap_bind; [apply t_at |]. intros v.
  rewrite t_pos, (t_valid _ _ _ _ _ _ _ M). apply same_bind. intros [|]; [| reflexivity].
  eapply rmap_bind; [apply t_entire |]. reflexivity.
Qed.

Lemma t_circle raw c r idx idx' e : moved_index X Y idx idx' ->
  visit_circle_intersects (tp raw) (tv c) r idx' e
  = rmap (map (fun q => (fst q, tv (snd q)))) (visit_circle_intersects raw c r idx e).
Proof.
  intros (_ & _ & Q). unfold visit_circle_intersects. rewrite t_pbox, t_grow, Q.
  eapply rmap_bind.
  - apply (rmapM_same (map (fun q => (fst q, tv (snd q))))). intros i. rewrite t_next.
    eapply rmap_bind; [apply t_at |]. intros v. eapply rmap_bind; [apply t_at |]. intros u.
    rewrite t_bz, !t_pos, t_line_circle, t_rc, t_bulge.
    destruct (bulge_is_zero v).
    + destruct (line_circle_intr _ _ _ _ _) as [| t0 | t0 t1]; [reflexivity | |]; rewrite !t_param; cbn [rmap]; f_equal.
      * destruct (_ && _); reflexivity.
      * destruct (_ && _), (_ && _); reflexivity.
    + destruct (seg_arc_radius_and_center v u) as [r' c']. cbn [fst snd]. rewrite t_circles.
      destruct (circle_circle_intr _ _ _ _ _) as [| q | q1 q2 |]; cbn [t_cc]; try reflexivity;
        rewrite !t_fuzzy, !t_sweep; cbn [rmap]; f_equal.
      * destruct (_ && _); reflexivity.
      * destruct (_ && _), (_ && _); reflexivity.
  - intros l. cbn [rmap]. rewrite concat_map. reflexivity.
Qed.

Section WithIndex.
Variable mk : list (aabb R) -> sindex R.
Hypothesis mk_ok : forall l, moved_index X Y (mk l) (mk (map tb l)).

Lemma t_slices p raw idx idx' o opt : moved_index X Y idx idx' ->
  slices_from_raw_offset mk (tp p) (tp raw) idx' o opt = rmap (map t_vd) (slices_from_raw_offset mk p raw idx o opt).
Proof.
  intros M. unfold slices_from_raw_offset. rewrite t_vc. destruct (_ <? _)%nat; [reflexivity |].
  eapply rmap_bind; [apply t_index |]. intros bs.
  eapply rmap_bind; [apply t_self; apply mk_ok |]. intros [| b t]; [apply t_whole; exact M |].
  cbn [map]. change (t_bi b :: map t_bi t) with (map t_bi (b :: t)).
  eapply rmap_bind.
  - change (@nil (nat * list (vec2 R))) with (map te []) at 1.
    rewrite (fold_map t_bi (map te) push_both) by (intros; apply t_push_both). apply t_sort.
  - intros m. apply t_entries. exact M.
Qed.

Lemma t_dual p raw dual idx idx' o opt : moved_index X Y idx idx' ->
  slices_from_dual_raw_offsets mk (tp p) (tp raw) (tp dual) idx' o opt
  = rmap (map t_vd) (slices_from_dual_raw_offsets mk p raw dual idx o opt).
Proof.
  intros M. unfold slices_from_dual_raw_offsets. rewrite t_vc, t_closed. destruct (_ <? _)%nat; [reflexivity |].
  eapply rmap_bind; [apply t_index |]. intros bs.
  eapply rmap_bind; [apply t_self; apply mk_ok |]. intros si.
  eapply rmap_bind; [apply t_find; apply mk_ok |]. intros di. cbn [fst snd].
  eapply (rmap_bind (map te)).
  { destruct (negb _); [| reflexivity]. eapply rmap_bind; [apply t_at |]. intros v. rewrite t_pos.
    eapply rmap_bind; [apply t_circle; apply mk_ok |]. intros c1.
    eapply rmap_bind; [apply t_last |]. intros lo. eapply rmap_bind; [apply t_unwrap |]. intros l. rewrite t_pos.
    eapply rmap_bind; [apply t_circle; apply mk_ok |]. intros c2. cbn [rmap]. f_equal.
    rewrite <- map_app. change (@nil (nat * list (vec2 R))) with (map te []) at 1.
    apply fold_map. intros m [k q]. unfold push_pair. cbn [fst snd]. apply t_push. }
  intros m. rewrite (fold_map t_bi (map te) push_both) by (intros; apply t_push_both).
  rewrite (fold_map t_bi (map te) (fun m b => map_push (bi_index1 b) (bi_point b) m))
    by (intros; unfold ProofTranslate4.t_bi; cbn [bi_index1 bi_point]; apply t_push).
  destruct (fold_left _ _ _) as [| e t]; [apply t_whole; exact M |].
  cbn [map]. change ((fst e, map tv (snd e)) :: map te t) with (map te (e :: t)).
  eapply rmap_bind; [apply t_sort |]. intros m'.
  eapply (rmap_bind (map t_vd)).
  - destruct (negb _); [| reflexivity]. eapply rmap_bind; [apply map_index |]. intros e'. cbn [fst snd].
    eapply rmap_bind; [apply map_index |]. intros q. eapply rmap_bind; [apply t_at |]. intros v. rewrite t_pos.
    eapply rmap_bind; [apply t_slice |]. intros s. apply t_valid_slice. exact M.
  - intros f. eapply rmap_bind; [apply t_entries; exact M |]. intros r. cbn [rmap]. rewrite map_app. reflexivity.
Qed.

Lemma t_cands sl om cs q e l :
  sort_candidates (map t_vd sl) om cs (tv q) e l = sort_candidates sl om cs q e l.
Proof.
  unfold sort_candidates. destruct l as [| a [| b t]]; try reflexivity. f_equal.
  rewrite <- (rmap_id (rmapM _ (a :: b :: t))) at 1. rewrite <- (map_id (a :: b :: t)) at 1.
  rewrite (rmapM_map (fun x => x) (fun x => x) (fun i => let! d := index_dist sl om cs i in
     Ret (d, connects_to_start sl q e i, i))).
  - destruct (rmapM _ _); cbn; rewrite ?map_id; reflexivity.
  - intros i. rewrite rmap_id. unfold index_dist, connects_to_start. rewrite nth_error_map.
    rewrite map_index. destruct (index sl i) as [s |] eqn:E; cbn [rmap rbind]; [| reflexivity].
    unfold index in E. destruct (nth_error sl i); [| discriminate]. injection E as ->. cbn [option_map].
    cbn [ProofTranslate4.t_vd vd_start_index vd_end_point]. rewrite t_fuzzy. reflexivity.
Qed.

Lemma t_finish p c e : finish_stitched (tp p) c e = rmap (map tp) (finish_stitched p c e).
Proof.
  unfold finish_stitched. rewrite t_vc. destruct (_ <? _)%nat; [| reflexivity].
  eapply rmap_bind; [apply t_at |]. intros v. eapply rmap_bind; [apply t_last |]. intros lo.
  eapply rmap_bind; [apply t_unwrap |]. intros l. rewrite !t_pos, t_fuzzy. destruct (_ && _); [| reflexivity].
  eapply rmap_bind; [apply t_remove_last |]. reflexivity.
Qed.
Lemma t_err p q e : extend_remove_repeat (tp p) (tp q) e = tp (extend_remove_repeat p q e).
Proof. unfold extend_remove_repeat. cbn [moved vtx]. apply (fold_map tV tp). intros. apply t_addr. Qed.

Lemma t_cfr p e : create_from_remove_repeat (tp p) e = rmap tp (create_from_remove_repeat p e).
Proof.
  unfold create_from_remove_repeat.
  assert (Q : fold_left (fun acc v => add_or_replace_vertex acc v e) (vtx (tp p)) (PL [] (is_closed (tp p)))
    = tp (fold_left (fun acc v => add_or_replace_vertex acc v e) (vtx p) (PL [] (is_closed p)))).
  { cbn [moved vtx is_closed]. apply (fold_map tV tp _ _ _ (PL [] (is_closed p))). intros. apply t_addr. }
  rewrite Q, t_closed. clear Q. rewrite t_vc. destruct (_ && _); [| reflexivity].
  eapply rmap_bind; [apply t_last |]. intros lo. eapply rmap_bind; [apply t_unwrap |]. intros l.
  eapply rmap_bind; [apply t_at |]. intros v. rewrite !t_pos, t_fuzzy. destruct (v2fuzzy_eq_eps _ _ _); [| reflexivity].
  eapply rmap_bind; [apply t_remove_last |]. reflexivity.
Qed.

Notation tr := (fun r : list bool * list (pline R) => (fst r, map tp (snd r))).
Lemma t_stitch_loop f raw sl idx idx' c om opt q cur lc vis p : moved_index X Y idx idx' ->
  stitch_offset_loop f (tp raw) (map t_vd sl) idx' c om opt (tv q) cur lc vis (tp p)
  = rmap tr (stitch_offset_loop f raw sl idx c om opt q cur lc vis p).
Proof.
  intros M. revert cur lc vis p. induction f as [| f IH]; intros cur lc vis p; [reflexivity |].
  cbn [stitch_offset_loop]. rewrite map_length. destruct (_ <? _)%nat; [reflexivity |].
  eapply rmap_bind; [apply map_index |]. intros s. eapply rmap_bind; [apply t_view |]. intros v.
  rewrite t_err. change (vd_end_point (t_vd s)) with (tv (vd_end_point s)).
  change (vd_start_index (t_vd s)) with (vd_start_index s).
  rewrite t_pbox, t_grow. destruct (M) as (_ & _ & ->). apply same_bind. intros cands.
  rewrite t_cands. apply same_bind. intros [| n t].
  - eapply rmap_bind; [apply t_finish |]. reflexivity.
  - apply same_bind. intros vis'. eapply rmap_bind; [apply t_remove_last |]. intros r. cbn [snd]. apply IH.
Qed.

Lemma t_stitch raw sl c om opt :
  stitch_slices_together mk (tp raw) (map t_vd sl) c om opt = rmap (map tp) (stitch_slices_together mk raw sl c om opt).
Proof.
  unfold stitch_slices_together. destruct sl as [| s [| s' t]]; [reflexivity | |].
  - cbn [map]. eapply rmap_bind; [apply t_view |]. intros v. eapply rmap_bind; [apply t_cfr |]. intros pl.
    destruct c; [| reflexivity]. eapply rmap_bind; [apply t_at |]. intros w.
    eapply rmap_bind; [apply t_last |]. intros lo. eapply rmap_bind; [apply t_unwrap |]. intros l.
    rewrite !t_pos, t_fuzzy. destruct (v2fuzzy_eq_eps _ _ _); [| reflexivity].
    rewrite t_set_closed. eapply rmap_bind; [apply t_remove_last |]. reflexivity.
  - cbn [map]. change (t_vd s :: t_vd s' :: map t_vd t) with (map t_vd (s :: s' :: t)).
    set (sl := s :: s' :: t).
    match goal with |- context [mk (aabb_grow ?a ?b :: ?l)] =>
      match goal with |- context [mk (aabb_grow (point_box (pos (vd_updated_start s))) ?d :: ?l')] =>
        replace (mk (aabb_grow a b :: l)) with (mk (map tb (aabb_grow (point_box (pos (vd_updated_start s))) d :: l')))
      end end.
    2: { f_equal. cbn [map]. rewrite !map_map. rewrite <- !t_grow. apply f_equal2; [reflexivity |].
         apply f_equal2; [reflexivity |]. apply map_ext. intros z. rewrite <- t_grow. reflexivity. }
    match goal with |- context [mk (map tb ?l)] => set (bs := l) end.
    rewrite map_length. eapply rmap_bind.
    + apply (rfold_same tr (stitch_offset_from raw sl (mk bs) c om opt) _ _ (repeat false (length sl), [])).
      intros [vis res] i. unfold stitch_offset_from. cbn [fst snd]. apply same_bind. intros [|]; [reflexivity |].
      apply same_bind. intros vis'. eapply rmap_bind; [apply map_index |]. intros w. rewrite map_length.
      eapply rmap_bind; [apply (t_stitch_loop _ raw sl (mk bs) _ c om opt (pos (vd_updated_start w)) i 0%nat vis' empty_pline);
        apply mk_ok |].
      intros r. cbn [fst snd rmap]. rewrite map_app. reflexivity.
    + reflexivity.
Qed.

Lemma t_offset p idx idx' o opt : moved_index X Y idx idx' ->
  parallel_offset mk (tp p) idx' o opt = rmap (map tp) (parallel_offset mk p idx o opt).
Proof.
  intros M. unfold parallel_offset. rewrite t_vc, t_closed. destruct (_ <? _)%nat; [reflexivity |].
  eapply rmap_bind; [apply t_raw |]. intros raw. rewrite t_empty. destruct (is_empty raw); [reflexivity |].
  rewrite t_vc. destruct (_ && _).
  - eapply rmap_bind; [apply t_slices; exact M |]. intros sl. apply same_bind. intros m. apply t_stitch.
  - eapply rmap_bind; [apply t_raw |]. intros dual.
    eapply rmap_bind; [apply t_dual; exact M |]. intros sl. apply t_stitch.
Qed.

Lemma t_offset_constructed p o opt :
  parallel_offset_constructed mk (tp p) o opt = rmap (map tp) (parallel_offset_constructed mk p o opt).
Proof.
  unfold parallel_offset_constructed. rewrite t_vc. destruct (_ <? _)%nat; [reflexivity |].
  eapply rmap_bind; [apply t_index |]. intros bs. apply t_offset. apply mk_ok.
Qed.
End WithIndex.
End Tr.
