(** Moving the polylines of a shape moves its offset. *)
From Coq Require Import Reals List Lra Lia Bool ZArith Arith FunctionalExtensionality.
From Verif Require Import Num RNum Res ModelMath ModelIntr ModelSeg ModelSegIntr ModelPline ModelView ModelIndex
  ModelIntersects ModelBoolean ModelOffset ModelShape Spec SpecGeom SpecTranslate ProofR ProofTranslate ProofTranslate2 ProofTranslate3
  ProofTranslate4 ProofTranslate5 ProofTranslate7.
Import ListNotations.
Local Open Scope R_scope.

Section Tr.
Variables X Y : R.
Notation tv := (moved_point X Y).
Notation tV := (moved_vertex X Y).
Notation tp := (moved X Y).
Notation tb := (moved_box X Y).
Notation t_vd := (t_vd X Y).
Notation t_bi := (t_bi X Y).
Notation t_oi := (t_oi X Y).

Definition t_ix (i : sindex R) : sindex R :=
  IX (map tb (ix_boxes i)) (ix_order i) (fun b => ix_query i (moved_box (- X) (- Y) b)).
Lemma box_back b : moved_box (- X) (- Y) (tb b) = b.
Proof. destruct b as [a b c d]. unfold moved_box. cbn [bmin_x bmin_y bmax_x bmax_y]. f_equal; ring. Qed.
Lemma box_forth b : tb (moved_box (- X) (- Y) b) = b.
Proof. destruct b as [a b c d]. unfold moved_box. cbn [bmin_x bmin_y bmax_x bmax_y]. f_equal; ring. Qed.
Lemma t_ix_ok i : moved_index X Y i (t_ix i).
Proof. split; [reflexivity | split; [reflexivity |]]. intros b. unfold t_ix. cbn [ix_query]. rewrite box_back. reflexivity. Qed.

Definition t_ip (p : indexed_pline R) := IP (tp (ip_pline p)) (t_ix (ip_index p)).
Definition t_ol (l : offset_loop R) := OL (ol_parent l) (t_ip (ol_pline l)).
Definition t_sh (s : shape R) := SH (map t_ip (sh_ccw s)) (map t_ip (sh_cw s)) (t_ix (sh_index s)).
Definition t_sps (s : slice_point_set R) := SPS (sps_loop1 s) (sps_loop2 s) (map t_bi (sps_points s)).
Definition t_dp (d : dissection_point R) := DP (dp_seg d) (tv (dp_pos d)).
Definition t_ds (d : dissected_slice R) := DS (ds_source d) (t_vd (ds_view d)).
Definition t_sst (s : sp_state R) := SPSt (map t_sps (sst_sets s)) (sst_lookup s) (sst_visited s).
Definition t_dst (s : dissect_state R) :=
  DSt (map t_ol (dst_loops s)) (map t_ds (dst_slices s)) (map t_ip (dst_ccw s)) (map t_ip (dst_cw s)).
Notation t2 f := (fun r => (map f (fst r), map f (snd r))).

Lemma t_union a b : box_union (tb a) (tb b) = tb (box_union a b).
Proof.
  unfold box_union, moved_box. cbn [bmin_x bmin_y bmax_x bmax_y]. rnum. rewrite !ltb_sh.
  destruct (rltb _ _), (rltb _ _), (rltb _ _), (rltb _ _); reflexivity.
Qed.
Lemma t_bounds i : index_bounds (t_ix i) = option_map tb (index_bounds i).
Proof.
  unfold index_bounds, t_ix. cbn [ix_boxes]. destruct (ix_boxes i) as [| b t]; [reflexivity |]. cbn [map option_map]. f_equal.
  apply fold_map. intros. apply t_union.
Qed.

Section WithIndex.
Variable mk : list (aabb R) -> sindex R.
Hypothesis mk_ok : forall l, moved_index X Y (mk l) (mk (map tb l)).

Lemma mk_eq l : mk (map tb l) = t_ix (mk l).
Proof.
  destruct (mk_ok l) as (A & B & C). destruct (mk (map tb l)) as [b o q]. cbn [ix_boxes ix_order ix_query] in *.
  unfold t_ix. subst. f_equal. apply functional_extensionality. intros x. rewrite <- C, box_forth. reflexivity.
Qed.
Lemma mk_nil : mk [] = t_ix (mk []).
Proof. exact (mk_eq []). Qed.

Lemma t_indexed p : indexed_new mk (tp p) = rmap t_ip (indexed_new mk p).
Proof. unfold indexed_new. eapply rmap_bind; [apply t_index |]. intros b. rewrite mk_eq. reflexivity. Qed.
Lemma t_iob l : index_of_bounds mk (map t_ip l) = rmap t_ix (index_of_bounds mk l).
Proof.
  unfold index_of_bounds. eapply rmap_bind.
  - apply (rmapM_map t_ip tb). intros a. cbn [t_ip ip_index]. rewrite t_bounds. apply t_unwrap.
  - intros b. rewrite mk_eq. reflexivity.
Qed.
Lemma t_partition l : partition_plines mk (map tp l) = rmap (t2 t_ip) (partition_plines mk l).
Proof.
  induction l as [| p t IH]; [reflexivity |]. cbn [map partition_plines]. rewrite t_vc. destruct (_ <? _)%nat; [| exact IH].
  rewrite t_orient. apply same_bind. intros o. eapply rmap_bind; [apply t_indexed |]. intros ip.
  eapply rmap_bind; [exact IH |]. intros r. destruct (orientation_eqb _ _); reflexivity.
Qed.
Lemma t_from l : shape_from_plines mk (map tp l) = rmap t_sh (shape_from_plines mk l).
Proof.
  unfold shape_from_plines. eapply rmap_bind; [apply t_partition |]. intros r. cbn [fst snd]. rewrite <- map_app.
  eapply rmap_bind; [apply t_iob |]. reflexivity.
Qed.
Lemma t_offs inv i l : offsets_of_input mk inv i (map tp l) = rmap (t2 t_ol) (offsets_of_input mk inv i l).
Proof.
  unfold offsets_of_input.
  match goal with |- rfold ?f _ _ = rmap _ (rfold ?g _ _) => apply (rfold_map tp (t2 t_ol) g f l ([], [])) end.
  intros st p. rewrite t_area. apply same_bind. intros a. destruct (inv a); [reflexivity |].
  eapply rmap_bind; [apply t_indexed |]. intros ip. destruct (_ <? _)%num; cbn [rmap fst snd]; rewrite map_app; reflexivity.
Qed.
Lemma t_inputs inv d o i l : offset_inputs mk inv d o i (map t_ip l) = rmap (t2 t_ol) (offset_inputs mk inv d o i l).
Proof.
  revert i. induction l as [| p t IH]; intros i; [reflexivity |]. cbn [map offset_inputs].
  eapply rmap_bind; [unfold parallel_offset_for_shape; apply t_offset; [exact mk_ok | apply t_ix_ok] |]. intros ps.
  eapply rmap_bind; [apply t_offs |]. intros r. eapply rmap_bind; [apply IH |]. intros r'. cbn [rmap fst snd]. rewrite !map_app. reflexivity.
Qed.
Lemma t_create s d o : create_offset_loops mk (t_sh s) d o = rmap (t2 t_ol) (create_offset_loops mk s d o).
Proof.
  unfold create_offset_loops. cbn [t_sh sh_ccw sh_cw]. rewrite map_length.
  eapply rmap_bind; [apply t_inputs |]. intros a. eapply rmap_bind; [apply t_inputs |]. intros b.
  cbn [rmap fst snd]. rewrite !map_app. reflexivity.
Qed.

Lemma t_pair loops o i l st j :
  slice_points_pair (map t_ol loops) o i (t_ol l) (t_sst st) j = rmap t_sst (slice_points_pair loops o i l st j).
Proof.
  unfold slice_points_pair. destruct (Nat.eqb i j); [reflexivity |]. change (sst_visited (t_sst st)) with (sst_visited st).
  destruct (existsb _ _); [reflexivity |]. eapply rmap_bind; [apply map_index |]. intros l2.
  eapply rmap_bind; [exact (t_find X Y (ip_pline (ol_pline l)) (ip_pline (ol_pline l2)) _ _ _ (t_ix_ok (ip_index (ol_pline l)))) |].
  intros [bs os]. cbn [fst snd].
  assert (E : flat_map (fun ov => [BI (oi_index1 ov) (oi_index2 ov) (oi_point1 ov); BI (oi_index1 ov) (oi_index2 ov) (oi_point2 ov)]) (map t_oi os)
    = map t_bi (flat_map (fun ov => [BI (oi_index1 ov) (oi_index2 ov) (oi_point1 ov); BI (oi_index1 ov) (oi_index2 ov) (oi_point2 ov)]) os)).
  { clear. induction os as [| a t IH]; [reflexivity |]. cbn [map flat_map]. rewrite IH. reflexivity. }
  change (sst_sets (t_sst st)) with (map t_sps (sst_sets st)). change (sst_lookup (t_sst st)) with (sst_lookup st).
  rewrite map_length.
  destruct bs as [| b bt]; [destruct os as [| c ot]; [reflexivity |] |]; cbn [map]; cbn [map] in E; cbv beta iota;
    cbn [rmap]; unfold t_sst; cbn [sst_sets sst_lookup sst_visited]; apply f_equal;
    (match goal with |- SPSt ?a _ _ = SPSt ?b _ _ => replace a with b; [reflexivity |] end);
    rewrite map_app; apply f_equal; cbn [map]; unfold t_sps at 1; cbn [sps_loop1 sps_loop2 sps_points]; apply f_equal2; try reflexivity; apply f_equal.
  - cbn [app]. symmetry. exact E.
  - cbn [app map]. apply f_equal2; [reflexivity |]. rewrite map_app. apply f_equal. symmetry. exact E.
Qed.
Lemma t_loop loops idx idx' o st i : moved_index X Y idx idx' ->
  slice_points_loop (map t_ol loops) idx' o (t_sst st) i = rmap t_sst (slice_points_loop loops idx o st i).
Proof.
  intros (_ & _ & Q). unfold slice_points_loop. eapply rmap_bind; [apply map_index |]. intros l.
  change (ip_index (ol_pline (t_ol l))) with (t_ix (ip_index (ol_pline l))). rewrite t_bounds.
  eapply rmap_bind; [apply t_unwrap |]. intros b. rewrite Q. apply rfold_same. intros. apply t_pair.
Qed.
Lemma t_far l i k d o q : far_from_inputs (map t_ip l) i k d o (tv q) = far_from_inputs l i k d o q.
Proof.
  revert i. induction l as [| p t IH]; intros i; [reflexivity |]. cbn [map far_from_inputs]. rewrite !IH.
  destruct (Nat.eqb i k); [reflexivity |]. cbn [t_ip ip_pline ip_index]. rewrite (t_valid X Y _ _ _ _ _ _ _ (t_ix_ok (ip_index p))). reflexivity.
Qed.
Lemma t_is_valid s d o v l k : is_slice_valid (t_sh s) d o (t_vd v) (tp l) k = is_slice_valid s d o v l k.
Proof.
  unfold is_slice_valid. eapply inv_bind; [apply t_view_get |]. intros a. eapply inv_bind; [apply t_unwrap |]. intros v0.
  eapply inv_bind; [apply t_view_get |]. intros b. eapply inv_bind; [apply t_unwrap |]. intros v1.
  rewrite t_midp. cbn [t_sh sh_ccw sh_cw]. rewrite <- map_app. apply t_far.
Qed.
Lemma t_points sets i l : points_of_loop (map t_sps sets) i l = rmap (map t_dp) (points_of_loop sets i l).
Proof.
  unfold points_of_loop. eapply rmap_bind.
  - apply (rmapM_same (map t_dp)). intros k. eapply rmap_bind; [apply map_index |]. intros s. cbn [rmap t_sps sps_loop1 sps_points].
    f_equal. rewrite !map_map. apply map_ext. intros b. destruct (Nat.eqb _ _); reflexivity.
  - intros ls. cbn [rmap]. rewrite concat_map. reflexivity.
Qed.
Lemma t_dcmp l a b : dissection_cmp (tp l) (t_dp a) (t_dp b) = dissection_cmp l a b.
Proof.
  unfold dissection_cmp. cbn [t_dp dp_seg dp_pos]. rewrite t_get. destruct (get l (dp_seg a)); cbn [option_map]; [| reflexivity].
  rewrite t_pos, !t_dist. reflexivity.
Qed.
Lemma t_between s d o l i ab :
  slice_between (t_sh s) d o (t_ol l) i (t_dp (fst ab), t_dp (snd ab)) = rmap (map t_ds) (slice_between s d o l i ab).
Proof.
  unfold slice_between. cbn [fst snd]. cbn [t_ol t_ip t_dp ol_pline ip_pline dp_pos dp_seg ol_parent].
  eapply rmap_bind; [apply t_slice |]. intros [v |]; cbn [option_map]; [| reflexivity].
  rewrite t_is_valid. apply same_bind. intros [|]; reflexivity.
Qed.

Lemma t_dissect s d o c sets m st i :
  dissect_loop mk (t_sh s) d o c (map t_sps sets) m (t_dst st) i = rmap t_dst (dissect_loop mk s d o c sets m st i).
Proof.
  unfold dissect_loop. change (dst_loops (t_dst st)) with (map t_ol (dst_loops st)).
  eapply rmap_bind; [apply map_index |]. intros l. cbn [t_ol t_ip ol_pline ip_pline ol_parent].
  destruct (map_get i m) as [idxs |].
  - eapply rmap_bind; [apply t_points |]. intros pts.
    rewrite (isort_map t_dp (fun a b => cmp_leb (dissection_cmp (ip_pline (ol_pline l)) a b))) by (intros; rewrite t_dcmp; reflexivity).
    set (sorted := isort _ pts). rewrite map_length. eapply (rmap_bind (map t_ds)).
    + destruct (Nat.eqb _ _).
      * eapply rmap_bind; [apply t_entire |]. intros v. rewrite t_is_valid. apply same_bind. intros [|]; reflexivity.
      * rewrite windows2_map. eapply rmap_bind; [apply (rmapM_map _ (map t_ds)); intros; apply t_between |]. intros w.
        rewrite nth_error_map. eapply rmap_bind; [apply t_unwrap |]. intros p1. eapply rmap_bind; [apply map_index |]. intros p2.
        eapply rmap_bind; [exact (t_between s d o l i (p1, p2)) |]. intros cl. cbn [rmap]. rewrite map_app, concat_map. reflexivity.
    + intros sl. cbn [rmap]. unfold t_dst. cbn [dst_loops dst_slices dst_ccw dst_cw]. rewrite map_app. reflexivity.
  - eapply rmap_bind; [apply t_entire |]. intros v. rewrite t_is_valid. apply same_bind. intros [|]; [| reflexivity].
    assert (E : list_set (map t_ol (dst_loops st)) i (OL 0 (IP empty_pline (mk [])))
                = map t_ol (list_set (dst_loops st) i (OL 0 (IP empty_pline (mk []))))).
    { rewrite <- map_list_set. f_equal. unfold t_ol, t_ip. cbn [ol_parent ol_pline ip_pline ip_index]. rewrite <- mk_nil. reflexivity. }
    rewrite E. destruct (_ <? _)%nat; cbn [rmap]; unfold t_dst; cbn [dst_loops dst_slices dst_ccw dst_cw]; rewrite map_app; reflexivity.
Qed.

Lemma t_finish_shape c : finish_shape_pline mk (tp c) = rmap (fun r => (fst r, t_ip (snd r))) (finish_shape_pline mk c).
Proof.
  unfold finish_shape_pline. rewrite t_vc. eapply (rmap_bind tp).
  - destruct (_ <? _)%nat; [| reflexivity]. eapply rmap_bind; [apply t_remove_last |]. reflexivity.
  - intros c'. rewrite t_orient. apply same_bind. intros o. eapply rmap_bind; [apply t_indexed |]. reflexivity.
Qed.
Lemma t_sloop f loops sl idx idx' o c lc vis cur : moved_index X Y idx idx' ->
  stitch_shape_loop mk f (map t_ol loops) (map t_ds sl) idx' o c lc vis (tp cur)
  = rmap (fun r => (fst r, (fst (snd r), t_ip (snd (snd r))))) (stitch_shape_loop mk f loops sl idx o c lc vis cur).
Proof.
  intros M. revert c lc vis cur. induction f as [| f IH]; intros c lc vis cur; [reflexivity |]. cbn [stitch_shape_loop].
  rewrite map_length. destruct (_ <? _)%nat; [reflexivity |]. eapply rmap_bind; [apply map_index |]. intros s.
  eapply rmap_bind; [apply map_index |]. intros l. cbn [t_ol t_ip t_ds ol_pline ip_pline ds_view].
  eapply rmap_bind; [apply t_view |]. intros v. rewrite t_err.
  change (vd_end_point (t_vd (ds_view s))) with (tv (vd_end_point (ds_view s))). rewrite t_pbox, t_grow.
  destruct (M) as (_ & _ & ->). apply same_bind. intros [| q qs].
  - eapply rmap_bind; [apply t_finish_shape |]. reflexivity.
  - match goal with |- context [find ?f' (q :: qs)] =>
      match goal with |- _ = rmap _ (rbind (set_index _ (match find ?g _ with _ => _ end) _) _) =>
        replace (find f' (q :: qs)) with (find g (q :: qs)) end end.
    2: { generalize (q :: qs). intros ll. induction ll as [| z t IHl]; [reflexivity |]. cbn [find]. rewrite IHl, nth_error_map.
         destruct (nth_error sl z); reflexivity. }
    apply same_bind. intros vis'. apply IH.
Qed.
Lemma t_sfrom loops sl idx idx' o st i : moved_index X Y idx idx' ->
  stitch_shape_from mk (map t_ol loops) (map t_ds sl) idx' o (fst st, t2 t_ip (snd st)) i
  = rmap (fun st => (fst st, t2 t_ip (snd st))) (stitch_shape_from mk loops sl idx o st i).
Proof.
  intros M. destruct st as [vis [a b]]. unfold stitch_shape_from. cbn [fst snd]. apply same_bind. intros [|]; [reflexivity |].
  apply same_bind. intros vis'. rewrite map_length. eapply rmap_bind; [apply (t_sloop _ loops sl idx idx' o i 0%nat vis' empty_pline M) |].
  intros [w [[|] ip]]; cbn [fst snd rmap]; rewrite map_app; reflexivity.
Qed.

Lemma t_shape s d o : shape_parallel_offset mk (t_sh s) d o = rmap t_sh (shape_parallel_offset mk s d o).
Proof.
  unfold shape_parallel_offset. eapply rmap_bind; [apply t_create |]. intros ll. cbn [fst snd]. rewrite <- map_app, map_length.
  destruct (fst ll ++ snd ll) as [| l t]; [cbn [map rmap]; unfold shape_empty, t_sh; cbn [sh_ccw sh_cw sh_index map]; rewrite <- mk_nil; reflexivity |].
  set (loops := l :: t). change (map t_ol loops) with (t_ol l :: map t_ol t) at 1. cbv beta iota.
  rewrite (map_map t_ol ol_pline), <- (map_map ol_pline t_ip).
  eapply rmap_bind; [apply t_iob |]. intros idx. rewrite map_length.
  eapply rmap_bind; [apply (rfold_same t_sst (slice_points_loop loops idx o) _ _ (SPSt [] [] [])); intros; apply t_loop, t_ix_ok |]. intros sp.
  eapply rmap_bind; [apply (rfold_same t_dst (dissect_loop mk s d o (length (fst ll)) (sst_sets sp) (sst_lookup sp)) _ _ (DSt loops [] [] [])); intros; apply t_dissect |].
  intros ds. cbn [t_dst dst_loops dst_slices dst_ccw dst_cw]. rewrite map_length.
  match goal with |- context [mk (map ?f (map t_ds (dst_slices ds)))] =>
    replace (map f (map t_ds (dst_slices ds))) with
      (map tb (map (fun sl => aabb_grow (point_box (pos (vd_updated_start (ds_view sl)))) (so_slice_join_eps o)) (dst_slices ds)))
  end.
  2: { rewrite !map_map. apply map_ext. intros z. cbn [t_ds ds_view]. rewrite <- t_grow. reflexivity. }
  match goal with |- context [mk (map tb ?b)] => set (bx := b) end.
  eapply rmap_bind.
  - apply (rfold_same (fun st => (fst st, t2 t_ip (snd st))) (stitch_shape_from mk (dst_loops ds) (dst_slices ds) (mk bx) o) _ _
      (repeat false (length (dst_slices ds)), (dst_ccw ds, dst_cw ds))). intros. apply t_sfrom. apply mk_ok.
  - intros st. cbn [fst snd]. rewrite <- map_app. eapply rmap_bind; [apply t_iob |]. reflexivity.
Qed.

Lemma t_shape_plines l d o :
  rbind (shape_from_plines mk (map tp l)) (fun s => shape_parallel_offset mk s d o)
  = rmap t_sh (rbind (shape_from_plines mk l) (fun s => shape_parallel_offset mk s d o)).
Proof. eapply rmap_bind; [apply t_from |]. intros s. apply t_shape. Qed.
End WithIndex.
End Tr.
