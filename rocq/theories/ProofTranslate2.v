(** Moving the inputs moves the results: reading and writing polylines, and the measuring functions. *)
From Coq Require Import Reals List Lra Lia Bool ZArith Arith.
From Verif Require Import Num RNum Res ModelMath ModelIntr ModelSeg ModelSegIntr ModelPline SpecTranslate ProofR
  ProofTranslate.
Import ListNotations.
Local Open Scope R_scope.

Lemma rmap_bind {A A' B B'} (f : A -> A') (g : B -> B') (r : res A) (r' : res A') k k' :
  r' = rmap f r -> (forall a, k' (f a) = rmap g (k a)) -> rbind r' k' = rmap g (rbind r k).
Proof. intros -> H. destruct r; cbn; auto. Qed.
Lemma same_bind {A B B'} (g : B -> B') (r : res A) k k' :
  (forall a, k' a = rmap g (k a)) -> rbind r k' = rmap g (rbind r k).
Proof. intros H. destruct r; cbn; auto. Qed.
Lemma inv_bind {A A' B} (f : A -> A') (r : res A) (r' : res A') (k : A -> res B) k' :
  r' = rmap f r -> (forall a, k' (f a) = k a) -> rbind r' k' = rbind r k.
Proof. intros -> H. destruct r; cbn; auto. Qed.
Lemma rfold_map {A A' B B'} (fa : A -> A') (fb : B -> B') f f' l b :
  (forall b a, f' (fb b) (fa a) = rmap fb (f b a)) ->
  rfold f' (map fa l) (fb b) = rmap fb (rfold f l b).
Proof.
  intros H. revert b. induction l as [| a t IH]; intros b; cbn; [reflexivity |].
  eapply rmap_bind; [apply H | apply IH].
Qed.
Lemma rfold_same {A B B'} (fb : B -> B') (f : B -> A -> res B) f' l b :
  (forall b a, f' (fb b) a = rmap fb (f b a)) ->
  rfold f' l (fb b) = rmap fb (rfold f l b).
Proof.
  intros H. revert b. induction l as [| a t IH]; intros b; cbn; [reflexivity |].
  eapply rmap_bind; [apply H | apply IH].
Qed.
Lemma fold_map {A A' B B'} (fa : A -> A') (fb : B -> B') f f' l b :
  (forall b a, f' (fb b) (fa a) = fb (f b a)) ->
  fold_left f' (map fa l) (fb b) = fb (fold_left f l b).
Proof. intros H. revert b. induction l as [| a t IH]; intros b; cbn; [reflexivity |]. rewrite H. apply IH. Qed.
Lemma rmapM_map {A A' B B'} (fa : A -> A') (fb : B -> B') f f' l :
  (forall a, f' (fa a) = rmap fb (f a)) ->
  rmapM f' (map fa l) = rmap (map fb) (rmapM f l).
Proof.
  intros H. induction l as [| a t IH]; cbn; [reflexivity |].
  eapply rmap_bind; [apply H |]. intros b. eapply rmap_bind; [apply IH |]. reflexivity.
Qed.
Lemma rmapM_same {A B B'} (fb : B -> B') (f : A -> res B) f' l :
  (forall a, f' a = rmap fb (f a)) ->
  rmapM f' l = rmap (map fb) (rmapM f l).
Proof. intros H. rewrite <- (map_id l) at 1. apply rmapM_map. exact H. Qed.
Lemma rmap_id {A} (r : res A) : rmap (fun a => a) r = r.
Proof. destruct r; reflexivity. Qed.
Lemma map_list_set {A B} (f : A -> B) l i a : list_set (map f l) i (f a) = map f (list_set l i a).
Proof. revert i. induction l as [| h t IH]; intros [| i]; cbn; auto. rewrite IH. reflexivity. Qed.
Lemma map_list_remove {A B} (f : A -> B) l i : list_remove (map f l) i = map f (list_remove l i).
Proof. revert i. induction l as [| h t IH]; intros [| i]; cbn; auto. rewrite IH. reflexivity. Qed.
Lemma map_index {A B} (f : A -> B) l i : index (map f l) i = rmap f (index l i).
Proof. unfold index. rewrite nth_error_map. destruct (nth_error l i); reflexivity. Qed.
Lemma map_set_index {A B} (f : A -> B) l i a : set_index (map f l) i (f a) = rmap (map f) (set_index l i a).
Proof. unfold set_index. rewrite map_length, map_list_set. destruct (_ <? _)%nat; reflexivity. Qed.

Section Tr.
Variables X Y : R.
Notation tv := (moved_point X Y).
Notation tV := (moved_vertex X Y).
Notation tp := (moved X Y).
Notation t2 := (fun s => (tV (fst s), tV (snd s))).

Lemma t_vc p : vertex_count (tp p) = vertex_count p.
Proof. unfold vertex_count, moved. cbn [vtx]. apply map_length. Qed.
Lemma t_closed p : is_closed (tp p) = is_closed p.
Proof. reflexivity. Qed.
Lemma t_sc p : segment_count (tp p) = segment_count p.
Proof. unfold segment_count. rewrite t_vc. reflexivity. Qed.
Lemma t_empty p : is_empty (tp p) = is_empty p.
Proof. unfold is_empty. rewrite t_vc. reflexivity. Qed.
Lemma t_next p i : next_wrapping_index (tp p) i = next_wrapping_index p i.
Proof. unfold next_wrapping_index. rewrite t_vc. reflexivity. Qed.
Lemma t_prev p i : prev_wrapping_index (tp p) i = prev_wrapping_index p i.
Proof. unfold prev_wrapping_index. rewrite t_vc. reflexivity. Qed.
Lemma t_fwd_dist p i j : fwd_wrapping_dist (tp p) i j = fwd_wrapping_dist p i j.
Proof. unfold fwd_wrapping_dist. rewrite t_vc. reflexivity. Qed.
Lemma t_fwd p i j : fwd_wrapping_index (tp p) i j = fwd_wrapping_index p i j.
Proof. unfold fwd_wrapping_index. rewrite t_vc. reflexivity. Qed.
Lemma t_get p i : get (tp p) i = option_map tV (get p i).
Proof. unfold get, moved. cbn [vtx]. apply nth_error_map. Qed.
Lemma t_at p i : at_ (tp p) i = rmap tV (at_ p i).
Proof. unfold at_, moved. cbn [vtx]. apply map_index. Qed.
Lemma t_last p : last_ (tp p) = rmap (option_map tV) (last_ p).
Proof. unfold last_. rewrite t_vc. apply same_bind. intros i. cbn. rewrite t_get. reflexivity. Qed.
Lemma t_unwrap {A B} (f : A -> B) o : unwrap (option_map f o) = rmap f (unwrap o).
Proof. destruct o; reflexivity. Qed.
Lemma t_set p i v : set_vertex (tp p) i (tV v) = rmap tp (set_vertex p i v).
Proof. unfold set_vertex, moved. cbn [vtx]. eapply rmap_bind; [apply map_set_index | reflexivity]. Qed.
Lemma t_set_last p v : set_last (tp p) (tV v) = rmap tp (set_last p v).
Proof. unfold set_last. rewrite t_vc. apply same_bind. intros i. apply t_set. Qed.
Lemma t_remove p i : remove (tp p) i = rmap (fun r => (tV (fst r), tp (snd r))) (remove p i).
Proof.
  unfold remove, moved. cbn [vtx is_closed]. eapply rmap_bind; [apply map_index |].
  intros v. cbn. rewrite map_list_remove. reflexivity.
Qed.
Lemma t_remove_last p : remove_last (tp p) = rmap (fun r => (tV (fst r), tp (snd r))) (remove_last p).
Proof. unfold remove_last. rewrite t_vc. apply same_bind. intros i. apply t_remove. Qed.
Lemma t_addv p v : add_vertex (tp p) (tV v) = tp (add_vertex p v).
Proof. unfold add_vertex, moved. cbn [vtx is_closed]. rewrite map_app. reflexivity. Qed.
Lemma t_extend p l : extend_vertexes (tp p) (map tV l) = tp (extend_vertexes p l).
Proof. unfold extend_vertexes, moved. cbn [vtx is_closed]. rewrite map_app. reflexivity. Qed.
Lemma t_clear p : clear (tp p) = tp (clear p).
Proof. reflexivity. Qed.
Lemma t_set_closed p c : set_is_closed (tp p) c = tp (set_is_closed p c).
Proof. reflexivity. Qed.
Lemma t_addr p v e : add_or_replace_vertex (tp p) (tV v) e = tp (add_or_replace_vertex p v e).
Proof.
  unfold add_or_replace_vertex. cbn [moved vtx]. rewrite <- map_rev.
  destruct (rev (vtx p)) as [| l t]; cbn [map]; [apply t_addv |].
  rewrite !t_pos, t_fuzzy. destruct (v2fuzzy_eq_eps _ _ _); [| apply t_addv].
  unfold moved at 1. cbn [vtx is_closed]. unfold moved. cbn [vtx is_closed].
  rewrite map_app, map_rev. reflexivity.
Qed.
Lemma t_addr2 p q b e : add_or_replace (tp p) (vx (tv q)) (vy (tv q)) b e = tp (add_or_replace p (vx q) (vy q) b e).
Proof. unfold add_or_replace. rewrite <- t_addr. reflexivity. Qed.
Lemma t_addr3 p v b e : add_or_replace (tp p) (px (tV v)) (py (tV v)) b e = tp (add_or_replace p (px v) (py v) b e).
Proof. unfold add_or_replace. rewrite <- t_addr. reflexivity. Qed.
Lemma t_from_v2 q b : from_vector2 (tv q) b = tV (from_vector2 q b).
Proof. reflexivity. Qed.
Lemma t_with v b : with_bulge (tV v) b = tV (with_bulge v b).
Proof. reflexivity. Qed.

Definition t_it (it : segment_iter R) := SIter (tp (si_pline it)) (si_pos it) (si_exhausted it).
Lemma t_it_next it : segment_iter_next (t_it it)
  = rmap (fun r => (option_map t2 (fst r), t_it (snd r))) (segment_iter_next it).
Proof.
  unfold segment_iter_next. cbn [t_it si_pline si_pos si_exhausted]. rewrite t_vc, t_closed.
  destruct (si_exhausted it) eqn:E; [cbn; unfold t_it; rewrite E; reflexivity |].
  apply same_bind. intros i.
  destruct (Nat.eqb _ _).
  - destruct (is_closed _).
    + eapply rmap_bind; [apply t_at |]. intros a. eapply rmap_bind; [apply t_at |]. reflexivity.
    + cbn. unfold t_it. rewrite E. reflexivity.
  - eapply rmap_bind; [apply t_at |]. intros a. eapply rmap_bind; [apply t_at |]. reflexivity.
Qed.
Lemma t_segs p : iter_segments (tp p) = rmap (map t2) (iter_segments p).
Proof.
  unfold iter_segments. rewrite t_vc.
  replace (segment_iter_new (tp p)) with (t_it (segment_iter_new p))
    by (unfold segment_iter_new, t_it; cbn [si_pline si_pos si_exhausted]; rewrite t_vc; reflexivity).
  generalize (segment_iter_new p). induction (vertex_count p + 2)%nat as [| f IH]; intros it; [reflexivity |].
  cbn [collect_segments]. eapply rmap_bind; [apply t_it_next |].
  intros [[s |] it']; cbn [fst snd option_map]; [| reflexivity].
  eapply rmap_bind; [apply IH | reflexivity].
Qed.
Lemma t_seg_idx p : iter_segment_indexes (tp p) = iter_segment_indexes p.
Proof. unfold iter_segment_indexes. rewrite t_vc. reflexivity. Qed.

(** ** Measuring *)
Lemma t_line_w v u q : process_line_winding (tV v) (tV u) (tv q) = process_line_winding v u q.
Proof.
  unfold process_line_winding. rewrite !t_pos, t_left. unfold moved_vertex, moved_point. cbn [px py]. rnum.
  rewrite !leb_sh, !ltb_sh. reflexivity.
Qed.
Lemma t_arc_w v u q : process_arc_winding (tV v) (tV u) (tv q) = process_arc_winding v u q.
Proof.
  unfold process_arc_winding. rewrite !t_pos, t_left, t_left_eq, t_bp, t_rc.
  destruct (seg_arc_radius_and_center v u) as [r c]. cbn [fst snd]. rewrite t_dist.
  unfold moved_vertex, moved_point. cbn [px py]. rnum.
  rewrite !leb_sh, !ltb_sh. reflexivity.
Qed.
Lemma t_winding p q : winding_number (tp p) (tv q) = winding_number p q.
Proof.
  unfold winding_number. rewrite t_vc, t_closed. destruct (_ || _); [reflexivity |].
  eapply inv_bind; [apply t_segs |]. intros l. cbn. f_equal.
  rewrite (fold_map t2 (fun z : Z => z) (winding_step q)); [reflexivity |].
  intros w [v u]. cbn [fst snd]. unfold winding_step. rewrite t_bz, t_line_w, t_arc_w. reflexivity.
Qed.

Lemma t_cstep p q e st ij :
  closest_point_step (tp p) (tv q) e (fst (fst st), tv (snd (fst st)), snd st) ij
  = rmap (fun st => (fst (fst st), tv (snd (fst st)), snd st)) (closest_point_step p q e st ij).
Proof.
  destruct ij as [i j]. destruct st as [[k c] d]. unfold closest_point_step. cbn [fst snd].
  eapply rmap_bind; [apply t_at |]. intros v. eapply rmap_bind; [apply t_at |]. intros u.
  rewrite t_closest, t_sub. destruct (nltb _ _); reflexivity.
Qed.
Lemma t_closest_point p q e :
  closest_point (tp p) (tv q) e = rmap (option_map (moved_closest X Y)) (closest_point p q e).
Proof.
  unfold closest_point. rewrite t_empty, t_vc, t_seg_idx. destruct (is_empty p); [reflexivity |].
  eapply rmap_bind; [apply t_at |]. intros v. destruct (Nat.eqb _ _).
  { rewrite t_pos, t_sub. reflexivity. }
  apply same_bind. intros l. eapply rmap_bind.
  - rewrite t_pos. apply (rfold_same (fun st : nat * vec2 R * R => (fst (fst st), tv (snd (fst st)), snd st)) _ _ l
      (0%nat, pos v, nmax_value)). intros. apply t_cstep.
  - intros [[i c] d]. reflexivity.
Qed.

Lemma t_estep r s : extents_step (moved_box X Y r) (t2 s) = moved_box X Y (extents_step r s).
Proof.
  destruct s as [v u]. unfold extents_step. cbn [fst snd]. rewrite t_bz, t_arc_box.
  destruct (bulge_is_zero v).
  - unfold moved_vertex, moved_box. cbn [px py bmin_x bmin_y bmax_x bmax_y]. rnum. rewrite !ltb_sh.
    destruct (rltb (px u) (bmin_x r)); [| destruct (rltb (bmax_x r) (px u))];
      cbn [bmin_x bmin_y bmax_x bmax_y]; rewrite !ltb_sh;
      (destruct (rltb (py u) (bmin_y r)); [| destruct (rltb (bmax_y r) (py u))]); reflexivity.
  - unfold moved_box. cbn [bmin_x bmin_y bmax_x bmax_y]. rnum. rewrite !min_sh, !max_sh. reflexivity.
Qed.
Lemma t_extents p : extents (tp p) = rmap (option_map (moved_box X Y)) (extents p).
Proof.
  unfold extents. rewrite t_sc. destruct (Nat.eqb _ _); [reflexivity |].
  eapply rmap_bind; [apply t_at |]. intros v. eapply rmap_bind; [apply t_segs |]. intros l. cbn. do 2 f_equal.
  rewrite <- (fold_map t2 (moved_box X Y) extents_step extents_step); [reflexivity |]. intros. apply t_estep.
Qed.

Lemma t_index p : create_approx_aabb_index (tp p) = rmap (map (moved_box X Y)) (create_approx_aabb_index p).
Proof.
  unfold create_approx_aabb_index, create_index_with. rewrite t_vc, t_closed. destruct (_ <? _)%nat; [reflexivity |].
  eapply rmap_bind; [apply t_segs |]. intros l. rewrite map_length. destruct (Nat.eqb _ _); [| reflexivity].
  cbn. f_equal. rewrite !map_map. apply map_ext. intros [v u]. apply t_fast_box.
Qed.
End Tr.
