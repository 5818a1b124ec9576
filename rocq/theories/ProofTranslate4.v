(** Moving the polylines moves their slices and intersections. *)
From Coq Require Import Reals List Lra Lia Bool ZArith Arith.
From Verif Require Import Num RNum Res ModelMath ModelIntr ModelSeg ModelSegIntr ModelPline ModelView ModelIndex
  ModelIntersects ModelBoolean ModelOffset SpecTranslate ProofR ProofTranslate ProofTranslate2 ProofTranslate3.
Import ListNotations.
Local Open Scope R_scope.

Section Tr.
Variables X Y : R.
Notation tv := (moved_point X Y).
Notation tV := (moved_vertex X Y).
Notation tp := (moved X Y).
Notation t2 := (fun s => (tV (fst s), tV (snd s))).
Notation tb := (moved_box X Y).

Definition t_vd (d : view_data R) : view_data R :=
  VD (vd_start_index d) (vd_end_index_offset d) (tV (vd_updated_start d)) (vd_updated_end_bulge d)
     (tv (vd_end_point d)) (vd_inverted d).

Lemma t_view_get d p i : view_get_vertex (t_vd d) (tp p) i = rmap (option_map tV) (view_get_vertex d p i).
Proof.
  unfold view_get_vertex, view_vertex_count.
  cbn [t_vd vd_start_index vd_end_index_offset vd_updated_start vd_updated_end_bulge vd_end_point vd_inverted].
  rewrite !t_fwd.
  destruct (_ <=? _)%nat; [reflexivity |]. destruct (vd_inverted d).
  - destruct (Nat.eqb _ _); [reflexivity |]. destruct (_ <? _)%nat.
    { rewrite t_next. eapply rmap_bind; [apply t_at |]. intros v. eapply rmap_bind; [apply t_at |]. reflexivity. }
    destruct (Nat.eqb _ _).
    { apply same_bind. intros o. rewrite t_fwd. eapply rmap_bind; [apply t_at |]. reflexivity. }
    destruct (Nat.eqb _ _); reflexivity.
  - destruct (Nat.eqb _ _); [reflexivity |]. destruct (_ <? _)%nat.
    { eapply rmap_bind; [apply t_at |]. reflexivity. }
    destruct (Nat.eqb _ _).
    { eapply rmap_bind; [apply t_at |]. reflexivity. }
    destruct (Nat.eqb _ _); reflexivity.
Qed.
Lemma t_view d p : view_pline (t_vd d) (tp p) = rmap tp (view_pline d p).
Proof.
  unfold view_pline, view_vertexes. eapply rmap_bind.
  - apply rmapM_same. intros i. eapply rmap_bind; [apply t_view_get |]. intros o. apply t_unwrap.
  - reflexivity.
Qed.

Lemma t_single i v q e : create_on_single_segment i (tV v) (tv q) e = option_map t_vd (create_on_single_segment i v q e).
Proof. unfold create_on_single_segment. rewrite t_pos, t_fuzzy. destruct (v2fuzzy_eq_eps _ _ _); reflexivity. Qed.

Lemma t_view_create p i q j v k e :
  view_create (tp p) i (tv q) j (tV v) k e = rmap t_vd (view_create p i q j v k e).
Proof.
  unfold view_create. destruct (Nat.eqb k 0); [reflexivity |].
  eapply rmap_bind; [apply t_at |]. intros c. eapply (rmap_bind (fun r => r)).
  - rewrite rmap_id, t_pos, t_fuzzy. destruct (v2fuzzy_eq_eps _ _ _).
    + destruct (negb _); [| reflexivity]. rewrite t_prev. destruct (prev_wrapping_index p j); cbn [rbind]; [| reflexivity].
      eapply inv_bind; [apply t_at |]. reflexivity.
    + rewrite t_next. eapply inv_bind; [apply t_at |]. intros u. rewrite t_split. reflexivity.
  - intros [o b]. reflexivity.
Qed.

Lemma t_entire p : view_from_entire_pline (tp p) = rmap t_vd (view_from_entire_pline p).
Proof.
  unfold view_from_entire_pline. rewrite t_vc, t_closed. destruct (_ <? _)%nat; [reflexivity |].
  eapply rmap_bind; [apply t_at |]. intros v. destruct (is_closed p).
  - eapply rmap_bind; [apply t_last |]. intros o. eapply rmap_bind; [apply t_unwrap |]. reflexivity.
  - eapply rmap_bind; [apply t_at |]. intros w. eapply rmap_bind; [apply t_at |]. reflexivity.
Qed.

Lemma t_slice p a i b j e :
  view_from_slice_points (tp p) (tv a) i (tv b) j e = rmap (option_map t_vd) (view_from_slice_points p a i b j e).
Proof.
  unfold view_from_slice_points. rewrite t_closed.
  eapply (rmap_bind (fun r => r)).
  { rewrite rmap_id. destruct (_ && _); [reflexivity |]. rewrite t_next.
    eapply inv_bind; [apply t_at |]. intros v. rewrite t_pos, t_fuzzy. reflexivity. }
  intros [s z]. rewrite t_fwd_dist. apply same_bind. intros d.
  eapply (rmap_bind (fun r => r)).
  { rewrite rmap_id, t_fuzzy. destruct (_ && _ && _); [| reflexivity].
    eapply inv_bind; [apply t_at |]. intros v. rewrite t_pos, !t_dist, t_vc. reflexivity. }
  intros k. eapply rmap_bind; [apply t_at |]. intros v. rewrite t_next.
  eapply rmap_bind; [apply t_at |]. intros u. rewrite !t_split.
  cbn [moved_split updated_start split_vertex]. rewrite t_split. cbn [moved_split updated_start split_vertex].
  match goal with |- context [create_on_single_segment s ?x (tv b) e] =>
    match goal with |- context [create_on_single_segment s ?y b e] =>
      assert (Q : x = tV y) by (destruct z, (Nat.eqb k 0); reflexivity); rewrite Q; generalize y end end.
  intros w. clear Q. rewrite t_single. destruct (Nat.eqb k 0); [reflexivity |].
  eapply rmap_bind; [apply t_view_create | reflexivity].
Qed.

(** ** Boxes *)
Lemma t_grow b e : aabb_grow (tb b) e = tb (aabb_grow b e).
Proof. unfold aabb_grow, moved_box. cbn [bmin_x bmin_y bmax_x bmax_y]. rnum. f_equal; ring. Qed.
Lemma t_pbox q : point_box (tv q) = tb (point_box q).
Proof. reflexivity. Qed.
Lemma t_overlaps a q : aabb_overlaps (tb a) (tb q) = aabb_overlaps a q.
Proof. unfold aabb_overlaps, moved_box. cbn [bmin_x bmin_y bmax_x bmax_y]. rnum. rewrite !ltb_sh. reflexivity. Qed.
Lemma t_list_index l : moved_index X Y (list_index l) (list_index (map tb l)).
Proof.
  split; [reflexivity | split].
  - cbn. rewrite map_length. reflexivity.
  - intros b. cbn. rewrite map_length. generalize 0%nat.
    induction l as [| a t IH]; intros n; [reflexivity |]. cbn. rewrite t_overlaps.
    destruct (aabb_overlaps a b); cbn; rewrite IH; reflexivity.
Qed.

(** ** Self intersects *)
Definition t_bi (b : basic_intr R) := BI (bi_index1 b) (bi_index2 b) (tv (bi_point b)).
Definition t_oi (o : overlap_intr R) := OI (oi_index1 o) (oi_index2 o) (tv (oi_point1 o)) (tv (oi_point2 o)).
Definition t_ev (e : intr_event R) := match e with EvBasic b => EvBasic (t_bi b) | EvOverlap o => EvOverlap (t_oi o) end.

Section Visit.
Context {S : Type} (visit : S -> intr_event R -> S * bool) (fs : S -> S).
Hypothesis visit_ok : forall s e, visit (fs s) (t_ev e) = (fs (fst (visit s e)), snd (visit s e)).
Notation fsb := (fun st : S * bool => (fs (fst st), snd st)).

Lemma t_visit_b s i j q : visit (fs s) (EvBasic (BI i j (tv q))) = fsb (visit s (EvBasic (BI i j q))).
Proof. exact (visit_ok s (EvBasic (BI i j q))). Qed.
Lemma t_visit_o s i j q r : visit (fs s) (EvOverlap (OI i j (tv q) (tv r))) = fsb (visit s (EvOverlap (OI i j q r))).
Proof. exact (visit_ok s (EvOverlap (OI i j q r))). Qed.

Lemma t_andthen st f f' : (forall s, f' (fs s) = fsb (f s)) -> andthen (fsb st) f' = fsb (andthen st f).
Proof. intros H. destruct st as [s [|]]; [reflexivity | apply H]. Qed.
Lemma t_randthen st f f' : (forall s, f' (fs s) = rmap fsb (f s)) -> randthen (fsb st) f' = rmap fsb (randthen st f).
Proof. intros H. destruct st as [s [|]]; [reflexivity | apply H]. Qed.
Lemma t_if_b (b : bool) s i j q :
  (if b then visit (fs s) (EvBasic (BI i j (tv q))) else (fs s, false))
  = fsb (if b then visit s (EvBasic (BI i j q)) else (s, false)).
Proof. destruct b; [apply t_visit_b | reflexivity]. Qed.

Lemma t_local_idx p e i j k s : visit_local_indexes visit (tp p) e i j k (fs s) = rmap fsb (visit_local_indexes visit p e i j k s).
Proof.
  unfold visit_local_indexes. eapply rmap_bind; [apply t_at |]. intros v1.
  eapply rmap_bind; [apply t_at |]. intros v2. eapply rmap_bind; [apply t_at |]. intros v3.
  rewrite !t_pos, t_fuzzy, t_seg_intr. destruct (v2fuzzy_eq_eps _ _ _).
  { rewrite t_visit_o. reflexivity. }
  destruct (pline_seg_intr _ _ _ _ _); cbn [moved_intr]; rewrite ?t_fuzzy, ?t_visit_o; try reflexivity.
  - rewrite t_visit_b. destruct (negb _); reflexivity.
  - rewrite t_visit_b. destruct (negb _); reflexivity.
  - cbn [rmap]. f_equal. rewrite t_if_b. apply t_andthen. intros s'. apply t_if_b.
Qed.
Lemma t_local_loop p e l s : visit_local_loop visit (tp p) e l (fs s) = rmap fsb (visit_local_loop visit p e l s).
Proof.
  revert s. induction l as [| i t IH]; intros s; [reflexivity |]. cbn [visit_local_loop].
  eapply rmap_bind; [apply t_local_idx |]. intros st. apply t_randthen. exact IH.
Qed.
Lemma t_local p e s : visit_local_self_intersects visit (tp p) e (fs s) = rmap fsb (visit_local_self_intersects visit p e s).
Proof.
  unfold visit_local_self_intersects. rewrite t_vc, t_closed. destruct (_ <? _)%nat; [reflexivity |].
  destruct (Nat.eqb _ _).
  - destruct (is_closed p); [| reflexivity]. eapply rmap_bind; [apply t_at |]. intros v.
    eapply rmap_bind; [apply t_at |]. intros u. rewrite !t_bulge, !t_pos, t_visit_o.
    destruct (fuzzy_eq _ _); reflexivity.
  - eapply rmap_bind; [apply t_local_loop |]. intros st. apply t_randthen. intros s'.
    destruct (is_closed p); [| reflexivity]. eapply rmap_bind; [apply t_local_idx |]. intros st'.
    apply t_randthen. intros s2. apply t_local_idx.
Qed.

Notation fg := (fun r : list (nat * nat) * (S * bool) => (fst r, (fs (fst (snd r)), snd (snd r)))).
Lemma t_ghit p e i j v1 v2 vis s h :
  visit_global_hit visit (tp p) e i j (tV v1) (tV v2) vis (fs s) h = rmap fg (visit_global_hit visit p e i j v1 v2 vis s h).
Proof.
  unfold visit_global_hit. rewrite t_next. destruct (_ || _ || _ || _); [reflexivity |].
  destruct (existsb _ _); [reflexivity |].
  eapply rmap_bind; [apply t_at |]. intros u1. eapply rmap_bind; [apply t_at |]. intros u2.
  rewrite !t_pos, t_seg_intr.
  destruct (pline_seg_intr _ _ _ _ _); cbn [moved_intr]; rewrite ?t_fuzzy, ?t_visit_o; try reflexivity.
  - rewrite t_visit_b. destruct (negb _); reflexivity.
  - rewrite t_visit_b. destruct (negb _); reflexivity.
  - cbn [rmap fst snd]. f_equal. f_equal. rewrite t_if_b.
    rewrite (t_andthen _ (fun s0 => if negb (v2fuzzy_eq_eps (pos v2) point2 e && v2fuzzy_eq_eps (pos u2) point2 e)
         then visit s0 (EvBasic (BI i h point2)) else (s0, false))); [reflexivity |].
    intros s'. apply t_if_b.
  - destruct (negb _); reflexivity.
  - destruct (negb _); reflexivity.
Qed.
Lemma t_ghits p e i j v1 v2 l vis s :
  visit_global_hits visit (tp p) e i j (tV v1) (tV v2) l vis (fs s) = rmap fg (visit_global_hits visit p e i j v1 v2 l vis s).
Proof.
  revert vis s. induction l as [| h t IH]; intros vis s; [reflexivity |]. cbn [visit_global_hits].
  eapply rmap_bind; [apply t_ghit |]. intros r. cbn [fst snd]. destruct (snd (snd r)) eqn:E; [cbn; rewrite E; reflexivity |].
  apply IH.
Qed.
Lemma t_gloop p idx idx' e l vis s : moved_index X Y idx idx' ->
  visit_global_loop visit (tp p) idx' e l vis (fs s) = rmap fsb (visit_global_loop visit p idx e l vis s).
Proof.
  intros (B & O & Q). revert vis s. induction l as [| i t IH]; intros vis s; [reflexivity |]. cbn [visit_global_loop].
  rewrite B. eapply rmap_bind; [apply map_index |]. intros b. rewrite t_next.
  eapply rmap_bind; [apply t_at |]. intros v1. eapply rmap_bind; [apply t_at |]. intros v2.
  rewrite t_grow, Q. eapply rmap_bind; [apply t_ghits |]. intros r. cbn [fst snd].
  destruct (snd (snd r)) eqn:E; [cbn; rewrite E; reflexivity |]. apply IH.
Qed.
Lemma t_global p idx idx' e s : moved_index X Y idx idx' ->
  visit_global_self_intersects visit (tp p) idx' e (fs s) = rmap fsb (visit_global_self_intersects visit p idx e s).
Proof.
  intros M. unfold visit_global_self_intersects. rewrite t_vc. destruct (_ <? _)%nat; [reflexivity |].
  destruct (M) as (_ & O & _). rewrite O. apply t_gloop. exact M.
Qed.
End Visit.

Lemma t_basic_visitor b l e :
  as_basic_visitor b (map t_bi l) (t_ev e) = (map t_bi (fst (as_basic_visitor b l e)), snd (as_basic_visitor b l e)).
Proof.
  destruct e; cbn [t_ev as_basic_visitor]; [cbn [fst snd]; rewrite map_app; reflexivity |].
  destruct b; cbn [fst snd]; rewrite ?map_app; reflexivity.
Qed.
Lemma t_self p idx idx' b e : moved_index X Y idx idx' ->
  all_self_intersects_as_basic (tp p) idx' b e = rmap (map t_bi) (all_self_intersects_as_basic p idx b e).
Proof.
  intros M. unfold all_self_intersects_as_basic.
  eapply rmap_bind; [exact (t_local (as_basic_visitor b) (map t_bi) (t_basic_visitor b) p e []) |].
  intros st. eapply rmap_bind; [exact (t_global (as_basic_visitor b) (map t_bi) (t_basic_visitor b) p idx idx' e (fst st) M) |].
  reflexivity.
Qed.

(** ** Intersections of two polylines *)
Definition t_fi (s : fi_state R) := FI (map t_bi (fi_basic s)) (map t_oi (fi_overlap s)) (fi_dup1 s) (fi_dup2 s).
Lemma t_fi_hit p1 p2 e i v u st j :
  find_intersects_hit (tp p1) (tp p2) e i (tV v) (tV u) (t_fi st) j = rmap t_fi (find_intersects_hit p1 p2 e i v u st j).
Proof.
  unfold find_intersects_hit. rewrite !t_vc, !t_next, !t_closed.
  eapply rmap_bind; [apply t_at |]. intros a. eapply rmap_bind; [apply t_at |]. intros b.
  rewrite !t_pos, t_seg_intr.
  destruct (pline_seg_intr _ _ _ _ _); cbn [moved_intr]; rewrite ?t_fuzzy; try reflexivity.
  - destruct (negb _); [| reflexivity]. cbn [rmap]. unfold t_fi. cbn. rewrite map_app. reflexivity.
  - destruct (negb _); [| reflexivity]. cbn [rmap]. unfold t_fi. cbn. rewrite map_app. reflexivity.
  - destruct (negb _), (negb _); cbn [rmap]; unfold t_fi; cbn; rewrite ?map_app; reflexivity.
  - cbn [rmap]. unfold t_fi. cbn. rewrite map_app. reflexivity.
  - cbn [rmap]. unfold t_fi. cbn. rewrite map_app. reflexivity.
Qed.
Lemma t_rfilter {A A'} (f : A -> A') (g : A -> res bool) g' l : (forall a, g' (f a) = g a) ->
  rfilter g' (map f l) = rmap (map f) (rfilter g l).
Proof.
  intros H. induction l as [| a t IH]; [reflexivity |]. cbn [map rfilter]. rewrite H. apply same_bind. intros b.
  eapply rmap_bind; [apply IH |]. intros r. destruct b; reflexivity.
Qed.
Lemma t_keep p1 p2 e d1 d2 b : keep_basic (tp p1) (tp p2) e d1 d2 (t_bi b) = keep_basic p1 p2 e d1 d2 b.
Proof.
  unfold keep_basic. cbn [t_bi bi_index1 bi_index2 bi_point]. eapply (inv_bind (fun x => x)).
  - rewrite rmap_id. destruct (nat_in _ _); [| reflexivity]. eapply inv_bind; [apply t_at |].
    intros v. rewrite t_pos, t_fuzzy. reflexivity.
  - intros [|]; [reflexivity |]. destruct (nat_in _ _); [| reflexivity]. eapply inv_bind; [apply t_at |].
    intros v. rewrite t_pos, t_fuzzy. reflexivity.
Qed.
Lemma t_find p1 p2 idx idx' e : moved_index X Y idx idx' ->
  find_intersects (tp p1) (tp p2) idx' e
  = rmap (fun r => (map t_bi (fst r), map t_oi (snd r))) (find_intersects p1 p2 idx e).
Proof.
  intros M. unfold find_intersects. rewrite !t_vc. destruct (_ || _); [reflexivity |].
  rewrite t_seg_idx. apply same_bind. intros l.
  eapply rmap_bind.
  - apply (rfold_same t_fi (find_intersects_seg p1 p2 idx e) _ l (FI [] [] [] [])).
    intros st [i j]. unfold find_intersects_seg.
    eapply rmap_bind; [apply t_at |]. intros v. eapply rmap_bind; [apply t_at |]. intros u.
    rewrite t_fast_box, t_grow. destruct M as (_ & _ & ->). apply rfold_same. intros. apply t_fi_hit.
  - intros st. cbn [t_fi fi_dup1 fi_dup2 fi_basic fi_overlap].
    assert (K : forall d1 d2, (let! kept := rfilter (keep_basic (tp p1) (tp p2) e d1 d2) (map t_bi (fi_basic st)) in
        Ret (kept, map t_oi (fi_overlap st)))
      = rmap (fun r => (map t_bi (fst r), map t_oi (snd r)))
          (let! kept := rfilter (keep_basic p1 p2 e d1 d2) (fi_basic st) in Ret (kept, fi_overlap st))).
    { intros d1 d2. eapply rmap_bind; [apply t_rfilter; intros; apply t_keep |]. reflexivity. }
    destruct (fi_dup1 st), (fi_dup2 st); try apply K. reflexivity.
Qed.
End Tr.
