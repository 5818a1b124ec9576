(** Offsetting never panics (C36). *)
From Coq Require Import ZArith Bool List Arith Lia.
From Verif Require Import Num Res ModelMath ModelIntr ModelSeg ModelPline ModelView ModelSegIntr ModelIndex ModelIntersects ModelBoolean ModelOffset.
From Verif Require Import Spec SpecPline SpecView SpecIndex SpecIntersects SpecStitch SpecChain.
From Verif Require Import ProofBase ProofRepeat ProofIter ProofView ProofIndex2 ProofSelf ProofFind ProofJoin ProofStitch ProofOffset2 ProofChain.
Import ListNotations.

Section OffsetTotal.
Context {T : Type} {N : Num T}.

(** ** The raw offset *)

Definition stands (r : pline T) : Prop := vtx r <> [].

Lemma add_or_replace_stands p v eps : stands (add_or_replace_vertex p v eps).
Proof.
  unfold stands, add_or_replace_vertex. destruct (rev (vtx p)) as [|l b]; cbn [add_vertex vtx].
  - destruct (vtx p); discriminate.
  - destruct (v2fuzzy_eq_eps _ _ _); cbn [add_vertex vtx]; intros X; apply app_eq_nil in X as [_ X]; discriminate.
Qed.

Lemma stands_snoc (r : pline T) : stands r -> exists l v, r = PL (l ++ [v]) (is_closed r).
Proof.
  intros H. destruct r as [l c]. unfold stands in H. cbn [vtx] in H. cbn [is_closed].
  destruct (exists_last H) as (l' & v & ->). eauto.
Qed.

Lemma connect_stands s1 s2 ccw r eps : stands (connect_using_arc s1 s2 ccw r eps).
Proof. apply add_or_replace_stands. Qed.

Lemma trim_stands r v c i eps : stands r -> exists r', trim_previous_arc r v c i eps = Ret r' /\ stands r'.
Proof.
  intros H. destruct (stands_snoc r H) as (l & w & E). unfold trim_previous_arc. rewrite E, last_snoc_pline. cbn [rbind unwrap].
  assert (S1 : forall x : vertex T, stands (PL (l ++ [x]) (is_closed r))) by (intros x X; apply app_eq_nil in X as [_ X]; discriminate).
  destruct (_ && _); [|eauto]. destruct (Bool.eqb _ _); [|eauto]. rewrite set_last_snoc_pline. eauto.
Qed.

Lemma line_line_stands s1 s2 ccw eps r : stands (line_line_join s1 s2 ccw eps r).
Proof.
  unfold line_line_join. destruct (_ || _); [apply connect_stands|].
  destruct (line_line_intr _ _ _ _ _); try apply add_or_replace_stands. destruct (_ && _); [apply connect_stands|apply add_or_replace_stands].
Qed.

Lemma line_arc_stands s1 s2 ccw eps r : stands (line_arc_join s1 s2 ccw eps r).
Proof.
  assert (P : forall c t i, stands (line_arc_process s1 s2 ccw eps r c t i)).
  { intros c t i. unfold line_arc_process. destruct (_ && _); [destruct (Bool.eqb _ _); apply add_or_replace_stands|].
    destruct (_ && _); [apply connect_stands|]. destruct (rs_collapsed_arc s1); [apply connect_stands|apply add_or_replace_stands]. }
  unfold line_arc_join. destruct (seg_arc_radius_and_center _ _) as [ar ac].
  destruct (line_circle_intr _ _ _ _ _); [apply connect_stands|apply P|]. destruct (nltb _ _); apply P.
Qed.

Lemma arc_line_stands s1 s2 ccw eps r : stands r -> exists r', arc_line_join s1 s2 ccw eps r = Ret r' /\ stands r'.
Proof.
  intros H. assert (P : forall c t i, exists r', arc_line_process s1 s2 ccw eps r c t i = Ret r' /\ stands r').
  { intros c t i. unfold arc_line_process. destruct (_ && _).
    - destruct (trim_stands r (rs_v2 s1) c i eps H) as (r' & -> & S). cbn [rbind]. eexists. split; [reflexivity|apply add_or_replace_stands].
    - eexists. split; [reflexivity|apply connect_stands]. }
  unfold arc_line_join. destruct (seg_arc_radius_and_center _ _) as [ar ac].
  destruct (line_circle_intr _ _ _ _ _); [eexists; split; [reflexivity|apply connect_stands]|apply P|]. destruct (nltb _ _); apply P.
Qed.

Lemma arc_arc_stands s1 s2 ccw eps r : stands r -> exists r', arc_arc_join s1 s2 ccw eps r = Ret r' /\ stands r'.
Proof.
  intros H. assert (P : forall c1 c2 i b, exists r', arc_arc_process s1 s2 ccw eps r c1 c2 i b = Ret r' /\ stands r').
  { intros c1 c2 i b. unfold arc_arc_process. destruct (negb b); [eexists; split; [reflexivity|apply connect_stands]|].
    destruct (trim_stands r (rs_v2 s1) c1 i eps H) as (r' & -> & S). cbn [rbind].
    destruct (Bool.eqb _ _); eexists; (split; [reflexivity|apply add_or_replace_stands]). }
  unfold arc_arc_join. destruct (seg_arc_radius_and_center (rs_v1 s1) _) as [ar ac]. destruct (seg_arc_radius_and_center (rs_v1 s2) _) as [ar2 ac2].
  destruct (circle_circle_intr _ _ _ _ _).
  - eexists; split; [reflexivity|apply connect_stands].
  - apply P.
  - destruct (fuzzy_eq_eps _ _ _); [destruct (_ && _)|destruct (nltb _ _)]; apply P.
  - eexists; split; [reflexivity|apply add_or_replace_stands].
Qed.

Lemma join_stands ccw eps r ss : stands r -> exists r', join_seg_pair ccw eps r ss = Ret r' /\ stands r'.
Proof.
  intros H. destruct ss as [s1 s2]. unfold join_seg_pair.
  destruct (bulge_is_zero (rs_v1 s1)), (bulge_is_zero (rs_v1 s2)).
  - eexists; split; [reflexivity|apply line_line_stands].
  - eexists; split; [reflexivity|apply line_arc_stands].
  - now apply arc_line_stands.
  - now apply arc_arc_stands.
Qed.

Lemma joins_stand ccw eps l : forall r, stands r -> exists r', rfold (join_seg_pair ccw eps) l r = Ret r' /\ stands r'.
Proof.
  induction l as [|a t IH]; intros r H; [eexists; split; [reflexivity|exact H]|].
  cbn [rfold]. destruct (join_stands ccw eps r a H) as (r' & -> & S). cbn [rbind]. now apply IH.
Qed.

Lemma stands_len (r : pline T) : stands r <-> 0 < vertex_count r.
Proof. unfold stands, vertex_count. destruct (vtx r); cbn; split; intros; try lia; try congruence. Qed.

Lemma set_vertex_ok (r : pline T) i v : i < vertex_count r -> exists r', set_vertex r i v = Ret r' /\ vertex_count r' = vertex_count r.
Proof.
  intros H. unfold set_vertex. rewrite set_index_ok by exact H. cbn [rbind]. eexists. split; [reflexivity|].
  unfold vertex_count. cbn [vtx]. apply list_set_length.
Qed.

Lemma update_first_total (r : pline T) q : stands r -> exists r', update_first_vertex r q = Ret r' /\ vertex_count r' = vertex_count r.
Proof.
  intros H. apply stands_len in H. unfold update_first_vertex. destruct (at_lt r 0 H) as (v0 & _ & ->). cbn [rbind].
  destruct (bulge_is_zero v0); [now apply set_vertex_ok|].
  destruct (Nat.ltb_spec 1 (vertex_count r)) as [L|L]; [|eauto].
  destruct (at_lt r 1 L) as (v1 & _ & ->). cbn [rbind]. destruct (_ || _); now apply set_vertex_ok.
Qed.

Lemma prune_total (r : pline T) eps : stands r -> exists r', prune_singularity r eps = Ret r' /\ stands r'.
Proof.
  intros H. unfold prune_singularity. destruct (Nat.ltb_spec 1 (vertex_count r)) as [L|L]; [|eauto].
  destruct (at_lt r 0) as (v0 & _ & ->); [lia|]. cbn [rbind].
  assert (C : exists r1, (let! lo := last_ r in let! l := unwrap lo in
     if v2fuzzy_eq_eps (pos v0) (pos l) eps then let! r := remove_last r in Ret (snd r) else Ret r) = Ret r1 /\ stands r1).
  { destruct (stands_snoc r H) as (l & w & E). rewrite E, last_snoc_pline. cbn [rbind unwrap].
    destruct (v2fuzzy_eq_eps _ _ _).
    - rewrite remove_last_snoc. cbn [rbind snd]. eexists. split; [reflexivity|]. rewrite E in L. unfold vertex_count in L. cbn [vtx] in L.
      rewrite app_length in L. cbn in L. intros X. cbn [vtx] in X. subst l. cbn in L. lia.
    - eexists. split; [reflexivity|]. rewrite <- E. exact H. }
  destruct C as (r1 & E1 & S1). 
  destruct (last_ r) as [lo|]; cbn [rbind] in E1 |- *; [|discriminate]. destruct (unwrap lo) as [l|]; cbn [rbind] in E1 |- *; [|discriminate].
  rewrite E1. cbn [rbind]. destruct (Nat.ltb_spec 1 (vertex_count r1)) as [L1|L1]; [|eauto].
  destruct (at_lt r1 0) as (w0 & _ & ->); [lia|]. destruct (at_lt r1 1) as (w1 & _ & ->); [lia|]. cbn [rbind].
  destruct (v2fuzzy_eq_eps (pos w0) (pos w1) eps); [|eauto]. unfold remove. destruct (index_lt (vtx r1) 0) as (a & _ & ->); [unfold vertex_count in L1; lia|].
  cbn [rbind snd]. eexists. split; [reflexivity|]. unfold stands. cbn [vtx]. unfold vertex_count in L1.
  destruct (vtx r1) as [|x [|y t]]; cbn in L1; try lia. cbn. discriminate.
Qed.

Lemma close_total ccw eps s1 s2 b (r : pline T) : stands r -> exists r', close_raw_offset ccw eps s1 s2 b r = Ret r' /\ stands r'.
Proof.
  intros H. destruct (stands_snoc r H) as (l & w & E). unfold close_raw_offset. rewrite E, last_snoc_pline. cbn [rbind unwrap].
  destruct (join_stands ccw eps (PL [w] false) (s1, s2)) as (cl & -> & S); [discriminate|]. cbn [rbind].
  destruct (at_lt cl 0) as (c0 & _ & ->); [now apply stands_len|]. cbn [rbind]. rewrite set_last_snoc_pline. cbn [rbind].
  set (r1 := extend_vertexes _ _).
  assert (S1 : stands r1). { unfold stands, r1. cbn. intros X. apply app_eq_nil in X as [X _]. apply app_eq_nil in X as [_ X]. discriminate. }
  assert (C : exists r2, (if negb b then let! clo := last_ cl in let! cl := unwrap clo in update_first_vertex r1 (pos cl) else Ret r1) = Ret r2 /\ stands r2).
  { destruct (negb b); [|eauto]. destruct (stands_snoc cl S) as (l' & w' & E'). rewrite E', last_snoc_pline. cbn [rbind unwrap].
    destruct (update_first_total r1 (pos w') S1) as (r2 & -> & L). eexists. split; [reflexivity|]. apply stands_len. rewrite L. now apply stands_len. }
  destruct C as (r2 & -> & S2). cbn [rbind]. now apply prune_total.
Qed.

Lemma raw_total (p : pline T) offset eps : exists raw, create_raw_offset_polyline p offset eps = Ret raw /\ vertex_count raw <> 1.
Proof.
  unfold create_raw_offset_polyline. destruct (vertex_count p <? 2); [eexists; split; [reflexivity|discriminate]|].
  unfold create_untrimmed_raw_offset_segs. rewrite iter_segments_spec. cbn [rbind].
  destruct (map _ _) as [|s0 rest]; [eexists; split; [reflexivity|discriminate]|].
  destruct (match rest with [] => rs_collapsed_arc s0 | _ => false end); [eexists; split; [reflexivity|discriminate]|].
  cbv zeta. destruct (joins_stand (nltb offset nzero) eps (firstn 1 (windows2 (s0 :: rest))) (PL [rs_v1 s0] (is_closed p))) as (r1 & -> & S1); [discriminate|].
  cbn [rbind]. destruct (joins_stand (nltb offset nzero) eps (skipn 1 (windows2 (s0 :: rest))) r1 S1) as (r2 & -> & S2). cbn [rbind].
  assert (C : exists r3, (if is_closed p && (1 <? vertex_count r2)
     then close_raw_offset (nltb offset nzero) eps (last rest s0) s0 (vertex_count r1 =? 1) r2
     else Ret (add_or_replace_vertex r2 (rs_v2 (last rest s0)) eps)) = Ret r3 /\ stands r3).
  { destruct (_ && _); [now apply close_total|]. eexists. split; [reflexivity|apply add_or_replace_stands]. }
  destruct C as (r3 & -> & S3). cbn [rbind]. eexists. split; [reflexivity|].
  destruct (Nat.eqb_spec (vertex_count r3) 1) as [E|E]; [discriminate|exact E].
Qed.

(** ** Slicing *)

Definition total {A} (m : res A) : Prop := exists a, m = Ret a.
Lemma total_ret {A} (a : A) : total (Ret a). Proof. now exists a. Qed.
Lemma total_bind {A B} (m : res A) (f : A -> res B) : total m -> (forall a, m = Ret a -> total (f a)) -> total (rbind m f).
Proof. intros (a & ->) H. cbn [rbind]. now apply H. Qed.
Lemma total_rand a b : total a -> total b -> total (rand a b).
Proof. intros (x & ->) H. unfold rand. cbn [rbind]. destruct x; [exact H|apply total_ret]. Qed.
Lemma total_rnot a : total a -> total (rnot a).
Proof. intros (x & ->). apply total_ret. Qed.
Lemma total_rexists {A} (f : A -> res bool) l : (forall a, In a l -> total (f a)) -> total (rexists f l).
Proof.
  induction l as [|a t IH]; intros H; [apply total_ret|]. cbn [rexists]. apply total_bind; [apply H; now left|].
  intros b _. destruct b; [apply total_ret|]. apply IH. intros x Hx. apply H. now right.
Qed.
Lemma total_rmapM {A B} (f : A -> res B) l : (forall a, In a l -> total (f a)) -> total (rmapM f l).
Proof.
  induction l as [|a t IH]; intros H; [apply total_ret|]. cbn [rmapM]. apply total_bind; [apply H; now left|].
  intros b _. apply total_bind; [|intros; apply total_ret]. apply IH. intros x Hx. apply H. now right.
Qed.
Lemma total_at (p : pline T) i : i < vertex_count p -> total (at_ p i).
Proof. intros H. destruct (at_lt p i H) as (v & _ & ->). apply total_ret. Qed.

Lemma segs_le (p : pline T) : length (spec_segs (vtx p) (is_closed p)) <= vertex_count p.
Proof. rewrite spec_segs_length. unfold vertex_count. destruct (Nat.ltb_spec (length (vtx p)) 2); [lia|]. destruct (is_closed p); lia. Qed.

Section Slicing.
Context (p raw : pline T) (idx : sindex T) (offset : T) (o : offset_options T).
Hypothesis HIT : forall q i, In i (ix_query idx q) -> i < vertex_count p.

Lemma at_hit q i : In i (ix_query idx q) -> total (at_ p i) /\ total (at_ p (next_wrapping_index p i)).
Proof. intros H. apply HIT in H. split; apply total_at; [exact H|]. apply next_lt. lia. Qed.

Lemma point_valid_total pt eps tol : total (point_valid_for_offset p offset idx pt eps tol).
Proof.
  unfold point_valid_for_offset. apply total_bind; [|intros; apply total_ret]. apply total_rexists. intros i Hi.
  destruct (at_hit _ _ Hi) as [A B]. apply total_bind; [exact A|]. intros v1 _. apply total_bind; [exact B|]. intros; apply total_ret.
Qed.

Lemma intersects_total eps v1 v2 : total (intersects_original p idx eps v1 v2).
Proof.
  unfold intersects_original. apply total_rexists. intros i Hi. destruct (at_hit _ _ Hi) as [A B].
  apply total_bind; [exact A|]. intros u1 _. apply total_bind; [exact B|]. intros; apply total_ret.
Qed.

Lemma segments_total segs : total (segments_valid p idx offset o segs).
Proof.
  induction segs as [|[a b] t IH]; [apply total_ret|]. cbn [segments_valid].
  apply total_rand; [apply point_valid_total|]. apply total_rand; [apply total_rnot, intersects_total|exact IH].
Qed.

Lemma slice_valid_total s : slice_shape raw s -> total (slice_is_valid p raw idx offset o s).
Proof.
  intros (H1 & H2 & H3). unfold slice_is_valid. destruct (Nat.eqb_spec (vd_end_index_offset s) 0) as [E|E].
  - repeat (apply total_rand; [apply point_valid_total|]). apply total_rnot, intersects_total.
  - apply total_bind; [apply total_at, next_lt; lia|]. intros nv _. apply total_rand; [apply point_valid_total|].
    apply total_bind; [apply total_at; rewrite fwd_wrapping_index_mod by lia; apply Nat.mod_upper_bound; lia|].
    intros ev _. apply total_rand; [apply point_valid_total|].
    destruct (view_forward_spec s raw H1 H2 H3) as (HG & HL & LEN). unfold view_pline. rewrite HL. cbn [rbind].
    rewrite iter_segments_spec. cbn [rbind]. apply total_rand; [apply segments_total|apply point_valid_total].
Qed.

Lemma points_slice_total sp i ep j : i < vertex_count raw -> j < vertex_count raw ->
  total (let! s := view_from_slice_points raw sp i ep j (oo_pos_equal_eps o) in valid_slice p raw idx offset o s).
Proof.
  intros Hi Hj. destruct (slice_points_total raw sp i ep j (oo_pos_equal_eps o) Hi Hj) as (d & -> & F). cbn [rbind].
  destruct d as [d|]; cbn [valid_slice]; [|apply total_ret]. apply total_bind; [|intros; apply total_ret].
  apply slice_valid_total. now apply F.
Qed.

(** The lookup: keys are positions of the raw polyline, no list is empty. *)
Definition lookup_ok (m : list (nat * list (vec2 T))) : Prop := forall e, In e m -> fst e < vertex_count raw /\ snd e <> [].

Lemma map_push_ok k v m : k < vertex_count raw -> lookup_ok m -> lookup_ok (map_push k v m).
Proof.
  intros Hk. induction m as [|[k' l] t IH]; intros H; cbn [map_push].
  - intros e [<-|[]]. split; [exact Hk|discriminate].
  - assert (Ht : lookup_ok t) by (intros e He; apply H; now right).
    destruct (Nat.ltb k k'); [intros e [<-|He]; [split; [exact Hk|discriminate]|now apply H]|].
    destruct (Nat.eqb k k').
    + intros e [<-|He]; [|apply H; now right]. split; [exact (proj1 (H (k', l) (or_introl eq_refl)))|]. cbn. intros X. apply app_eq_nil in X as [_ X]. discriminate.
    + intros e [<-|He]; [apply H; now left|]. now apply IH.
Qed.

Lemma fold_push_ok {A} (f : list (nat * list (vec2 T)) -> A -> list (nat * list (vec2 T))) l : 
  (forall m a, In a l -> lookup_ok m -> lookup_ok (f m a)) -> forall m, lookup_ok m -> lookup_ok (fold_left f l m).
Proof.
  induction l as [|a t IH]; intros H m Hm; [exact Hm|]. cbn [fold_left]. apply IH; [|apply H; [now left|exact Hm]].
  intros m' a' Ha. apply H. now right.
Qed.

Lemma sort_lookup_total m : lookup_ok m -> exists m', sort_lookup raw m = Ret m' /\ lookup_ok m' /\ length m' = length m.
Proof.
  unfold sort_lookup. induction m as [|[k l] t IH]; intros H; [exists []; split; [reflexivity|split; [intros e []|reflexivity]]|].
  cbn [rmapM fst snd]. destruct (H (k, l) (or_introl eq_refl)) as [Hk Hl]. cbn [fst snd] in Hk, Hl.
  destruct (at_lt raw k Hk) as (v & _ & ->). cbn [rbind]. destruct IH as (m' & -> & H' & L); [intros e He; apply H; now right|].
  cbn [rbind]. eexists. split; [reflexivity|]. split; [|cbn [length]; now rewrite L].
  intros e [<-|He]; [|now apply H']. split; [exact Hk|]. cbn [snd]. intros X. apply Hl.
  match type of X with isort ?f l = [] => pose proof (isort_perm f l) as PM end. rewrite X in PM. apply Permutation.Permutation_sym in PM. now apply Permutation.Permutation_nil in PM.
Qed.

Lemma entry_total wrap m e : lookup_ok m -> In e m -> total (slices_from_entry p raw idx offset o wrap m e).
Proof.
  intros HM He. destruct e as [i l]. destruct (HM _ He) as [Hi Hl]. cbn [fst snd] in Hi, Hl. unfold slices_from_entry.
  apply total_bind; [apply total_rmapM; intros ab _; now apply points_slice_total|]. intros within _.
  destruct (nth_error l (length l - 1)) as [li|] eqn:E.
  2:{ apply nth_error_None in E. destruct l; [congruence|]. cbn in E. lia. }
  cbn [unwrap rbind].
  assert (TE : forall found, In found m -> total
    (let! ep := index (snd found) 0 in
     let! s := view_from_slice_points raw li i ep (fst found) (oo_pos_equal_eps o) in
     let! r := valid_slice p raw idx offset o s in Ret (concat within ++ r, false))).
  { intros found Hf. destruct (HM _ Hf) as [Hk Hn]. destruct (index_lt (snd found) 0) as (ep & _ & ->); [destruct (snd found); [congruence|cbn; lia]|].
    cbn [rbind]. destruct (points_slice_total li i ep (fst found) Hi Hk) as (r & R).
    destruct (view_from_slice_points _ _ _ _ _ _) as [s|]; cbn [rbind] in R |- *; [|discriminate]. rewrite R. cbn [rbind]. apply total_ret. }
  destruct (find _ m) as [found|] eqn:F; [apply find_some in F as [F _]; now apply TE|].
  destruct wrap.
  - destruct (find (fun f => fst f <=? i) m) as [found|] eqn:F2; [apply find_some in F2 as [F2 _]; cbn [unwrap rbind]; now apply TE|].
    exfalso. pose proof (find_none _ _ F2 _ He) as X. cbn in X. apply Nat.leb_gt in X. lia.
  - assert (SR : stands raw) by (apply stands_len; lia). destruct (stands_snoc raw SR) as (l0 & w & EW).
    assert (LA : last_ raw = Ret (Some w)) by (rewrite EW; apply last_snoc_pline). rewrite LA. cbn [rbind unwrap].
    rewrite usub_ok by lia. cbn [rbind]. destruct (points_slice_total li i (pos w) (vertex_count raw - 1) Hi) as (r & R); [lia|].
    destruct (view_from_slice_points _ _ _ _ _ _) as [s|]; cbn [rbind] in R |- *; [|discriminate]. rewrite R. cbn [rbind]. apply total_ret.
Qed.

Lemma entries_total wrap m l : lookup_ok m -> incl l m -> total (slices_from_entries p raw idx offset o wrap m l).
Proof.
  intros HM. induction l as [|e t IH]; intros HI; [apply total_ret|]. cbn [slices_from_entries].
  apply total_bind; [apply entry_total; [exact HM|apply HI; now left]|]. intros r _. destruct (snd r); [apply total_ret|].
  apply total_bind; [|intros; apply total_ret]. apply IH. intros x Hx. apply HI. now right.
Qed.

Lemma whole_total : 2 <= vertex_count raw -> total (whole_slice p raw idx offset o).
Proof.
  intros H. unfold whole_slice. apply total_bind; [apply total_at; lia|]. intros v0 _.
  apply total_bind; [apply point_valid_total|]. intros ok _. destruct (negb ok); [apply total_ret|].
  apply total_bind; [|intros; apply total_ret]. unfold view_from_entire_pline.
  destruct (Nat.ltb_spec (vertex_count raw) 2); [lia|]. apply total_bind; [apply total_at; lia|]. intros v1 _.
  destruct (is_closed raw).
  - assert (SR : stands raw) by (apply stands_len; lia). destruct (stands_snoc raw SR) as (l0 & w & EW).
    assert (LA : last_ raw = Ret (Some w)) by (rewrite EW; apply last_snoc_pline). rewrite LA. cbn [rbind unwrap]. apply total_ret.
  - apply total_bind; [apply total_at; lia|]. intros w _. apply total_bind; [apply total_at; lia|]. intros; apply total_ret.
Qed.

Context (mk : list (aabb T) -> sindex T).
Hypothesis MK : makes_index mk.

Local Notation raw_boxes := (map (fun s => seg_fast_approx_bounding_box (fst s) (snd s)) (spec_segs (vtx raw) (is_closed raw))).

Lemma raw_boxes_len : length raw_boxes = length (spec_segs (vtx raw) (is_closed raw)).
Proof. apply map_length. Qed.

Lemma self_total : exists l, all_self_intersects_as_basic raw (mk raw_boxes) false (oo_pos_equal_eps o) = Ret l
  /\ Forall (fun b => bi_index1 b < vertex_count raw /\ bi_index2 b < vertex_count raw) l.
Proof.
  destruct (as_basic_pairs raw (oo_pos_equal_eps o) raw_boxes (mk raw_boxes) false (MK _) raw_boxes_len) as (pairs & PO & E).
  eexists. split; [exact E|]. apply Forall_forall. intros b Hb. apply in_flat_map in Hb as (ev & Hev & Hb).
  destruct ev as [b'|ov]; cbn [basic_of] in Hb; [|destruct Hb]. destruct Hb as [->|[]].
  assert (LT : forall i x, nth_error (spec_segs (vtx raw) (is_closed raw)) i = Some x -> i < vertex_count raw).
  { intros i x Hx. assert (i < length (spec_segs (vtx raw) (is_closed raw))) by (apply nth_error_Some; congruence). pose proof (segs_le raw). lia. }
  apply in_app_iff in Hev as [Hev|Hev].
  - unfold local_events in Hev. destruct (vertex_count raw <? 3) eqn:L3.
    + destruct (vtx raw) as [|a [|b2 [|c t]]]; try destruct Hev. destruct (_ && _); [|destruct Hev]. destruct Hev as [X|[]]. discriminate.
    + apply in_flat_map in Hev as (k & _ & Hev). unfold local_pair in Hev.
      destruct (nth_error _ k) as [[v1 v2]|] eqn:E1; [|destruct Hev]. destruct (nth_error _ ((k + 1) mod _)) as [[u1 u2]|] eqn:E2; [|destruct Hev].
      destruct (v2fuzzy_eq_eps _ _ _); [destruct Hev as [X|[]]; discriminate|]. apply events_indexes in Hev as (<- & -> & _). split; [eapply LT; exact E1|eapply LT; exact E2].
  - apply in_flat_map in Hev as ([i j] & _ & Hev). unfold global_pair in Hev.
    destruct (nth_error _ i) as [[v1 v2]|] eqn:E1; [|destruct Hev]. destruct (nth_error _ j) as [[u1 u2]|] eqn:E2; [|destruct Hev].
    apply events_indexes in Hev as (-> & -> & _). split; [eapply LT; exact E1|eapply LT; exact E2].
Qed.

Lemma boxes_total : create_approx_aabb_index raw = Ret raw_boxes.
Proof. unfold create_approx_aabb_index. apply create_index_spec. Qed.

Lemma push_self_ok l m : Forall (fun b => bi_index1 b < vertex_count raw /\ bi_index2 b < vertex_count raw) l -> lookup_ok m -> lookup_ok (fold_left push_both l m).
Proof.
  intros F. rewrite Forall_forall in F. apply fold_push_ok. intros m' b Hb Hm. destruct (F b Hb) as [A B]. unfold push_both.
  apply map_push_ok; [exact B|]. now apply map_push_ok.
Qed.

Lemma raw_slices_total : total (slices_from_raw_offset mk p raw idx offset o).
Proof.
  unfold slices_from_raw_offset. destruct (Nat.ltb_spec (vertex_count raw) 2) as [L|L]; [apply total_ret|].
  rewrite boxes_total. cbn [rbind]. destruct self_total as (l & -> & F). cbn [rbind]. destruct l as [|b t]; [now apply whole_total|].
  destruct (sort_lookup_total (fold_left push_both (b :: t) [])) as (m & -> & HM & _); [apply push_self_ok; [exact F|intros e []]|].
  cbn [rbind]. apply entries_total; [exact HM|apply incl_refl].
Qed.

Lemma circle_total c r eps : exists l, visit_circle_intersects raw c r (mk raw_boxes) eps = Ret l
  /\ Forall (fun e => fst e < vertex_count raw) l.
Proof.
  unfold visit_circle_intersects. cbv zeta. set (hits := ix_query _ _).
  assert (HL : forall i, In i hits -> i < vertex_count raw).
  { intros i Hi. destruct (MK raw_boxes) as (_ & _ & Q). apply (Q _) in Hi as (b & E & _).
    assert (i < length raw_boxes) by (apply nth_error_Some; congruence). rewrite raw_boxes_len in H. pose proof (segs_le raw). lia. }
  clearbody hits.
  match goal with |- exists l, rbind (rmapM ?F hits) _ = _ /\ _ => set (f := F) end.
  assert (C : forall i, In i hits -> exists l, f i = Ret l /\ Forall (fun e => fst e < vertex_count raw) l).
  { intros i Hi. apply HL in Hi. unfold f. destruct (at_lt raw i Hi) as (v1 & _ & ->). cbn [rbind].
    destruct (at_lt raw (next_wrapping_index raw i)) as (v2 & _ & ->); [apply next_lt; lia|]. cbn [rbind].
    assert (ONE : forall (b : bool) (q : vec2 T), Forall (fun e : nat * vec2 T => fst e < vertex_count raw) (if b then [(i, q)] else [])).
    { intros [] q; repeat constructor. exact Hi. }
    destruct (bulge_is_zero v1).
    - destruct (line_circle_intr _ _ _ _ _); eexists; (split; [reflexivity|]); [constructor|apply ONE|apply Forall_app; split; apply ONE].
    - destruct (seg_arc_radius_and_center v1 v2) as [ar ac].
      destruct (circle_circle_intr _ _ _ _ _); eexists; (split; [reflexivity|]); [constructor|apply ONE|apply Forall_app; split; apply ONE|constructor]. }
  clearbody f. clear HL. assert (G : exists ls, rmapM f hits = Ret ls /\ Forall (fun e => fst e < vertex_count raw) (concat ls)).
  { induction hits as [|i t IH]; [exists []; split; [reflexivity|constructor]|]. cbn [rmapM].
    destruct (C i (or_introl eq_refl)) as (l & -> & F). cbn [rbind]. destruct IH as (ls & -> & FS); [intros j Hj; apply C; now right|].
    cbn [rbind]. eexists. split; [reflexivity|]. cbn [concat]. now apply Forall_app. }
  destruct G as (ls & -> & F). cbn [rbind]. eauto.
Qed.

Lemma dual_slices_total dual : 2 <= vertex_count p -> total (slices_from_dual_raw_offsets mk p raw dual idx offset o).
Proof.
  intros LP. unfold slices_from_dual_raw_offsets. destruct (Nat.ltb_spec (vertex_count raw) 2) as [L|L]; [apply total_ret|].
  rewrite boxes_total. cbn [rbind]. destruct self_total as (sl & -> & SF). cbn [rbind].
  destruct (find_intersects_each raw dual (oo_pos_equal_eps o) raw_boxes (mk raw_boxes) (MK _) raw_boxes_len) as (bs & os & -> & BF & _). cbn [rbind fst].
  match goal with |- total (rbind ?X _) => assert (C : exists m, X = Ret m /\ lookup_ok m) end.
  { destruct (negb (is_closed p)); [|exists []; split; [reflexivity|intros e []]].
    destruct (at_lt p 0) as (v0 & _ & ->); [lia|]. cbn [rbind].
    destruct (circle_total (pos v0) (nabs offset) (oo_pos_equal_eps o)) as (c1 & -> & F1). cbn [rbind].
    assert (SP : stands p) by (apply stands_len; lia). destruct (stands_snoc p SP) as (l0 & w & EW).
    assert (LA : last_ p = Ret (Some w)) by (rewrite EW; apply last_snoc_pline). rewrite LA. cbn [rbind unwrap].
    destruct (circle_total (pos w) (nabs offset) (oo_pos_equal_eps o)) as (c2 & -> & F2). cbn [rbind].
    eexists. split; [reflexivity|]. apply fold_push_ok; [|intros e []]. intros m e He Hm. apply map_push_ok; [|exact Hm].
    assert (F : Forall (fun e => fst e < vertex_count raw) (c1 ++ c2)) by now apply Forall_app. rewrite Forall_forall in F. now apply F. }
  destruct C as (m0 & -> & H0). cbn [rbind]. cbv zeta.
  match goal with |- total (match ?M with [] => _ | _ => _ end) => assert (HM : lookup_ok M) end.
  { rewrite Forall_forall in BF. apply fold_push_ok; [|now apply push_self_ok]. intros m b Hb Hm. apply map_push_ok; [|exact Hm].
    destruct (BF b Hb) as ((v1 & v2 & u1 & u2 & E1 & _) & _).
    assert (bi_index1 b < length (spec_segs (vtx raw) (is_closed raw))) by (apply nth_error_Some; congruence). pose proof (segs_le raw). lia. }
  match goal with |- total (match ?M with [] => _ | _ => _ end) => destruct M as [|e0 m1] end; [now apply whole_total|].
  destruct (sort_lookup_total _ HM) as (m & -> & HM' & LM). cbn [rbind].
  apply total_bind.
  - destruct (negb (is_closed p)); [|apply total_ret]. destruct (index_lt m 0) as (e & IE & ->); [cbn in LM; lia|]. cbn [rbind].
    apply nth_error_In in IE. destruct (HM' e IE) as [Hk Hn].
    destruct (index_lt (snd e) 0) as (q & _ & ->); [destruct (snd e); [congruence|cbn; lia]|]. cbn [rbind].
    destruct (at_lt raw 0) as (w0 & _ & ->); [lia|]. cbn [rbind]. apply points_slice_total; [lia|exact Hk].
  - intros first _. apply total_bind; [|intros; apply total_ret]. apply entries_total; [exact HM'|apply incl_refl].
Qed.
End Slicing.

(** ** The whole *)

Section Whole.
Context (mk : list (aabb T) -> sindex T) (p : pline T) (idx : sindex T) (boxes : list (aabb T)) (offset : T) (o : offset_options T).
Hypothesis MK : makes_index mk.
Hypothesis IDX : index_of boxes idx.
Hypothesis BL : length boxes = length (spec_segs (vtx p) (is_closed p)).

Lemma idx_hits q i : In i (ix_query idx q) -> i < vertex_count p.
Proof.
  intros H. destruct IDX as (_ & _ & Q). apply (Q q) in H as (b & E & _).
  assert (i < length boxes) by (apply nth_error_Some; congruence). pose proof (segs_le p). lia.
Qed.

Lemma kept_fits raw l : (forall s, In s l -> kept p raw idx offset o s) -> Forall (view_fits raw) l /\ Forall (fun s => vd_start_index s <= vertex_count raw - 1) l.
Proof.
  intros H. split; apply Forall_forall; intros s Hs; destruct (H s Hs) as ((A & B & C) & _).
  - split; [exact A|]. split; [exact B|exact C].
  - lia.
Qed.

(** The slices that are stitched, and the result of stitching them. *)
Lemma parallel_offset_stitched : 2 <= vertex_count p ->
  exists raw, create_raw_offset_polyline p offset (oo_pos_equal_eps o) = Ret raw
  /\ ((vertex_count raw = 0 /\ parallel_offset mk p idx offset o = Ret [])
      \/ (2 <= vertex_count raw /\ exists slices last chains Ks,
           parallel_offset mk p idx offset o
             = Ret (offset_results slices (is_closed p) (oo_pos_equal_eps o) (oo_slice_join_eps o) Ks)
           /\ all_chained (path_at raw slices) (next_at slices (oo_slice_join_eps o)) (nearest_ahead slices last (oo_pos_equal_eps o)) true (oo_pos_equal_eps o) chains Ks
           /\ Permutation.Permutation (concat chains) (seq 0 (length slices))
           /\ (if is_closed p && negb (oo_handle_self_intersects o)
               then slices_from_raw_offset mk p raw idx offset o = Ret slices
               else exists dual, create_raw_offset_polyline p (nneg offset) (oo_pos_equal_eps o) = Ret dual
                    /\ slices_from_dual_raw_offsets mk p raw dual idx offset o = Ret slices))).
Proof.
  intros LP. unfold parallel_offset. destruct (Nat.ltb_spec (vertex_count p) 2); [lia|].
  destruct (raw_total p offset (oo_pos_equal_eps o)) as (raw & -> & R1). exists raw. split; [reflexivity|]. cbn [rbind].
  unfold is_empty. destruct (Nat.eqb_spec (vertex_count raw) 0) as [E0|E0]; [left; auto|]. right. split; [lia|].
  destruct (is_closed p && negb (oo_handle_self_intersects o)) eqn:M.
  - destruct (raw_slices_total p raw idx offset o idx_hits mk MK) as (slices & ES). rewrite ES. cbn [rbind].
    rewrite usub_ok by lia. cbn [rbind].
    destruct (kept_fits raw slices (raw_slices_kept p raw idx offset o mk slices ES)) as [F1 F2].
    destruct (stitch_offset_spec mk raw slices true (vertex_count raw - 1) o MK F1 F2) as (chains & Ks & E & C & P).
    apply andb_prop in M as [M _]. rewrite M. exists slices, (vertex_count raw - 1), chains, Ks. auto.
  - destruct (raw_total p (nneg offset) (oo_pos_equal_eps o)) as (dual & ED & _). rewrite ED. cbn [rbind].
    destruct (dual_slices_total p raw idx offset o idx_hits mk MK dual LP) as (slices & ES). rewrite ES. cbn [rbind].
    destruct (kept_fits raw slices (dual_slices_kept p raw idx offset o mk dual slices ES)) as [F1 F2].
    assert (F3 : Forall (fun s => vd_start_index s <= vertex_count raw) slices) by (eapply Forall_impl; [|exact F2]; cbn; intros; lia).
    destruct (stitch_offset_spec mk raw slices (is_closed p) (vertex_count raw) o MK F1 F3) as (chains & Ks & E & C & P).
    exists slices, (vertex_count raw), chains, Ks. repeat split; auto. exists dual. auto.
Qed.
End Whole.
End OffsetTotal.
