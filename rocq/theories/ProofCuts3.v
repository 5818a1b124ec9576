(** Cutting the raw offset (C49): where it is cut; the whole. *)
From Coq Require Import List Bool Arith Permutation Sorted Lia.
From Verif Require Import Num Res ModelMath ModelIntr ModelSeg ModelPline ModelView ModelSegIntr ModelIndex ModelIntersects ModelBoolean ModelOffset.
From Verif Require Import Spec SpecPline SpecView SpecIndex SpecIntersects SpecStitch SpecChain SpecShape SpecCuts.
From Verif Require Import ProofBase ProofRepeat ProofIter ProofView ProofIndex2 ProofSelf ProofFind ProofJoin ProofPrune ProofOffset2 ProofOffsetTotal ProofCuts ProofCuts2.
Import ListNotations.

Section Where.
Context {T : Type} {N : Num T}.
Context (mk : list (aabb T) -> sindex T) (p raw : pline T) (idx : sindex T) (offset : T) (o : offset_options T).
Hypothesis MK : makes_index mk.
Hypothesis IDX : pline_index p idx.
Local Notation eps := (oo_pos_equal_eps o).
Local Notation vc := (vertex_count raw).
Local Notation segs := (spec_segs (vtx raw) (is_closed raw)).
Local Notation cut := (nat * vec2 T)%type.

Lemma rmapM_map {A B} (f : A -> res B) g l : (forall a, In a l -> f a = Ret (g a)) -> rmapM f l = Ret (map g l).
Proof.
  induction l as [|a t IH]; intros H; [reflexivity|]. cbn [rmapM map]. rewrite (H a) by now left. cbn [rbind].
  rewrite IH by (intros x Hx; apply H; now right). reflexivity.
Qed.

Lemma circle_spec c r : exists hits, circle_hits raw c r hits
  /\ visit_circle_intersects raw c r (mk (boxes_of raw)) eps = Ret (circle_cuts raw c r eps hits).
Proof.
  set (box := aabb_grow (point_box c) r). exists (ix_query (mk (boxes_of raw)) box). destruct (MK (boxes_of raw)) as (_ & _ & Q). split.
  - split; [apply (Q box)|]. exact (proj2 (Q box)).
  - unfold visit_circle_intersects. cbv zeta. fold box.
    rewrite (rmapM_map _ (fun i => match nth_error segs i with Some (v1, v2) => map (pair i) (circle_points c r eps v1 v2) | None => [] end)).
    + cbn [rbind]. unfold circle_cuts. now rewrite flat_map_concat_map.
    + intros i Hi. apply (Q box) in Hi as (b & Eb & _). unfold boxes_of in Eb. rewrite nth_error_map in Eb.
      destruct (nth_error segs i) as [[v1 v2]|] eqn:E; [|discriminate]. destruct (seg_lookup raw i v1 v2 E) as [-> ->]. cbn [rbind].
      unfold circle_points. destruct (bulge_is_zero v1).
      * destruct (line_circle_intr _ _ _ _ _) as [|t|t0 t1]; [reflexivity| |]; cbn [filter];
          unfold is_false_intersect; rewrite ?negb_orb; repeat destruct (_ && _); reflexivity.
      * destruct (seg_arc_radius_and_center v1 v2) as [ar ac]. cbn [fst snd].
        destruct (circle_circle_intr _ _ _ _ _) as [|q|q1 q2|]; [reflexivity| | |reflexivity]; cbn [filter]; repeat destruct (_ && _); reflexivity.
Qed.

Lemma circle_lt c r hits x : In x (circle_cuts raw c r eps hits) -> fst x < length segs.
Proof.
  intros H. apply in_flat_map in H as (i & _ & H). destruct (nth_error segs i) as [[v1 v2]|] eqn:E; [|destruct H].
  apply in_map_iff in H as (q & <- & _). cbn [fst]. apply nth_error_Some. congruence.
Qed.

Lemma self_lt pairs x : In x (self_cuts raw eps pairs) -> fst x < length segs.
Proof.
  assert (LT : forall i s, nth_error segs i = Some s -> i < length segs) by (intros i s Hs; apply nth_error_Some; congruence).
  intros H. apply in_flat_map in H as (b & Hb & Hx).
  assert (X : bi_index1 b < length segs /\ bi_index2 b < length segs).
  { apply basics_In in Hb. apply in_app_iff in Hb as [Hev|Hev].
    - unfold local_events in Hev. destruct (vertex_count raw <? 3).
      + destruct (vtx raw) as [|a [|b2 [|c t]]]; try destruct Hev. destruct (_ && _); [|destruct Hev]. destruct Hev as [X|[]]. discriminate.
      + apply in_flat_map in Hev as (k & _ & Hev). unfold local_pair in Hev.
        destruct (nth_error _ k) as [[v1 v2]|] eqn:E1; [|destruct Hev]. destruct (nth_error _ ((k + 1) mod _)) as [[u1 u2]|] eqn:E2; [|destruct Hev].
        destruct (v2fuzzy_eq_eps _ _ _); [destruct Hev as [X|[]]; discriminate|]. apply events_indexes in Hev as (<- & -> & _). split; [eapply LT; exact E1|eapply LT; exact E2].
    - apply in_flat_map in Hev as ([i j] & _ & Hev). unfold global_pair in Hev.
      destruct (nth_error _ i) as [[v1 v2]|] eqn:E1; [|destruct Hev]. destruct (nth_error _ j) as [[u1 u2]|] eqn:E2; [|destruct Hev].
      apply events_indexes in Hev as (-> & -> & _). split; [eapply LT; exact E1|eapply LT; exact E2]. }
  destruct X as [X1 X2]. destruct Hx as [<-|[<-|[]]]; assumption.
Qed.

Lemma dual_lt dual cross x : In x (dual_cuts raw dual eps cross) -> fst x < length segs.
Proof.
  intros H. apply in_map_iff in H as (b & <- & Hb). apply filter_In in Hb as [Hb _]. apply basics_In in Hb. cbn [fst].
  apply in_flat_map in Hb as ([i j] & _ & Hb). unfold cross_pair in Hb.
  destruct (nth_error _ i) as [[v1 v2]|] eqn:E1; [|destruct Hb]. destruct (nth_error (spec_segs (vtx dual) _) j) as [[u1 u2]|]; [|destruct Hb].
  apply events_indexes in Hb as (-> & _). apply nth_error_Some. congruence.
Qed.

Lemma push_both_all (l : list (basic_intr T)) : forall m, fold_left push_both l m = push_all (flat_map (fun b => [(bi_index1 b, bi_point b); (bi_index2 b, bi_point b)]) l) m.
Proof. induction l as [|b t IH]; intros m; [reflexivity|]. cbn [fold_left flat_map app]. rewrite IH. reflexivity. Qed.

Lemma push_dual_all (l : list (basic_intr T)) : forall m, fold_left (fun m b => map_push (bi_index1 b) (bi_point b) m) l m
  = push_all (map (fun b => (bi_index1 b, bi_point b)) l) m.
Proof. induction l as [|b t IH]; intros m; [reflexivity|]. cbn [fold_left map]. rewrite IH. reflexivity. Qed.

Lemma push_all_app (a b : list cut) m : push_all (a ++ b) m = push_all b (push_all a m).
Proof. unfold push_all. apply fold_left_app. Qed.

Lemma push_all_nil (l : list cut) : push_all l [] = [] -> l = [].
Proof.
  intros H. assert (P : Permutation (flatten (push_all l [])) l) by (eapply perm_trans; [apply flatten_push_all|]; cbn; rewrite app_nil_r; reflexivity).
  rewrite H in P. now apply Permutation_nil in P.
Qed.

Lemma basics_self (l : list (intr_event T)) : flat_map (basic_of false) l = basics l.
Proof. unfold basics. apply flat_map_ext. intros [b|ov]; reflexivity. Qed.

Lemma segs_vc : length segs <= vc.
Proof. apply segs_le. Qed.
Lemma segs_open : 2 <= vc -> is_closed raw = false -> forall i, i < length segs -> i + 1 < vc.
Proof. intros H C i. rewrite spec_segs_length. unfold vertex_count in *. destruct (Nat.ltb_spec (length (vtx raw)) 2); [lia|]. rewrite C. lia. Qed.

Lemma raw_sliced_spec : 2 <= vc -> exists ds, slices_from_raw_offset mk p raw idx offset o = Ret ds /\ raw_sliced p raw offset o ds.
Proof.
  intros TWO. unfold slices_from_raw_offset. destruct (Nat.ltb_spec vc 2); [lia|]. rewrite boxes_total. cbn [rbind].
  destruct (as_basic_pairs raw eps (boxes_of raw) (mk (boxes_of raw)) false (MK _) (map_length _ _)) as (pairs & PO & E).
  fold (boxes_of raw). rewrite E. cbn [rbind]. rewrite basics_self.
  pose proof (push_both_all (basics (local_events raw eps ++ flat_map (global_pair raw eps) pairs)) []) as PB. fold (self_cuts raw eps pairs) in PB.
  assert (NL : basics (local_events raw eps ++ flat_map (global_pair raw eps) pairs) = [] <-> self_cuts raw eps pairs = []).
  { unfold self_cuts. destruct (basics _); split; intros X; try reflexivity; discriminate. }
  destruct (basics _) as [|b t].
  - destruct (whole_spec p raw idx offset o IDX TWO) as (ds & EW & C). exists ds. split; [exact EW|]. exists pairs. split; [exact PO|].
    rewrite (proj1 NL eq_refl). apply C.
  - destruct (round_spec p raw idx offset o IDX TWO (self_cuts raw eps pairs)) as (m & ds & E1 & E2 & C).
    + intros X. now apply NL in X.
    + intros c Hc. apply self_lt in Hc. pose proof segs_vc. lia.
    + rewrite PB. rewrite E1. cbn [rbind]. exists ds. split; [exact E2|]. exists pairs. auto.
Qed.

Lemma dual_sliced_spec dual : 2 <= vc -> 2 <= vertex_count p -> (is_closed p = false -> is_closed raw = false) ->
  exists ds, slices_from_dual_raw_offsets mk p raw dual idx offset o = Ret ds /\ dual_sliced p raw dual offset o ds.
Proof.
  intros TWO TP CR. unfold slices_from_dual_raw_offsets. destruct (Nat.ltb_spec vc 2); [lia|]. rewrite boxes_total. cbn [rbind]. cbv zeta. fold (boxes_of raw).
  destruct (as_basic_pairs raw eps (boxes_of raw) (mk (boxes_of raw)) false (MK _) (map_length _ _)) as (pairs & PO & ->). cbn [rbind]. rewrite basics_self.
  destruct (find_intersects_pairs raw dual eps (boxes_of raw) (mk (boxes_of raw)) (MK _) (map_length _ _)) as (cross & CO & EC). cbv zeta in EC. rewrite EC. cbn [rbind fst].
  match goal with |- exists ds, rbind ?X _ = _ /\ _ => assert (EN : exists ends, X = Ret (push_all ends []) /\ (forall c, In c ends -> fst c < length segs)
    /\ (if is_closed p then ends = []
      else exists v w h1 h2, hd_error (vtx p) = Some v /\ hd_error (rev (vtx p)) = Some w
           /\ circle_hits raw (pos v) (nabs offset) h1 /\ circle_hits raw (pos w) (nabs offset) h2
           /\ ends = circle_cuts raw (pos v) (nabs offset) eps h1 ++ circle_cuts raw (pos w) (nabs offset) eps h2)) end.
  { destruct (is_closed p); cbn [negb]; [exists []; split; [reflexivity|]; split; [intros c []|reflexivity]|].
    destruct (at_lt p 0) as (v0 & NV & ->); [lia|]. cbn [rbind].
    destruct (circle_spec (pos v0) (nabs offset)) as (h1 & H1 & ->). cbn [rbind].
    destruct (last_cut_ok p TP) as (w & -> & HW & _). cbn [rbind unwrap].
    destruct (circle_spec (pos w) (nabs offset)) as (h2 & H2 & ->). cbn [rbind].
    eexists. split; [reflexivity|]. split.
    - intros c Hc. apply in_app_iff in Hc as [Hc|Hc]; eapply circle_lt; exact Hc.
    - exists v0, w, h1, h2. split; [destruct (vtx p); [discriminate|exact NV]|]. auto. }
  destruct EN as (ends & -> & LE & HE). cbn [rbind].
  rewrite push_both_all, push_dual_all. fold (self_cuts raw eps pairs). fold (dual_cuts raw dual eps cross).
  rewrite <- !push_all_app.
  set (cuts := ends ++ self_cuts raw eps pairs ++ dual_cuts raw dual eps cross) in *.
  assert (LC : forall c, In c cuts -> fst c < length segs).
  { intros c Hc. unfold cuts in Hc. apply in_app_iff in Hc as [Hc|Hc]; [now apply LE|]. apply in_app_iff in Hc as [Hc|Hc]; [eapply self_lt|eapply dual_lt]; exact Hc. }
  assert (DONE : forall ds, cut_slices p offset o (is_closed p) raw cuts ds -> dual_sliced p raw dual offset o ds).
  { intros ds C. exists pairs, cross, ends. auto. }
  assert (PN : push_all cuts [] = [] <-> cuts = []) by (split; [apply push_all_nil|intros ->; reflexivity]).
  destruct (list_eq_dec (fun a b : nat => Nat.eq_dec a b) (map fst cuts) []) as [EQ|NEQ].
  - apply map_eq_nil in EQ. rewrite (proj2 PN EQ). destruct (whole_spec p raw idx offset o IDX TWO) as (ds & EW & C). exists ds. split; [exact EW|].
    apply DONE. rewrite EQ. apply C.
  - assert (NE : cuts <> []) by (intros X; apply NEQ; rewrite X; reflexivity).
    destruct (push_all cuts []) as [|e m0] eqn:EP; [exfalso; now apply NE, PN|]. rewrite <- EP.
    destruct (is_closed p) eqn:CP; cbn [negb].
    + destruct (round_spec p raw idx offset o IDX TWO cuts NE) as (m & ds & E1 & E2 & C).
      { intros c Hc. apply LC in Hc. pose proof segs_vc. lia. }
      rewrite E1. cbn [rbind]. rewrite E2. cbn [rbind app]. exists ds. split; [reflexivity|apply DONE; exact C].
    + destruct (ends_spec p raw idx offset o IDX TWO cuts NE) as (m & e0 & q & v0 & d1 & d2 & E1 & E2 & E3 & E4 & E5 & E6 & C).
      { intros c Hc. apply LC in Hc. pose proof segs_vc. lia. }
      { intros c Hc. apply LC in Hc. now apply segs_open; [|apply CR|]. }
      rewrite E1. cbn [rbind]. rewrite E2. cbn [rbind]. rewrite E3. cbn [rbind]. rewrite E4. cbn [rbind].
      destruct (view_from_slice_points raw (pos v0) 0 q (fst e0) eps) as [s|]; cbn [rbind] in E5 |- *; [|discriminate]. rewrite E5. cbn [rbind]. rewrite E6. cbn [rbind].
      eexists. split; [reflexivity|apply DONE; exact C].
Qed.
End Where.

(** The whole: the slices stitched together are those. *)
Lemma offset_cut {T} {N : Num T} mk (p : pline T) idx offset o : makes_index mk -> pline_index p idx -> 2 <= vertex_count p ->
  exists raw, create_raw_offset_polyline p offset (oo_pos_equal_eps o) = Ret raw
  /\ ((vertex_count raw = 0 /\ parallel_offset mk p idx offset o = Ret [])
      \/ (2 <= vertex_count raw /\ exists slices last chains Ks, offset_slices p offset o raw slices
           /\ parallel_offset mk p idx offset o
              = Ret (offset_results slices (is_closed p) (oo_pos_equal_eps o) (oo_slice_join_eps o) Ks)
           /\ all_chained (path_at raw slices) (next_at slices (oo_slice_join_eps o)) (nearest_ahead slices last (oo_pos_equal_eps o)) true (oo_pos_equal_eps o) chains Ks
           /\ Permutation (concat chains) (seq 0 (length slices)))).
Proof.
  intros MK IDX TP. destruct (parallel_offset_stitched mk p idx _ offset o MK IDX (map_length _ _) TP) as (raw & ER & H). exists raw. split; [exact ER|].
  destruct H as [H|(TWO & slices & last & chains & Ks & E & AC & PC & S)]; [left; exact H|]. right. split; [exact TWO|].
  exists slices, last, chains, Ks. split; [|auto]. unfold offset_slices. destruct (_ && _).
  - destruct (raw_sliced_spec mk p raw idx offset o MK IDX TWO) as (ds & E1 & R). rewrite S in E1. injection E1 as <-. exact R.
  - destruct S as (dual & ED & S). exists dual. split; [exact ED|].
    destruct (dual_sliced_spec mk p raw idx offset o MK IDX dual TWO TP) as (ds & E1 & R).
    + intros C. rewrite <- C. eapply raw_closed; [exact ER|lia].
    + rewrite S in E1. injection E1 as <-. exact R.
Qed.
