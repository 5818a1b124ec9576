(** Cutting the raw offset (C49): the raw offset is closed if the polyline is; the tests of a slice. *)
From Coq Require Import List Bool Arith Permutation Sorted Lia.
From Verif Require Import Num Res ModelMath ModelIntr ModelSeg ModelPline ModelView ModelSegIntr ModelIndex ModelIntersects ModelBoolean ModelOffset.
From Verif Require Import Spec SpecPline SpecView SpecIndex SpecIntersects SpecChain SpecShape SpecCuts.
From Verif Require Import ProofBase ProofRepeat ProofIter ProofView ProofIndex2 ProofOffset2 ProofOffsetTotal.
Import ListNotations.

Section Closed.
Context {T : Type} {N : Num T}.

Lemma add_or_replace_closed (p : pline T) v eps : is_closed (add_or_replace_vertex p v eps) = is_closed p.
Proof. unfold add_or_replace_vertex. destruct (rev (vtx p)); [reflexivity|]. destruct (v2fuzzy_eq_eps _ _ _); reflexivity. Qed.

Lemma add_or_replace_closed' (p : pline T) x y b eps : is_closed (add_or_replace p x y b eps) = is_closed p.
Proof. apply add_or_replace_closed. Qed.

Lemma connect_closed s1 s2 ccw (r : pline T) eps : is_closed (connect_using_arc s1 s2 ccw r eps) = is_closed r.
Proof. unfold connect_using_arc. now rewrite !add_or_replace_closed'. Qed.

Lemma set_vertex_closed (r : pline T) i v r' : set_vertex r i v = Ret r' -> is_closed r' = is_closed r.
Proof. unfold set_vertex. destruct (set_index _ _ _); cbn [rbind]; [|discriminate]. now intros [= <-]. Qed.

Lemma set_last_closed (r : pline T) v r' : set_last r v = Ret r' -> is_closed r' = is_closed r.
Proof. unfold set_last. destruct (usub _ _); cbn [rbind]; [|discriminate]. apply set_vertex_closed. Qed.

Lemma trim_closed (r : pline T) v c i eps r' : trim_previous_arc r v c i eps = Ret r' -> is_closed r' = is_closed r.
Proof.
  unfold trim_previous_arc. destruct (last_ r) as [[w|]|]; cbn [rbind unwrap]; try discriminate.
  destruct (_ && _); [|now intros [= <-]]. destruct (Bool.eqb _ _); [|now intros [= <-]]. apply set_last_closed.
Qed.

Lemma join_closed ccw eps (r : pline T) ss r' : join_seg_pair ccw eps r ss = Ret r' -> is_closed r' = is_closed r.
Proof.
  destruct ss as [s1 s2]. unfold join_seg_pair. destruct (bulge_is_zero (rs_v1 s1)), (bulge_is_zero (rs_v1 s2)).
  - intros [= <-]. unfold line_line_join. destruct (_ || _); [apply connect_closed|].
    destruct (line_line_intr _ _ _ _ _); rewrite ?add_or_replace_closed'; try reflexivity.
    destruct (_ && _); [apply connect_closed|now rewrite !add_or_replace_closed'].
  - intros [= <-]. assert (P : forall c t i, is_closed (line_arc_process s1 s2 ccw eps r c t i) = is_closed r).
    { intros c t i. unfold line_arc_process. destruct (_ && _); [destruct (Bool.eqb _ _); now rewrite !add_or_replace_closed'|].
      destruct (_ && _); [apply connect_closed|]. destruct (rs_collapsed_arc s1); [apply connect_closed|now rewrite add_or_replace_closed, add_or_replace_closed']. }
    unfold line_arc_join. destruct (seg_arc_radius_and_center _ _) as [ar ac].
    destruct (line_circle_intr _ _ _ _ _); [apply connect_closed|apply P|]. destruct (nltb _ _); apply P.
  - assert (P : forall c t i, arc_line_process s1 s2 ccw eps r c t i = Ret r' -> is_closed r' = is_closed r).
    { intros c t i. unfold arc_line_process. destruct (_ && _); [|intros [= <-]; apply connect_closed].
      destruct (trim_previous_arc _ _ _ _ _) as [r1|] eqn:E; cbn [rbind]; [|discriminate]. intros [= <-].
      rewrite add_or_replace_closed'. exact (trim_closed _ _ _ _ _ _ E). }
    unfold arc_line_join. destruct (seg_arc_radius_and_center _ _) as [ar ac].
    destruct (line_circle_intr _ _ _ _ _); [intros [= <-]; apply connect_closed|apply P|]. destruct (nltb _ _); apply P.
  - assert (P : forall c1 c2 i b, arc_arc_process s1 s2 ccw eps r c1 c2 i b = Ret r' -> is_closed r' = is_closed r).
    { intros c1 c2 i b. unfold arc_arc_process. destruct (negb b); [intros [= <-]; apply connect_closed|].
      destruct (trim_previous_arc _ _ _ _ _) as [r1|] eqn:E; cbn [rbind]; [|discriminate].
      destruct (Bool.eqb _ _); intros [= <-]; rewrite add_or_replace_closed'; exact (trim_closed _ _ _ _ _ _ E). }
    unfold arc_arc_join. destruct (seg_arc_radius_and_center (rs_v1 s1) _) as [ar ac]. destruct (seg_arc_radius_and_center (rs_v1 s2) _) as [ar2 ac2].
    destruct (circle_circle_intr _ _ _ _ _).
    + intros [= <-]; apply connect_closed.
    + apply P.
    + destruct (fuzzy_eq_eps _ _ _); [destruct (_ && _)|destruct (nltb _ _)]; apply P.
    + intros [= <-]. apply add_or_replace_closed.
Qed.

Lemma joins_closed ccw eps l : forall (r r' : pline T), rfold (join_seg_pair ccw eps) l r = Ret r' -> is_closed r' = is_closed r.
Proof.
  induction l as [|a t IH]; intros r r'; cbn [rfold]; [now intros [= <-]|].
  destruct (join_seg_pair ccw eps r a) as [r1|] eqn:E; cbn [rbind]; [|discriminate]. intros H. rewrite (IH _ _ H). exact (join_closed _ _ _ _ _ E).
Qed.

Lemma remove_closed (r : pline T) i x : remove r i = Ret x -> is_closed (snd x) = is_closed r.
Proof. unfold remove. destruct (index _ _); cbn [rbind]; [|discriminate]. now intros [= <-]. Qed.
Lemma remove_last_closed (r : pline T) x : remove_last r = Ret x -> is_closed (snd x) = is_closed r.
Proof. unfold remove_last. destruct (usub _ _); cbn [rbind]; [|discriminate]. apply remove_closed. Qed.

Lemma update_first_closed (r : pline T) q r' : update_first_vertex r q = Ret r' -> is_closed r' = is_closed r.
Proof.
  unfold update_first_vertex. destruct (at_ r 0) as [v0|]; cbn [rbind]; [|discriminate].
  destruct (bulge_is_zero v0); [apply set_vertex_closed|]. destruct (1 <? vertex_count r); [|now intros [= <-]].
  destruct (at_ r 1); cbn [rbind]; [|discriminate]. destruct (_ || _); apply set_vertex_closed.
Qed.

Lemma prune_closed (r : pline T) eps r' : prune_singularity r eps = Ret r' -> is_closed r' = is_closed r.
Proof.
  unfold prune_singularity. destruct (1 <? vertex_count r); [|now intros [= <-]].
  destruct (at_ r 0) as [v0|]; cbn [rbind]; [|discriminate]. destruct (last_ r) as [[l|]|]; cbn [rbind unwrap]; try discriminate.
  match goal with |- rbind ?X _ = _ -> _ => assert (C : forall r1, X = Ret r1 -> is_closed r1 = is_closed r) end.
  { intros r1. destruct (v2fuzzy_eq_eps _ _ _); [|now intros [= <-]].
    destruct (remove_last r) as [x|] eqn:E; cbn [rbind]; [|discriminate]. intros [= <-]. exact (remove_last_closed _ _ E). }
  match goal with |- rbind ?X _ = _ -> _ => destruct X as [r1|]; cbn [rbind]; [|discriminate] end. rewrite <- (C r1 eq_refl).
  destruct (1 <? vertex_count r1); [|now intros [= <-]]. destruct (at_ r1 0) as [w0|]; cbn [rbind]; [|discriminate].
  destruct (at_ r1 1) as [w1|]; cbn [rbind]; [|discriminate]. destruct (v2fuzzy_eq_eps _ _ _); [|now intros [= <-]].
  destruct (remove r1 0) as [x|] eqn:E; cbn [rbind]; [|discriminate]. intros [= <-]. exact (remove_closed _ _ _ E).
Qed.

Lemma close_closed ccw eps s1 s2 b (r : pline T) r' : close_raw_offset ccw eps s1 s2 b r = Ret r' -> is_closed r' = is_closed r.
Proof.
  unfold close_raw_offset. destruct (last_ r) as [[w|]|]; cbn [rbind unwrap]; try discriminate.
  destruct (join_seg_pair _ _ _ _) as [cl|]; cbn [rbind]; [|discriminate].
  destruct (at_ cl 0) as [c0|]; cbn [rbind]; [|discriminate].
  destruct (set_last r c0) as [r1|] eqn:E1; cbn [rbind]; [|discriminate]. rewrite <- (set_last_closed _ _ _ E1).
  match goal with |- rbind ?X _ = _ -> _ => assert (C : forall r2, X = Ret r2 -> is_closed r2 = is_closed r1) end.
  { intros r2. destruct (negb b); [|now intros [= <-]]. destruct (last_ cl) as [[z|]|]; cbn [rbind unwrap]; try discriminate.
    intros H. rewrite (update_first_closed _ _ _ H). reflexivity. }
  match goal with |- rbind ?X _ = _ -> _ => destruct X as [r2|]; cbn [rbind]; [|discriminate] end. rewrite <- (C r2 eq_refl). apply prune_closed.
Qed.

(** A raw offset with vertexes is closed if the polyline is. *)
Lemma raw_closed (p : pline T) offset eps raw : create_raw_offset_polyline p offset eps = Ret raw -> vertex_count raw <> 0 -> is_closed raw = is_closed p.
Proof.
  unfold create_raw_offset_polyline. destruct (vertex_count p <? 2); [now intros [= <-] X|].
  destruct (create_untrimmed_raw_offset_segs _ _) as [segs|]; cbn [rbind]; [|discriminate].
  destruct segs as [|s0 rest]; [now intros [= <-] X|].
  destruct (match rest with [] => rs_collapsed_arc s0 | _ => false end); [now intros [= <-] X|]. cbv zeta.
  destruct (rfold _ (firstn 1 _) _) as [r1|] eqn:E1; cbn [rbind]; [|discriminate]. apply joins_closed in E1.
  destruct (rfold _ (skipn 1 _) _) as [r2|] eqn:E2; cbn [rbind]; [|discriminate]. apply joins_closed in E2. cbn [is_closed] in E1.
  match goal with |- rbind ?X _ = _ -> _ => assert (C : forall r3, X = Ret r3 -> is_closed r3 = is_closed r2) end.
  { intros r3. destruct (_ && _); [apply close_closed|]. intros [= <-]. apply add_or_replace_closed. }
  match goal with |- rbind ?X _ = _ -> _ => destruct X as [r3|]; cbn [rbind]; [|discriminate] end. specialize (C r3 eq_refl).
  intros [= <-] _. destruct (vertex_count r3 =? 1); cbn [clear is_closed]; congruence.
Qed.
End Closed.

(** ** The tests of a slice *)

Section Tests.
Context {T : Type} {N : Num T}.
Context (p raw : pline T) (idx : sindex T) (offset : T) (o : offset_options T).
Hypothesis IDX : pline_index p idx.
Local Notation segs := (spec_segs (vtx p) (is_closed p)).

Lemma hit_lt q i : In i (ix_query idx q) -> i < vertex_count p.
Proof. apply (idx_hits p idx _ IDX). apply map_length. Qed.

Lemma rexists_seg (f : vertex T -> vertex T -> bool) q :
  exists b, rexists (fun i => let! v1 := at_ p i in let! v2 := at_ p (next_wrapping_index p i) in Ret (f v1 v2)) (ix_query idx q) = Ret b
  /\ (b = false <-> forall v1 v2, In (v1, v2) segs -> aabb_overlaps (seg_fast_approx_bounding_box v1 v2) q = true -> f v1 v2 = false).
Proof.
  set (g := fun i => match nth_error segs i with Some (v1, v2) => f v1 v2 | None => false end).
  exists (existsb g (ix_query idx q)). split.
  - apply rexists_spec. intros i Hi. apply (pline_index_query p idx _ i IDX) in Hi as (v1 & v2 & E & _).
    destruct (seg_lookup p i v1 v2 E) as [-> ->]. cbn [rbind]. unfold g. now rewrite E.
  - split.
    + intros H v1 v2 Hin HO. destruct (In_nth_error _ _ Hin) as [i Hi]. destruct (f v1 v2) eqn:F; [|reflexivity]. exfalso.
      assert (X : existsb g (ix_query idx q) = true); [|congruence]. apply existsb_exists. exists i. split; [|unfold g; rewrite Hi; exact F].
      apply (pline_index_query p idx _ i IDX). eauto.
    + intros H. destruct (existsb g _) eqn:X; [|reflexivity]. exfalso. apply existsb_exists in X as (i & Hi & G).
      apply (pline_index_query p idx _ i IDX) in Hi as (v1 & v2 & E & O). unfold g in G. rewrite E in G.
      rewrite (H v1 v2 (nth_error_In _ _ E) O) in G. discriminate.
Qed.

Lemma point_clear pt : exists b, point_valid_for_offset p offset idx pt (oo_pos_equal_eps o) (oo_offset_dist_eps o) = Ret b
  /\ (b = true <-> clear_point p offset o pt).
Proof.
  unfold point_valid_for_offset. cbv zeta.
  set (d := nsub (nabs offset) (oo_offset_dist_eps o)).
  destruct (rexists_seg (fun v1 v2 => negb (nltb (nmul d d) (dist_squared (seg_closest_point v1 v2 pt (oo_pos_equal_eps o)) pt)))
              (aabb_grow (point_box pt) d)) as (b & -> & H).
  cbn [rbind]. exists (negb b). split; [reflexivity|]. unfold clear_point. fold d. rewrite negb_true_iff, H. split.
  - intros X v1 v2 Hin HO. specialize (X v1 v2 Hin HO). now apply negb_false_iff in X.
  - intros X v1 v2 Hin HO. apply negb_false_iff. exact (X v1 v2 Hin HO).
Qed.

Lemma seg_clear w1 w2 : exists b, intersects_original p idx (oo_pos_equal_eps o) w1 w2 = Ret b /\ (b = false <-> clear_seg p o w1 w2).
Proof.
  unfold intersects_original.
  destruct (rexists_seg (fun u1 u2 => match pline_seg_intr w1 w2 u1 u2 (oo_pos_equal_eps o) with SINoIntersect => false | _ => true end)
              (aabb_grow (seg_fast_approx_bounding_box w1 w2) nfuzzy_epsilon)) as (b & -> & H).
  exists b. split; [reflexivity|]. rewrite H. unfold clear_seg. split; intros X v1 v2 Hin HO; specialize (X v1 v2 Hin HO).
  - destruct (pline_seg_intr _ _ _ _ _); [reflexivity|discriminate..].
  - now rewrite X.
Qed.

Lemma accepted_clear pt : accepted p idx offset o pt <-> clear_point p offset o pt.
Proof. unfold accepted. destruct (point_clear pt) as (b & -> & H). rewrite <- H. split; [now intros [= ->]|now intros ->]. Qed.
Lemma untouched_clear w1 w2 : untouched p idx o w1 w2 <-> clear_seg p o w1 w2.
Proof. unfold untouched. destruct (seg_clear w1 w2) as (b & -> & H). rewrite <- H. split; [now intros [= ->]|now intros ->]. Qed.

Lemma slice_tested_clear l : slice_tested p idx offset o l <-> clear_of p offset o l.
Proof.
  unfold slice_tested, clear_of. split; intros (A & B & C); (split; [|split]).
  - intros w Hw. now apply accepted_clear, A.
  - intros w1 w2 Hw. now apply untouched_clear, B.
  - intros k w1 w2 Hk Hn. apply accepted_clear. exact (C k w1 w2 Hk Hn).
  - intros w Hw. now apply accepted_clear, A.
  - intros w1 w2 Hw. now apply untouched_clear, B.
  - intros k w1 w2 Hk Hn. apply accepted_clear. exact (C k w1 w2 Hk Hn).
Qed.

Lemma segments_valid_back l : (forall w1 w2, In (w1, w2) l -> accepted p idx offset o (pos w1) /\ untouched p idx o w1 w2) ->
  segments_valid p idx offset o l = Ret true.
Proof.
  induction l as [|[a b] t IH]; intros H; [reflexivity|]. cbn [segments_valid]. destruct (H a b (or_introl eq_refl)) as [A U].
  unfold accepted, untouched in A, U. rewrite A, U. unfold rand, rnot. cbn [rbind negb]. apply IH. intros w1 w2 Hw. apply H. now right.
Qed.

Lemma slice_valid_back s : slice_shape raw s -> slice_tested p idx offset o (fwd_list s raw) -> slice_is_valid p raw idx offset o s = Ret true.
Proof.
  intros (H1 & H2 & H3) (A & B & C). destruct (view_forward_spec s raw H1 H2 H3) as (HG & HL & LEN).
  pose proof (fun i => fwd_list_nth s raw i H1 H2) as HN. unfold accepted in A, C. unfold slice_is_valid.
  assert (EP : In (from_vector2 (vd_end_point s) nzero) (fwd_list s raw)).
  { apply nth_error_In with (n := vd_end_index_offset s + 1). rewrite HN. destruct (Nat.eqb_spec (vd_end_index_offset s + 1) 0); [lia|].
    destruct (Nat.leb_spec (vd_end_index_offset s + 1) (vd_end_index_offset s)); [lia|]. now rewrite Nat.eqb_refl. }
  assert (PEP : pos (from_vector2 (vd_end_point s) nzero) = vd_end_point s) by (destruct (vd_end_point s); reflexivity).
  destruct (Nat.eqb_spec (vd_end_index_offset s) 0) as [E|E].
  - assert (EL : fwd_list s raw = [vd_updated_start s; from_vector2 (vd_end_point s) nzero]).
    { unfold fwd_list, spec_view, spec_following. rewrite E. reflexivity. }
    rewrite EL in A, B, C. rewrite (A (vd_updated_start s)) by (left; reflexivity). unfold rand at 1. cbn [rbind].
    rewrite (A (from_vector2 (vd_end_point s) nzero)) by (right; left; reflexivity). unfold rand at 1. cbn [rbind].
    rewrite (C 0 (vd_updated_start s) (from_vector2 (vd_end_point s) nzero)) by (try (left; reflexivity); reflexivity). unfold rand. cbn [rbind].
    pose proof (B (vd_updated_start s) (from_vector2 (vd_end_point s) nzero) (or_introl eq_refl)) as U. unfold untouched in U. rewrite U. reflexivity.
  - destruct (at_lt raw (next_wrapping_index raw (vd_start_index s))) as (nv & Nnv & ->); [apply next_lt; lia|]. cbn [rbind].
    destruct (at_lt raw (fwd_wrapping_index raw (vd_start_index s) (vd_end_index_offset s))) as (ev & Nev & ->).
    { rewrite fwd_wrapping_index_mod by lia. apply Nat.mod_upper_bound. lia. }
    cbn [rbind]. unfold view_pline. rewrite HL. cbn [rbind]. rewrite iter_segments_spec. cbn [rbind vtx is_closed].
    assert (SEG : forall k, k <= vd_end_index_offset s -> exists w1 w2, nth_error (spec_segs (fwd_list s raw) false) k = Some (w1, w2)
        /\ nth_error (fwd_list s raw) k = Some w1 /\ nth_error (fwd_list s raw) (k + 1) = Some w2).
    { intros k Hk. assert (LS : k < length (spec_segs (fwd_list s raw) false)).
      { rewrite spec_segs_length. destruct (Nat.ltb_spec (length (fwd_list s raw)) 2); lia. }
      destruct (spec_segs_nth _ _ k LS) as (w1 & w2 & X & _). exists w1, w2. split; [exact X|]. now apply spec_segs_open_nth. }
    assert (M1 : point_valid_for_offset p offset idx (seg_midpoint (vd_updated_start s) nv) (oo_pos_equal_eps o) (oo_offset_dist_eps o) = Ret true).
    { destruct (SEG 0) as (w1 & w2 & X & X1 & X2); [lia|]. rewrite HN in X1, X2. cbn [Nat.eqb Nat.add] in X1, X2. injection X1 as <-.
      destruct (Nat.leb_spec 1 (vd_end_index_offset s)); [|lia]. rewrite next_wrapping_index_mod in Nnv by lia. fold (vertex_count raw) in *. rewrite Nnv in X2.
      injection X2 as <-. specialize (C 0 _ _ (or_introl eq_refl) X). revert C. match goal with |- context [if ?c then _ else _] => destruct c end; [rewrite midpoint_bulge|]; exact (fun x => x). }
    assert (M2 : point_valid_for_offset p offset idx (seg_midpoint (with_bulge ev (vd_updated_end_bulge s)) (from_vector2 (vd_end_point s) nzero)) (oo_pos_equal_eps o) (oo_offset_dist_eps o) = Ret true).
    { destruct (SEG (vd_end_index_offset s)) as (w1 & w2 & X & X1 & X2); [lia|]. rewrite HN in X1, X2.
      destruct (Nat.eqb_spec (vd_end_index_offset s) 0); [lia|]. destruct (Nat.leb_spec (vd_end_index_offset s) (vd_end_index_offset s)); [|lia].
      rewrite Nat.eqb_refl in X1. rewrite fwd_wrapping_index_mod in Nev by lia. rewrite Nev in X1. injection X1 as <-.
      destruct (Nat.eqb_spec (vd_end_index_offset s + 1) 0); [lia|].
      destruct (Nat.leb_spec (vd_end_index_offset s + 1) (vd_end_index_offset s)); [lia|]. rewrite Nat.eqb_refl in X2. injection X2 as <-.
      refine (C _ _ _ (or_intror _) X). rewrite LEN. lia. }
    rewrite M1, M2. unfold rand at 1. cbn [rbind]. unfold rand at 1. cbn [rbind].
    rewrite segments_valid_back.
    + unfold rand. cbn [rbind]. pose proof (A _ EP) as X. rewrite PEP in X. exact X.
    + intros w1 w2 Hin. split; [|now apply B]. destruct (In_nth_error _ _ Hin) as [k Hk]. apply spec_segs_open_nth in Hk as [Hk _].
      exact (A w1 (nth_error_In _ _ Hk)).
Qed.

Lemma slice_valid_clear s : slice_shape raw s -> exists b, slice_is_valid p raw idx offset o s = Ret b
  /\ (b = true <-> clear_of p offset o (view_path_of raw s)).
Proof.
  intros SH. destruct (slice_valid_total p raw idx offset o hit_lt s SH) as (b & E). exists b. split; [exact E|].
  change (view_path_of raw s) with (fwd_list s raw). rewrite <- slice_tested_clear. split.
  - intros ->. now apply slice_valid_tested.
  - intros H. pose proof (slice_valid_back s SH H) as X. congruence.
Qed.
End Tests.
