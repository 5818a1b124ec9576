(** Lemmas on spatial indexes. *)
From Coq Require Import List Arith Bool Permutation Lia.
From Verif Require Import Num Res ModelMath ModelSeg ModelPline ModelIndex ModelOffset Spec SpecIndex.
From Verif Require Import ProofBase ProofIter.
Import ListNotations.

Section Index.
Context {T : Type} {N : Num T}.

Lemma filter_combine_In {A} (f : A -> bool) (l : list A) k i :
  In i (map fst (filter (fun ib => f (snd ib)) (combine (seq k (length l)) l)))
  <-> exists b, k <= i /\ nth_error l (i - k) = Some b /\ f b = true.
Proof.
  revert k. induction l as [|a t IH]; intros k.
  - cbn. split; [contradiction|]. intros (b & _ & H & _). destruct (i - k); discriminate.
  - cbn [length seq combine filter snd]. destruct (f a) eqn:F; cbn [map fst In]; rewrite IH; split.
    + intros [<-|(b & L & E & Fb)].
      * exists a. rewrite Nat.sub_diag. auto.
      * exists b. replace (i - k) with (S (i - S k)) by lia. cbn. split; [lia|auto].
    + intros (b & L & E & Fb). destruct (Nat.eq_dec k i) as [->|NE]; [now left|right].
      exists b. replace (i - k) with (S (i - S k)) in E by lia. cbn in E. split; [lia|auto].
    + intros (b & L & E & Fb). exists b. replace (i - k) with (S (i - S k)) by lia. cbn. split; [lia|auto].
    + intros (b & L & E & Fb). destruct (Nat.eq_dec k i) as [->|NE].
      * rewrite Nat.sub_diag in E. cbn in E. injection E as <-. congruence.
      * exists b. replace (i - k) with (S (i - S k)) in E by lia. cbn in E. split; [lia|auto].
Qed.

Lemma filter_combine_NoDup {A} (f : A -> bool) (l : list A) k :
  NoDup (map fst (filter (fun ib => f (snd ib)) (combine (seq k (length l)) l))).
Proof.
  revert k. induction l as [|a t IH]; intros k; [constructor|].
  cbn [length seq combine filter snd]. destruct (f a); [|apply IH]. cbn [map fst]. constructor; [|apply IH].
  rewrite filter_combine_In. intros (b & L & _). lia.
Qed.

Lemma list_index_ok : makes_index (@list_index T N).
Proof.
  intros boxes. split; [reflexivity|]. split; [apply Permutation_refl|]. intros q. cbn [list_index ix_query]. split.
  - apply (filter_combine_NoDup (fun b => aabb_overlaps b q)).
  - intros i. rewrite (filter_combine_In (fun b => aabb_overlaps b q)). split.
    + intros (b & _ & E & F). rewrite Nat.sub_0_r in E. eauto.
    + intros (b & E & F). exists b. rewrite Nat.sub_0_r. split; [lia|auto].
Qed.

Lemma create_index_spec box (p : pline T) :
  create_index_with box p = Ret (map (fun s => box (fst s) (snd s)) (spec_segs (vtx p) (is_closed p))).
Proof.
  unfold create_index_with. destruct (Nat.ltb_spec (vertex_count p) 2) as [L|L].
  - assert (E : length (spec_segs (vtx p) (is_closed p)) = 0).
    { rewrite spec_segs_length. fold (vertex_count p). destruct (Nat.ltb_spec (vertex_count p) 2); lia. }
    destruct (spec_segs _ _); [reflexivity|discriminate].
  - rewrite iter_segments_spec. cbn [rbind].
    assert (E : length (spec_segs (vtx p) (is_closed p)) = if is_closed p then vertex_count p else vertex_count p - 1).
    { rewrite spec_segs_length. fold (vertex_count p). destruct (Nat.ltb_spec (vertex_count p) 2); [lia|reflexivity]. }
    rewrite E, Nat.eqb_refl. reflexivity.
Qed.

Lemma pline_index_query (p : pline T) idx q i : pline_index p idx ->
  In i (ix_query idx q) <->
  exists v1 v2, nth_error (spec_segs (vtx p) (is_closed p)) i = Some (v1, v2)
    /\ aabb_overlaps (seg_fast_approx_bounding_box v1 v2) q = true.
Proof.
  intros (_ & _ & H). rewrite (proj2 (H q) i). split.
  - intros (b & E & O). rewrite nth_error_map in E. destruct (nth_error _ i) as [[v1 v2]|]; [|discriminate].
    cbn in E. injection E as <-. eauto.
  - intros (v1 & v2 & E & O). exists (seg_fast_approx_bounding_box v1 v2). rewrite nth_error_map, E. auto.
Qed.

Lemma seg_lookup (p : pline T) i v1 v2 : nth_error (spec_segs (vtx p) (is_closed p)) i = Some (v1, v2) ->
  at_ p i = Ret v1 /\ at_ p (next_wrapping_index p i) = Ret v2.
Proof.
  intros H. assert (L : i < length (spec_segs (vtx p) (is_closed p))) by (apply nth_error_Some; congruence).
  destruct (spec_segs_nth _ _ i L) as (a & b & E & E1 & E2). rewrite H in E. injection E as <- <-.
  assert (Li : i < length (vtx p)) by (apply nth_error_Some; congruence).
  split; [now apply index_ok|]. rewrite next_wrapping_index_mod by exact Li. now apply index_ok.
Qed.

Lemma rexists_spec {A} (f : A -> res bool) (g : A -> bool) l : (forall a, In a l -> f a = Ret (g a)) ->
  rexists f l = Ret (existsb g l).
Proof.
  induction l as [|a t IH]; intros H; [reflexivity|]. cbn [rexists existsb].
  rewrite H by now left. cbn [rbind]. destruct (g a); [reflexivity|]. apply IH. intros; apply H; now right.
Qed.

End Index.
