(** Properties C04 (index navigation) and C05 (iterators). *)
From Coq Require Import List Arith Bool.
From Verif Require Import Res ModelSeg ModelPline Spec ProofIter.
Import ListNotations.

(** C04: next and previous are inverse permutations of the indexes; none panics. *)
Theorem C04_next_prev_permutation :
  forall (T : Type) (p : pline T) (i : nat),
  i < vertex_count p ->
  next_wrapping_index p i < vertex_count p
  /\ prev_wrapping_index p (next_wrapping_index p i) = Ret i
  /\ exists j, prev_wrapping_index p i = Ret j /\ j < vertex_count p
               /\ next_wrapping_index p j = i.
Proof. intros T p i. exact (next_prev_permutation p i). Qed.
Print Assumptions C04_next_prev_permutation.

(** C04: next, previous and forward index are addition modulo the vertex count. *)
Theorem C04_next_is_successor_mod :
  forall (T : Type) (p : pline T) (i : nat),
  i < vertex_count p -> next_wrapping_index p i = (i + 1) mod vertex_count p.
Proof. intros T p i. exact (next_wrapping_index_mod p i). Qed.
Print Assumptions C04_next_is_successor_mod.

Theorem C04_fwd_index_is_addition_mod :
  forall (T : Type) (p : pline T) (i k : nat),
  i < vertex_count p -> k <= vertex_count p ->
  fwd_wrapping_index p i k = (i + k) mod vertex_count p.
Proof. intros T p i k. exact (fwd_wrapping_index_mod p i k). Qed.
Print Assumptions C04_fwd_index_is_addition_mod.

(** C04: the forward distance is the unique offset leading from one index to the other. *)
Theorem C04_fwd_dist_is_unique_offset :
  forall (T : Type) (p : pline T) (i j : nat),
  i < vertex_count p -> j < vertex_count p ->
  exists k, fwd_wrapping_dist p i j = Ret k /\ k < vertex_count p
            /\ fwd_wrapping_index p i k = j
            /\ forall k', k' < vertex_count p -> fwd_wrapping_index p i k' = j -> k' = k.
Proof. intros T p i j. exact (fwd_dist_unique p i j). Qed.
Print Assumptions C04_fwd_dist_is_unique_offset.

Example C04_example :
  let p := PL [Vtx 0 0 0; Vtx 1 0 0; Vtx 2 0 0; Vtx 3 0 0] true in
  3 < vertex_count p /\ next_wrapping_index p 3 = 0 /\ fwd_wrapping_dist p 3 1 = Ret 2.
Proof. repeat split; auto. Qed.

(** C05: the segments yielded are the neighbouring pairs, the i-th being
    (vertex i, vertex i+1 mod n), and their number is [segment_count]. *)
Theorem C05_segments_enumerated :
  forall (T : Type) (p : pline T),
  exists segs, iter_segments p = Ret segs
    /\ length segs = segment_count p
    /\ segs = spec_segs (vtx p) (is_closed p)
    /\ forall i, i < segment_count p ->
         exists a b, nth_error segs i = Some (a, b) /\ nth_error (vtx p) i = Some a
                     /\ nth_error (vtx p) ((i + 1) mod vertex_count p) = Some b.
Proof.
  intros T p. exists (spec_segs (vtx p) (is_closed p)). rewrite segment_count_spec.
  exact (conj (iter_segments_spec p) (conj eq_refl (conj eq_refl (spec_segs_nth (vtx p) (is_closed p))))).
Qed.
Print Assumptions C05_segments_enumerated.

(** C05: after any number [k] of calls the size hint is the number of items still to come, the next item
    is item [k], and nothing is returned (without panicking) from the end on. *)
Theorem C05_segment_iterator_history :
  forall (T : Type) (p : pline T) (k : nat),
  exists it it', segment_iter_nth k (segment_iter_new p) = Ret it
    /\ segment_iter_size_hint it = Ret (length (spec_segs (vtx p) (is_closed p)) - k)
    /\ segment_iter_next it = Ret (nth_error (spec_segs (vtx p) (is_closed p)) k, it').
Proof. intros T p k. exact (segment_iter_history p k). Qed.
Print Assumptions C05_segment_iterator_history.

(** C05: same for the index pairs. *)
Theorem C05_segment_indexes_enumerated :
  forall (T : Type) (p : pline T),
  iter_segment_indexes p =
  Ret (map (fun i => (i, (i + 1) mod vertex_count p)) (seq 0 (segment_count p))).
Proof. intros T p. exact (iter_segment_indexes_spec p). Qed.
Print Assumptions C05_segment_indexes_enumerated.

Theorem C05_segment_index_iterator_history :
  forall (n : nat) (c : bool) (k : nat),
  let it := seg_index_iter_nth k (seg_index_iter_new n c) in
  let l := map (fun i => (i, (i + 1) mod n))
               (seq 0 (if n <? 2 then 0 else if c then n else n - 1)) in
  sii_remaining it = length l - k
  /\ fst (seg_index_iter_next it) = nth_error l k.
Proof. intros n c k. exact (seg_index_history n c k). Qed.
Print Assumptions C05_segment_index_iterator_history.

(** C05: a vertex iterator behaves as the vertex list consumed from both ends, for any interleaving of
    front, back and size-hint calls. *)
Theorem C05_vertex_iterator_interleaving :
  forall (T : Type) (ops : list deque_op) (p : pline T),
  vertex_iter_run ops (vertex_iter_new p) = Ret (spec_deque ops (vtx p)).
Proof. intros T ops p. exact (vertex_iter_history ops p). Qed.
Print Assumptions C05_vertex_iterator_interleaving.

Example C05_example :
  let p := PL [Vtx 0 0 0; Vtx 1 0 0; Vtx 2 0 0] true in
  iter_segments p = Ret [(Vtx 0 0 0, Vtx 1 0 0); (Vtx 1 0 0, Vtx 2 0 0); (Vtx 2 0 0, Vtx 0 0 0)]
  /\ vertex_iter_run [PopFront; PopBack; SizeHint; PopBack; PopFront] (vertex_iter_new p)
     = Ret [Item (Some (Vtx 0 0 0)); Item (Some (Vtx 2 0 0)); Size 1; Item (Some (Vtx 1 0 0)); Item None].
Proof. split; reflexivity. Qed.
