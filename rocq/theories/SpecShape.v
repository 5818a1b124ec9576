(** What a shape and its offset should be (C37).

    Areas, offsets of single polylines, intersections of two polylines, slices between two points and the
    distance test are those of C07, C34-C36, C25, C28 and C34. *)
From Coq Require Import List Bool Arith Permutation Sorted.
From Verif Require Import Num Res ModelMath ModelSeg ModelPline ModelView ModelIndex ModelIntersects ModelBoolean ModelOffset ModelShape.
From Verif Require Import Spec SpecPline SpecView SpecIndex SpecChain.
Import ListNotations.

Section SpecShape.
Context {T : Type} {N : Num T}.
Local Open Scope num_scope.

(** ** Shapes *)

Definition negative (p : pline T) : bool := match area p with Ret a => a <? nzero | Panic _ => false end.
Definition positive (p : pline T) : bool := match area p with Ret a => a >? nzero | Panic _ => false end.
(** A counter-clockwise loop. *)
Definition loop_ccw (p : pline T) : bool := is_closed p && negb (negative p).

(** The index kept with a polyline is over its segments. *)
Definition has_index (ip : indexed_pline T) : Prop := pline_index (ip_pline ip) (ip_index ip).
Definition loop_ok (ip : indexed_pline T) : Prop := has_index ip /\ (2 <= vertex_count (ip_pline ip))%nat.

(** The index of a shape is over the bounds of its loops, the counter-clockwise ones first. *)
Definition shape_ok (s : shape T) : Prop :=
  Forall loop_ok (sh_ccw s ++ sh_cw s)
  /\ exists boxes, Forall2 (fun ip b => index_bounds (ip_index ip) = Some b) (sh_ccw s ++ sh_cw s) boxes
                   /\ index_of boxes (sh_index s).

(** ** The offset loops of the inputs *)

(** The elements of some lists with the numbers of the lists. *)
Definition numbered {A} (ls : list (list A)) : list (nat * A) :=
  flat_map (fun x => map (pair (fst x)) (snd x)) (combine (seq 0 (length ls)) ls).

(** An offset that turned around: clockwise going inwards from one of the [n] counter-clockwise inputs, or
    counter-clockwise going the other way from one of the others. *)
Definition turned_around (n : nat) (offset : T) (x : nat * pline T) : bool :=
  if (fst x <? n)%nat then (offset >? nzero) && negative (snd x) else (offset <? nzero) && positive (snd x).

(** The offsets of the inputs with the numbers of the inputs, without those turned around; clockwise ones last. *)
Definition outlines (n : nat) (offset : T) (rss : list (list (pline T))) : list (nat * pline T) :=
  let kept := filter (fun x => negb (turned_around n offset x)) (numbered rss) in
  filter (fun x => negb (negative (snd x))) kept ++ filter (fun x => negative (snd x)) kept.

(** ** Where the loops meet *)

Definition ends_of (l : list (overlap_intr T)) : list (basic_intr T) :=
  flat_map (fun ov => [BI (oi_index1 ov) (oi_index2 ov) (oi_point1 ov); BI (oi_index1 ov) (oi_index2 ov) (oi_point2 ov)]) l.

(** The loops [i] and [j] meet at the points [ps], ends of overlaps included. *)
Definition meeting (eps : T) (loops : list (indexed_pline T)) (i j : nat) (ps : list (basic_intr T)) : Prop :=
  exists li lj bi bj, nth_error loops i = Some li /\ nth_error loops j = Some lj
  /\ index_bounds (ip_index li) = Some bi /\ index_bounds (ip_index lj) = Some bj
  /\ if aabb_overlaps bj bi
     then exists bs os, find_intersects (ip_pline li) (ip_pline lj) (ip_index li) eps = Ret (bs, os) /\ ps = bs ++ ends_of os
     else ps = [].

(** The points at which loop [i] of [n] meets the others, with its segments, if loops [i] < [j] meet at
    [meet i j]. *)
Definition cuts_of (meet : nat -> nat -> list (basic_intr T)) (n i : nat) : list (nat * vec2 T) :=
  flat_map (fun j => if (j <? i)%nat then map (fun b => (bi_index2 b, bi_point b)) (meet j i)
                     else if (i <? j)%nat then map (fun b => (bi_index1 b, bi_point b)) (meet i j) else [])
           (seq 0 n).

(** ** The slices *)

(** A slice passes if the middle of its first segment is far enough from every input but the one it is an
    offset of. *)
Definition passes (inputs : list (indexed_pline T)) (offset : T) (o : shape_options T) (p : pline T) (parent : nat)
    (d : view_data T) (b : bool) : Prop :=
  exists v0 v1 t, view_path_of p d = v0 :: v1 :: t
  /\ (b = true <-> forall k ip, nth_error inputs k = Some ip -> k <> parent ->
        point_valid_for_offset (ip_pline ip) offset (ip_index ip) (seg_midpoint v0 v1)
          (so_pos_equal_eps o) (so_offset_dist_eps o) = Ret true).

Inductive kept (test : view_data T -> bool -> Prop) : list (option (view_data T)) -> list (view_data T) -> Prop :=
| kept_nil : kept test [] []
| kept_none l ds : kept test l ds -> kept test (None :: l) ds
| kept_yes d l ds : test d true -> kept test l ds -> kept test (Some d :: l) (d :: ds)
| kept_no d l ds : test d false -> kept test l ds -> kept test (Some d :: l) ds.

(** [b] is not before [a] along the polyline. *)
Definition not_before (p : pline T) (a b : nat * vec2 T) : Prop :=
  (fst a < fst b)%nat
  \/ (fst a = fst b /\ forall v, nth_error (vtx p) (fst a) = Some v ->
        ntotal_cmp (dist_squared (snd a) (pos v)) (dist_squared (snd b) (pos v)) <> Gt).
Definition comparable : Prop := forall x y : T, ntotal_cmp x y = Gt -> ntotal_cmp y x <> Gt.

(** The slices of a loop cut at [cuts] that pass: the whole loop for a single point, otherwise from each
    point to the next along the loop and from the last to the first. *)
Inductive sliced (eps : T) (p : pline T) (test : view_data T -> bool -> Prop) (cuts : list (nat * vec2 T))
  : list (view_data T) -> Prop :=
| sliced_whole c d ds : cuts = [c] -> view_from_entire_pline p = Ret d -> kept test [Some d] ds ->
    sliced eps p test cuts ds
| sliced_between order a b t vos ds : Permutation order cuts -> order = a :: b :: t ->
    Sorted (fun x y => (fst x <= fst y)%nat) order -> (comparable -> Sorted (not_before p) order) ->
    Forall2 (fun xy vo => view_from_slice_points p (snd (fst xy)) (fst (fst xy)) (snd (snd xy)) (fst (snd xy)) eps = Ret vo)
            (combine order (b :: t ++ [a])) vos ->
    kept test vos ds -> sliced eps p test cuts ds.

(** What becomes of loop [i], an offset [snd x] of input [fst x]: without cuts it is part of the result if it
    passes as a whole ([fst r]), otherwise its slices that pass ([snd r]) are used. *)
Definition loop_result (inputs : list (indexed_pline T)) (offset : T) (o : shape_options T) (cuts : list (nat * vec2 T))
    (x : nat * pline T) (r : bool * list (view_data T)) : Prop :=
  match cuts with
  | [] => snd r = [] /\ exists d, view_from_entire_pline (snd x) = Ret d /\ passes inputs offset o (snd x) (fst x) d (fst r)
  | _ => fst r = false /\ sliced (so_pos_equal_eps o) (snd x) (passes inputs offset o (snd x) (fst x)) cuts (snd r)
  end.
(** The loops that are part of the result as a whole. *)
Definition whole_loops (outs : list (nat * pline T)) (rs : list (bool * list (view_data T))) : list (pline T) :=
  map (fun x => snd (fst x)) (filter (fun x => fst (snd x)) (combine outs rs)).

(** ** Stitching *)

(** The slices of [loops], as numbers of loops with slices, put together in chains (see [SpecChain]). *)
Definition loop_path (loops : list (pline T)) (slices : list (nat * view_data T)) (i : nat) (l : list (vertex T)) : Prop :=
  exists k d p, nth_error slices i = Some (k, d) /\ nth_error loops k = Some p /\ l = view_path_of p d.
(** A slice of the same loop is preferred. *)
Definition same_loop (slices : list (nat * view_data T)) (i j : nat) : Prop :=
  exists x y, nth_error slices i = Some x /\ nth_error slices j = Some y /\ fst x = fst y.
Definition prefer_loop (slices : list (nat * view_data T)) (first cur : nat) (avail : list nat) (b : nat) : Prop :=
  In b avail /\ forall i, In i avail -> same_loop slices cur i -> same_loop slices cur b.

(** A chain of more than two vertexes is closed; its last vertex is not kept. *)
Definition joined (K : list (vertex T)) : pline T :=
  if (2 <? length K)%nat then PL (removelast K) true else PL K false.


(** ** The offset of a shape *)

(** What is made of the loops [outs], numbered as in [outlines]: they meet at [meet], what becomes of each is
    in [rs], and the slices joined are [Ks]. *)
Definition loops_joined (inputs : list (indexed_pline T)) (offset : T) (o : shape_options T) (outs : list (nat * pline T))
    (rs : list (bool * list (view_data T))) (Ks : list (list (vertex T))) : Prop :=
  exists loops meet chains,
    Forall2 (fun x ip => ip_pline ip = snd x /\ loop_ok ip) outs loops
    /\ (forall i j, (i < length outs)%nat -> (j < length outs)%nat -> meeting (so_pos_equal_eps o) loops i j (meet i j))
    /\ length rs = length outs
    /\ (forall i x r, nth_error outs i = Some x -> nth_error rs i = Some r ->
          loop_result inputs offset o (cuts_of meet (length outs) i) x r)
    /\ let slices := numbered (map snd rs) in
       all_chained (loop_path (map snd outs) slices) (next_at (map snd slices) (so_slice_join_eps o)) (prefer_loop slices)
                   false (so_pos_equal_eps o) chains Ks
       /\ Permutation (concat chains) (seq 0 (length slices)).

(** The polylines of the result: whole loops, and joined slices. *)
Definition shape_of (s : shape T) (outs : list (nat * pline T)) (rs : list (bool * list (view_data T))) (Ks : list (list (vertex T))) : Prop :=
  map ip_pline (sh_ccw s) = filter (fun p => negb (negative p)) (whole_loops outs rs) ++ filter loop_ccw (map joined Ks)
  /\ map ip_pline (sh_cw s) = filter negative (whole_loops outs rs) ++ filter (fun p => negb (loop_ccw p)) (map joined Ks).

(** [r] is the offset of a shape with the polylines [inputs], the first [n] of which are counter-clockwise. *)
Definition offset_of_shape (mk : list (aabb T) -> sindex T) (inputs : list (indexed_pline T)) (n : nat) (offset : T)
    (o : shape_options T) (r : res (shape T)) : Prop :=
  exists rss, Forall2 (fun ip rs => parallel_offset mk (ip_pline ip) (ip_index ip) offset
      (OO (so_pos_equal_eps o) (so_slice_join_eps o) (so_offset_dist_eps o) false) = Ret rs) inputs rss
  /\ let outs := outlines n offset rss in
     (outs = [] -> exists s, r = Ret s /\ shape_ok s /\ sh_ccw s = [] /\ sh_cw s = [])
     /\ (Exists (fun x => (vertex_count (snd x) < 2)%nat) outs -> r = Panic UnwrapNone)
     /\ (outs <> [] -> Forall (fun x => (2 <= vertex_count (snd x))%nat) outs ->
           exists rs Ks, loops_joined inputs offset o outs rs Ks
           /\ (Exists (fun K => (length K < 2)%nat) Ks -> r = Panic UnwrapNone)
           /\ (Forall (fun K => (2 <= length K)%nat) Ks -> exists s, r = Ret s /\ shape_ok s /\ shape_of s outs rs Ks)).
End SpecShape.
