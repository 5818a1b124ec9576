(** What visiting the intersections of polylines should do (C24, C25), for any number type. *)
From Coq Require Import List Bool Arith.
From Verif Require Import Num Res ModelMath ModelSeg ModelPline ModelSegIntr ModelIndex ModelIntersects Spec.
Import ListNotations.

Section SpecIntersects.
Context {T : Type} {N : Num T}.

(** Calling a visitor for the events of a list, in order, until it asks to stop. *)
Fixpoint feed {S} (visit : S -> intr_event T -> S * bool) (s : S) (l : list (intr_event T)) : S * bool :=
  match l with
  | [] => (s, false)
  | e :: t => if snd (visit s e) then visit s e else feed visit (fst (visit s e)) t
  end.

(** The events for the intersection [x] of segments [i] and [j]: single points that are to be kept, or
    an overlap whose first point is to be kept. *)
Definition events_of (i j : nat) (keep keep_overlap : vec2 T -> bool) (x : seg_intr T) : list (intr_event T) :=
  match x with
  | SINoIntersect => []
  | SITangent q | SIOne q => map (fun q => EvBasic (BI i j q)) (filter keep [q])
  | SITwo q1 q2 => map (fun q => EvBasic (BI i j q)) (filter keep [q1; q2])
  | SIOverlapLines q1 q2 | SIOverlapArcs q1 q2 => if keep_overlap q1 then [EvOverlap (OI i j q1 q2)] else []
  end.

(** The single points of an intersection. *)
Definition points_of (x : seg_intr T) : list (vec2 T) :=
  match x with
  | SITangent q | SIOne q => [q]
  | SITwo q1 q2 => [q1; q2]
  | _ => []
  end.

Section Pline.
Context (p : pline T) (eps : T).
Let segs := spec_segs (vtx p) (is_closed p).
Let n := vertex_count p.

(** Consecutive segments [i], [j]: everything but their common vertex; a segment without length counts
    as an overlap. *)
Definition local_pair (i j : nat) : list (intr_event T) :=
  match nth_error segs i, nth_error segs j with
  | Some (v1, v2), Some (v2', v3) =>
    if v2fuzzy_eq_eps (pos v1) (pos v2) eps then [EvOverlap (OI i j (pos v1) (pos v2))]
    else events_of i j (fun q => negb (v2fuzzy_eq_eps q (pos v2) eps)) (fun _ => true)
                   (pline_seg_intr v1 v2 v2' v3 eps)
  | _, _ => []
  end.

(** All pairs of consecutive segments in order. Two segments closing on each other overlap if their
    bulges are opposite. *)
Definition local_events : list (intr_event T) :=
  if n <? 3 then
    match vtx p with
    | [v0; v1] => if is_closed p && fuzzy_eq (pbulge v0) (nneg (pbulge v1))
                  then [EvOverlap (OI 0 1 (pos v0) (pos v1))] else []
    | _ => []
    end
  else flat_map (fun k => local_pair k ((k + 1) mod n)) (seq 0 (if is_closed p then n else n - 2)).

(** Segments [i] and [j] without a common vertex: everything but points at the end of both. *)
Definition global_pair (ij : nat * nat) : list (intr_event T) :=
  let '(i, j) := ij in
  match nth_error segs i, nth_error segs j with
  | Some (v1, v2), Some (u1, u2) =>
    let keep q := negb (v2fuzzy_eq_eps (pos v2) q eps && v2fuzzy_eq_eps (pos u2) q eps) in
    events_of i j keep keep (pline_seg_intr v1 v2 u1 u2 eps)
  | _, _ => []
  end.

(** Segments [i] and [j] have no vertex position in common. *)
Definition apart (i j : nat) : Prop := i <> j /\ i <> (j + 1) mod n /\ (i + 1) mod n <> j.

(** Pairs of segments to examine, given the boxes in the index: never neighbours, each unordered pair
    at most once, and each pair one of whose boxes overlaps the other grown by [eps]. *)
Definition pairs_ok (boxes : list (aabb T)) (pairs : list (nat * nat)) : Prop :=
  (forall i j, In (i, j) pairs -> i < length segs /\ j < length segs /\ apart i j /\ ~ In (j, i) pairs)
  /\ NoDup pairs
  /\ (forall i j bi bj, nth_error boxes i = Some bi -> nth_error boxes j = Some bj -> apart i j -> 3 <= n ->
        aabb_overlaps bj (aabb_grow bi eps) = true -> In (i, j) pairs \/ In (j, i) pairs)
  /\ (forall i j, In (i, j) pairs -> exists bi bj, nth_error boxes i = Some bi /\ nth_error boxes j = Some bj
        /\ aabb_overlaps bj (aabb_grow bi eps) = true).
End Pline.

(** ** Between two polylines *)

Section Two.
Context (p1 p2 : pline T) (eps : T).
Let segs1 := spec_segs (vtx p1) (is_closed p1).
Let segs2 := spec_segs (vtx p2) (is_closed p2).

(** [i] is not the last segment of an open polyline. *)
Definition continues (p : pline T) (i : nat) : bool := is_closed p || negb (Nat.eqb i (vertex_count p - 2)).

(** Segment [i1] of the first and [i2] of the second polyline: everything but points at the end of a
    segment that another one follows. *)
Definition cross_pair (ij : nat * nat) : list (intr_event T) :=
  let '(i1, i2) := ij in
  match nth_error segs1 i1, nth_error segs2 i2 with
  | Some (v1, v2), Some (u1, u2) =>
    events_of i1 i2 (fun q => negb (v2fuzzy_eq_eps (pos v2) q eps && continues p1 i1
                                    || v2fuzzy_eq_eps (pos u2) q eps && continues p2 i2))
              (fun _ => true) (pline_seg_intr v1 v2 u1 u2 eps)
  | _, _ => []
  end.

(** Pairs of segments to examine: those whose boxes overlap, each once, along the second polyline. *)
Definition cross_ok (boxes : list (aabb T)) (pairs : list (nat * nat)) : Prop :=
  NoDup pairs
  /\ (exists hits, pairs = flat_map (fun i2 => map (fun i1 => (i1, i2)) (hits i2)) (seq 0 (length segs2)))
  /\ forall i1 i2, In (i1, i2) pairs <-> exists b u1 u2, nth_error boxes i1 = Some b /\ nth_error segs2 i2 = Some (u1, u2)
       /\ aabb_overlaps b (aabb_grow (seg_fast_approx_bounding_box u1 u2) eps) = true.

Definition basics (l : list (intr_event T)) : list (basic_intr T) :=
  flat_map (fun e => match e with EvBasic b => [b] | EvOverlap _ => [] end) l.
Definition overlaps (l : list (intr_event T)) : list (overlap_intr T) :=
  flat_map (fun e => match e with EvBasic _ => [] | EvOverlap o => [o] end) l.

(** The vertex [k] of [p] is at the end of the segment before it, is an end of the overlap [o] of that
    segment [i], and [q] is that vertex. *)
Definition end_again (p : pline T) (i : nat) (o : overlap_intr T) (k : nat) (q : vec2 T) : bool :=
  Nat.eqb ((i + 1) mod vertex_count p) k
  && match nth_error (vtx p) k with
     | Some v => (v2fuzzy_eq_eps (pos v) (oi_point1 o) eps || v2fuzzy_eq_eps (pos v) (oi_point2 o) eps)
                 && v2fuzzy_eq_eps q (pos v) eps
     | None => false
     end.

(** The intersect [b] is at the end of an overlap. *)
Definition repeats (l : list (overlap_intr T)) (b : basic_intr T) : bool :=
  existsb (fun o => end_again p1 (oi_index1 o) o (bi_index1 b) (bi_point b)) l
  || existsb (fun o => end_again p2 (oi_index2 o) o (bi_index2 b) (bi_point b)) l.

(** An intersect to report: a point of the intersection of its two segments, not at the end of a segment
    that another one follows. *)
Definition basic_ok (b : basic_intr T) : Prop :=
  exists v1 v2 u1 u2, nth_error segs1 (bi_index1 b) = Some (v1, v2) /\ nth_error segs2 (bi_index2 b) = Some (u1, u2)
  /\ In (bi_point b) (points_of (pline_seg_intr v1 v2 u1 u2 eps))
  /\ (v2fuzzy_eq_eps (pos v2) (bi_point b) eps = true -> is_closed p1 = false /\ bi_index1 b + 1 = length segs1)
  /\ (v2fuzzy_eq_eps (pos u2) (bi_point b) eps = true -> is_closed p2 = false /\ bi_index2 b + 1 = length segs2).

Definition overlap_ok (o : overlap_intr T) : Prop :=
  exists v1 v2 u1 u2, nth_error segs1 (oi_index1 o) = Some (v1, v2) /\ nth_error segs2 (oi_index2 o) = Some (u1, u2)
  /\ (pline_seg_intr v1 v2 u1 u2 eps = SIOverlapLines (oi_point1 o) (oi_point2 o)
      \/ pline_seg_intr v1 v2 u1 u2 eps = SIOverlapArcs (oi_point1 o) (oi_point2 o)).
End Two.

End SpecIntersects.
