(** What joining overlaps of two polylines should give (C29). *)
From Coq Require Import List Bool Arith Reals.
From Verif Require Import Num RNum Res ModelMath ModelSeg ModelPline ModelView ModelIntersects Spec SpecGeom.
Import ListNotations.

Section SpecJoin.
Context {T : Type} {N : Num T}.
Context (p1 p2 : pline T) (eps : T).

(** [b] starts where [a] ends. *)
Definition joins (a b : overlap_intr T) : bool := v2fuzzy_eq_eps (oi_point1 b) (oi_point2 a) eps.

(** [runs] divides [l] into non-empty runs, as long as possible, whose members join. *)
Definition joined_runs (l : list (overlap_intr T)) (runs : list (list (overlap_intr T))) : Prop :=
  concat runs = l
  /\ (forall r, In r runs -> r <> [] /\ forall i a b, nth_error r i = Some a -> nth_error r (S i) = Some b -> joins a b = true)
  /\ (forall i r1 a b r2, nth_error runs i = Some (r1 ++ [a]) -> nth_error runs (S i) = Some (b :: r2) -> joins a b = false).

Definition indexes (o : overlap_intr T) : nat * nat := (oi_index1 o, oi_index2 o).

(** The indexes of an overlap are those of vertexes. *)
Definition in_range (o : overlap_intr T) : Prop := oi_index1 o < vertex_count p1 /\ oi_index2 o < vertex_count p2.

(** The two segments run against each other at the start of the overlap. *)
Definition opposed (o : overlap_intr T) : bool :=
  match nth_error (vtx p1) (oi_index1 o), nth_error (vtx p1) ((oi_index1 o + 1) mod vertex_count p1),
        nth_error (vtx p2) (oi_index2 o), nth_error (vtx p2) ((oi_index2 o + 1) mod vertex_count p2) with
  | Some a, Some b, Some c, Some d =>
    nltb (v2dot (seg_tangent_vector a b (oi_point1 o)) (seg_tangent_vector c d (oi_point1 o))) nzero
  | _, _, _, _ => false
  end.

(** The slice of the second polyline for a run from [a] to [z]: it begins on the segment of [a] and ends
    at the end of [z]; a run of several overlaps that ends where it begins is a loop. *)
Definition run_slice (run : list (overlap_intr T)) (s : overlapping_slice T) : Prop :=
  exists a z, hd_error run = Some a /\ hd_error (rev run) = Some z
  /\ os_start_indexes s = indexes a
  /\ vd_start_index (os_view s) = oi_index2 a
  /\ vd_inverted (os_view s) = false
  /\ vd_end_point (os_view s) = oi_point2 z
  /\ os_opposing s = opposed a
  /\ os_is_loop s = (1 <? length run) && v2fuzzy_eq_eps (oi_point2 z) (oi_point1 a) eps
  /\ vd_end_index_offset (os_view s) < vertex_count p2
  /\ if os_is_loop s
     then os_end_indexes s = indexes a /\ vd_end_index_offset (os_view s) + 1 = vertex_count p2
          /\ nth_error (vtx p2) (oi_index2 a) = Some (vd_updated_start (os_view s))
     else os_end_indexes s = indexes z
          /\ (oi_index2 a + vd_end_index_offset (os_view s)) mod vertex_count p2 = oi_index2 z.

(** The last of several slices is put before the first if it ends where that begins. *)
Definition ends_merged (slices result : list (overlapping_slice T)) : Prop :=
  (exists first mid last v0, slices = first :: mid ++ [last] /\ nth_error (vtx p2) 0 = Some v0
     /\ v2fuzzy_eq_eps (vd_end_point (os_view last)) (pos (vd_updated_start (os_view first))) eps = true
     /\ exists whole, result = whole :: mid
        /\ os_start_indexes whole = os_start_indexes last /\ os_end_indexes whole = os_end_indexes first
        /\ os_is_loop whole = os_is_loop first /\ os_opposing whole = os_opposing first
        /\ vd_updated_start (os_view whole) = vd_updated_start (os_view last)
        /\ vd_end_point (os_view whole) = vd_end_point (os_view first)
        /\ vd_updated_end_bulge (os_view whole) = vd_updated_end_bulge (os_view first)
        /\ vd_inverted (os_view whole) = vd_inverted (os_view first)
        /\ vd_end_index_offset (os_view whole)
           = vd_end_index_offset (os_view last)
             + (if v2fuzzy_eq_eps (vd_end_point (os_view last)) (pos v0) eps then 1 else 0)
             + vd_end_index_offset (os_view first))
  \/ ((forall first mid last, slices = first :: mid ++ [last] ->
        v2fuzzy_eq_eps (vd_end_point (os_view last)) (pos (vd_updated_start (os_view first))) eps = false)
      /\ result = slices).
End SpecJoin.

(** Sorted along the polyline: by segment, then by distance from the start of the segment. *)
Definition sorted_along (p : pline R) (l : list (overlap_intr R)) : Prop :=
  forall i a b, nth_error l i = Some a -> nth_error l (S i) = Some b ->
    oi_index2 a < oi_index2 b
    \/ (oi_index2 a = oi_index2 b
        /\ exists v, nth_error (vtx p) (oi_index2 a) = Some v /\ (dist (pos v) (oi_point1 a) <= dist (pos v) (oi_point1 b))%R).
