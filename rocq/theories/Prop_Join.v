(** C29: joining overlaps of two polylines. *)
From Coq Require Import Reals List Bool PrimFloat Permutation.
From Verif Require Import Num RNum FNum Res ModelMath ModelSeg ModelPline ModelView ModelIntersects.
From Verif Require Import Spec SpecGeom SpecView SpecJoin ProofJoin ProofJoinR ProofJoinF.
Import ListNotations.

(** However equal overlaps are ordered by the sort: the overlaps are divided into the longest runs that
    join, each run gives its slice, and the last slice is merged with the first if it ends where that
    begins. *)
Theorem C29_join {T} {N : Num T} (p1 p2 : pline T) eps l : Forall (in_range p1 p2) l ->
  exists runs slices result, join_sorted_overlaps p1 p2 eps l = Ret result
  /\ joined_runs eps l runs /\ Forall2 (run_slice p1 p2 eps) runs slices /\ ends_merged p2 eps slices result.
Proof. exact (join_sorted_spec p1 p2 eps l). Qed.
Print Assumptions C29_join.

(** With sorting: every overlap is used once, in the order along the second polyline. *)
Theorem C29_sort_and_join (p1 p2 : pline R) eps l : Forall (in_range p1 p2) l ->
  exists sorted, Permutation l sorted /\ sorted_along p2 sorted
  /\ exists runs slices result, sort_and_join_overlapping_intersects l p1 p2 eps = Ret result
   /\ joined_runs eps sorted runs /\ Forall2 (run_slice p1 p2 eps) runs slices /\ ends_merged p2 eps slices result.
Proof. exact (sort_join_R p1 p2 eps l). Qed.
Print Assumptions C29_sort_and_join.

(** The slice for overlaps from [a] to [z] follows the second polyline from the start of [a] to the end
    of [z], if [z] is on the segment of [a] or starts at a vertex. *)
Theorem C29_slice_path (p1 p2 : pline R) eps a oz t u s :
  let z := match oz with Some z => z | None => a end in
  (0 < eps)%R -> clear_pline eps p2 ->
  point_at p2 (oi_index2 a) t (oi_point1 a) -> (t < 1)%R ->
  point_at p2 (oi_index2 z) u (oi_point2 z) -> (0 < u)%R ->
  crisp_vertexes eps p2 (oi_point1 a) -> crisp_vertexes eps p2 (oi_point2 z) -> crisp eps (oi_point1 a) (oi_point2 z) ->
  oi_point2 z <> oi_point1 a ->
  (oi_index2 a = oi_index2 z -> (t < u)%R /\ forall v, nth_error (vtx p2) (oi_index2 a) = Some v -> rest_ok v t) ->
  (oi_index2 a <> oi_index2 z -> point_at p2 (oi_index2 z) 0 (oi_point1 z)) ->
  overlapping_slice_new p1 p2 a oz eps = Ret s ->
  view_path p2 (os_view s) (oi_point1 a) (oi_point2 z) (slice_pieces (vertex_count p2) (oi_index2 a) t (oi_index2 z) u).
Proof. exact (slice_path p1 p2 eps a oz t u s). Qed.
Print Assumptions C29_slice_path.

(** The last overlap of a run starting within an arc: the slice from (2, 0) along the half circle from
    (4, 0) to (4, 4), of bulge 1, is given a smaller bulge there. *)
Theorem C29_last_bulge_refuted : exists p1 p2 : pline float,
  vtx p2 = [Vtx 0 0 0; Vtx 4 0 1; Vtx 4 4 0; Vtx 0 4 0]%float
  /\ (let! l := join_run p1 p2 in
      let! vs := views p2 l in
      Ret (map (map (fun v => (px v, py v, PrimFloat.ltb (pbulge v) 0.5))) vs))
     = Ret [[(2, 0, true); (4, 0, true); (4, 4, true)]]%float.
Proof. exact (ex_intro _ split_disc (ex_intro _ half_disc (conj eq_refl half_disc_view))). Qed.
Print Assumptions C29_last_bulge_refuted.

(** A merged slice keeps the start index of the first one: the overlap around the corner (0, 0) of two
    squares, from (0, 2) to (2, 0), is viewed as passing (4, 0). *)
Theorem C29_merged_view_refuted : exists (p1 p2 : pline float) s,
  vtx p1 = [Vtx 0 0 0; Vtx 2 0 0; Vtx 2 2 0; Vtx 0 2 0]%float
  /\ vtx p2 = [Vtx 0 0 0; Vtx 4 0 0; Vtx 4 4 0; Vtx 0 4 0]%float
  /\ join_run p1 p2 = Ret [s]
  /\ os_start_indexes s = (3, 3) /\ os_end_indexes s = (0, 0)
  /\ view_vertexes (os_view s) p2 = Ret [Vtx 0 2 0; Vtx 4 0 0; Vtx 2 0 0]%float.
Proof.
  exact (ex_intro _ corner_small (ex_intro _ corner_big
    (match corner_view with ex_intro _ s H => ex_intro _ s (conj eq_refl (conj eq_refl H)) end))).
Qed.
Print Assumptions C29_merged_view_refuted.

(** The same square twice gives a loop; a shared corner gives one slice of two overlaps. *)
Example C29_example :
  (exists s, join_run corner_rot corner_big = Ret [s] /\ os_is_loop s = true /\ os_start_indexes s = (3, 0))
  /\ exists s, join_run corner_in corner_big = Ret [s] /\ os_is_loop s = false /\ os_opposing s = false
     /\ os_start_indexes s = (0, 0) /\ os_end_indexes s = (1, 1)
     /\ view_vertexes (os_view s) corner_big = Ret [Vtx 2 0 0; Vtx 4 0 0; Vtx 4 2 0]%float.
Proof. exact join_runs_ok. Qed.
