(** C49: how the raw offset is cut. *)
From Coq Require Import Reals List Bool Arith Permutation PrimFloat.
From Verif Require Import Num RNum FNum Res ModelMath ModelIntr ModelSeg ModelPline ModelView ModelSegIntr ModelIndex ModelIntersects ModelBoolean ModelOffset.
From Verif Require Import Spec SpecGeom SpecIntr SpecSegIntr SpecOffsetJoin SpecIndex SpecIntersects SpecChain SpecCuts.
From Verif Require Import ProofIndex2 ProofCuts3 ProofCutsR ProofCutsF.
Import ListNotations.

(** The offset: the raw offset is empty and so is the result, or it is cut at the points where it meets itself,
    the raw offset to the other side and the circles about the ends; the slices that are clear of the input,
    and no others, are stitched together. *)
Theorem C49_cut {T} {N : Num T} mk (p : pline T) idx offset o : makes_index mk -> pline_index p idx -> 2 <= vertex_count p ->
  exists raw, create_raw_offset_polyline p offset (oo_pos_equal_eps o) = Ret raw
  /\ ((vertex_count raw = 0 /\ parallel_offset mk p idx offset o = Ret [])
      \/ (2 <= vertex_count raw /\ exists slices last chains Ks, offset_slices p offset o raw slices
           /\ parallel_offset mk p idx offset o
              = Ret (offset_results slices (is_closed p) (oo_pos_equal_eps o) (oo_slice_join_eps o) Ks)
           /\ all_chained (path_at raw slices) (next_at slices (oo_slice_join_eps o)) (nearest_ahead slices last (oo_pos_equal_eps o)) true (oo_pos_equal_eps o) chains Ks
           /\ Permutation (concat chains) (seq 0 (length slices)))).
Proof. exact (offset_cut mk p idx offset o). Qed.
Print Assumptions C49_cut.

(** The two ways of cutting, for any path in the place of the raw offset. *)
Theorem C49_raw {T} {N : Num T} mk (p raw : pline T) idx offset o : makes_index mk -> pline_index p idx -> 2 <= vertex_count raw ->
  exists slices, slices_from_raw_offset mk p raw idx offset o = Ret slices /\ raw_sliced p raw offset o slices.
Proof. exact (raw_sliced_spec mk p raw idx offset o). Qed.
Print Assumptions C49_raw.

Theorem C49_dual {T} {N : Num T} mk (p raw dual : pline T) idx offset o : makes_index mk -> pline_index p idx ->
  2 <= vertex_count raw -> 2 <= vertex_count p -> (is_closed p = false -> is_closed raw = false) ->
  exists slices, slices_from_dual_raw_offsets mk p raw dual idx offset o = Ret slices /\ dual_sliced p raw dual offset o slices.
Proof. exact (fun MK IDX => dual_sliced_spec mk p raw idx offset o MK IDX dual). Qed.
Print Assumptions C49_dual.

(** The circles about the ends. A line is cut only at points of it that are near the circle... *)
Theorem C49_circle_line c r eps v1 v2 q : (0 < eps)%R -> pbulge v1 = 0%R -> In q (circle_points c r eps v1 v2) ->
  on_seg v1 v2 q
  /\ (~ is_point (pos v1) (pos v2) eps -> clear_direction (pos v1) (pos v2) ->
      (exists t, dist (line_pt (pos v1) (pos v2) t) c < r + eps)%R -> (Rabs (dist q c - r) < eps)%R).
Proof. exact (circle_line_sound c r eps v1 v2 q). Qed.
Print Assumptions C49_circle_line.

(** ...and where it crosses the circle it is cut, except in the first part of it. *)
Theorem C49_circle_line_crossed c r eps v1 v2 t q : (0 < eps)%R -> pbulge v1 = 0%R ->
  ~ is_point (pos v1) (pos v2) eps -> clear_direction (pos v1) (pos v2) -> passes_inside (pos v1) (pos v2) c r eps ->
  (eps < t <= 1)%R -> q = line_pt (pos v1) (pos v2) t -> dist q c = r -> In q (circle_points c r eps v1 v2).
Proof. exact (circle_line_complete c r eps v1 v2 t q). Qed.
Print Assumptions C49_circle_line_crossed.

(** The same for an arc. *)
Theorem C49_circle_arc c r eps v1 v2 c1 r1 q tol : (0 < eps)%R -> (0 <= r)%R -> seg_ok v1 v2 -> pbulge v1 <> 0%R -> arc_circle v1 v2 c1 r1 ->
  (eps * Rmax 1 ((r1 + r) / dist c1 c) <= tol)%R -> wide v1 v2 tol ->
  In q (circle_points c r eps v1 v2) -> near_seg v1 v2 tol q /\ (Rabs (dist q c - r) <= tol)%R.
Proof. exact (circle_arc_sound c r eps v1 v2 c1 r1 q tol). Qed.
Print Assumptions C49_circle_arc.

Theorem C49_circle_arc_crossed c r eps v1 v2 c1 r1 q q' : (0 < eps)%R -> (0 <= r)%R -> seg_ok v1 v2 -> pbulge v1 <> 0%R -> arc_circle v1 v2 c1 r1 ->
  (eps <= dist c1 c)%R -> dist q' c1 = r1 -> dist q' c = r -> ~ is_point q q' eps ->
  on_seg v1 v2 q -> ~ is_point (pos v1) q eps -> dist q c = r -> In q (circle_points c r eps v1 v2).
Proof. exact (circle_arc_complete c r eps v1 v2 c1 r1 q q'). Qed.
Print Assumptions C49_circle_arc_crossed.

(** No segment that meets the circle is passed over because of its box. *)
Theorem C49_circle_examined (raw : pline R) c r eps hits i v1 v2 q : circle_hits raw c r hits ->
  nth_error (spec_segs (vtx raw) (is_closed raw)) i = Some (v1, v2) -> seg_ok v1 v2 -> on_seg v1 v2 q -> dist q c = r ->
  (In (i, q) (circle_cuts raw c r eps hits) <-> In q (circle_points c r eps v1 v2)).
Proof. exact (circle_hit raw c r eps hits i v1 v2 q). Qed.
Print Assumptions C49_circle_examined.

(** The part at the start of a line that is exempt grows with its length: here no cut is made on a line whose
    start is five units away from where it enters the circle. *)
Theorem C49_long_line_refuted : exists (v1 v2 : vertex R) c r eps q, (0 < eps <= 1 / 100000)%R /\ pbulge v1 = 0%R
  /\ passes_inside (pos v1) (pos v2) c r eps /\ on_seg v1 v2 q /\ dist q c = r /\ (5 <= dist (pos v1) q)%R
  /\ circle_points c r eps v1 v2 = [].
Proof. exact circle_missed. Qed.
Print Assumptions C49_long_line_refuted.

(** So the result of an offset by 1 passes an end of the input at half that distance. *)
Theorem C49_near_end_refuted : exists (p : pline float) rs r v w1 w2,
  parallel_offset_constructed (@list_index float _) p 1%float (OO 1e-5 1e-4 1e-4 false)%float = Ret rs
  /\ In r rs /\ In v (vtx p) /\ In (w1, w2) (spec_segs (vtx r) (is_closed r))
  /\ (dist_squared (seg_closest_point w1 w2 (pos v) 1e-5%float) (pos v) <? 0.51 * 0.51)%float = true.
Proof. exact hook_near. Qed.
Print Assumptions C49_near_end_refuted.

(** There are indexes; an offset that is cut by the circle about an end of its input into two results. *)
Example C49_example : makes_index (@list_index R _)
  /\ (let! rs := parallel_offset_constructed (@list_index float _) (hook 1000%float) 1%float hook_opts in
      Ret (map (fun r => (vertex_count r, is_closed r, passes_vertex (hook 1000%float) r)) rs)) = Ret [(6, false, false); (2, false, false)].
Proof. exact (conj list_index_ok hook_short). Qed.
