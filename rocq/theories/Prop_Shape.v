(** C37: shapes. *)
From Coq Require Import Reals List Bool Arith PrimFloat.
From Verif Require Import Num RNum FNum Res ModelMath ModelSeg ModelPline ModelView ModelIndex ModelOffset ModelShape.
From Verif Require Import Spec SpecGeom SpecBox SpecClosest SpecIndex SpecOffset2 SpecChain SpecShape SpecShapeR.
From Verif Require Import ProofIndex2 ProofShape ProofShape6 ProofShapeF ProofShapeR.
Import ListNotations.

(** Polylines of fewer than two vertexes are dropped, the others are stored once, by orientation and in order;
    the index is over their bounds, in the order of the lists. *)
Theorem C37_partition {T} {N : Num T} mk (l : list (pline T)) : makes_index mk ->
  exists s, shape_from_plines mk l = Ret s
  /\ map ip_pline (sh_ccw s) = filter (fun p => (2 <=? vertex_count p) && loop_ccw p) l
  /\ map ip_pline (sh_cw s) = filter (fun p => (2 <=? vertex_count p) && negb (loop_ccw p)) l
  /\ shape_ok s.
Proof. intros MK. exact (from_plines_spec mk MK l). Qed.
Print Assumptions C37_partition.

(** What the offset of a shape is: the offsets of the inputs are cut where they meet; those that meet nothing are
    kept whole and slices are kept if they pass the test of distance; all slices kept are put together, each
    used once. It panics if and only if an offset or a chain has fewer than two vertexes. *)
Theorem C37_offset {T} {N : Num T} mk (s : shape T) offset o : makes_index mk -> shape_ok s ->
  offset_of_shape mk (sh_ccw s ++ sh_cw s) (length (sh_ccw s)) offset o (shape_parallel_offset mk s offset o).
Proof. intros MK OK. exact (shape_offset_spec mk MK s offset o (proj1 OK)). Qed.
Print Assumptions C37_offset.

(** The middle of the first segment of a slice that passes is far enough from all other inputs. *)
Theorem C37_passes inputs offset o (p : pline R) parent d : passes inputs offset o p parent d true ->
  (0 < so_pos_equal_eps o)%R -> (0 <= Rabs offset - so_offset_dist_eps o)%R ->
  Forall (fun ip => pline_ok (ip_pline ip) /\ has_index ip) inputs ->
  exists v0 v1 t, view_path_of p d = v0 :: v1 :: t
  /\ forall q k ip, seg_ok v0 v1 -> seg_at v0 v1 (1 / 2) q -> nth_error inputs k = Some ip -> k <> parent ->
       far_enough (ip_pline ip) q (Rabs offset - so_offset_dist_eps o) (so_pos_equal_eps o).
Proof. exact (passes_far inputs offset o p parent d). Qed.
Print Assumptions C37_passes.

(** The bounds of a loop are the smallest box around its boxes. *)
Theorem C37_bounds (idx : sindex R) b : index_bounds idx = Some b ->
  (forall x, In x (ix_boxes idx) -> covers b x) /\ reached b (ix_boxes idx).
Proof. exact (bounds_spec idx b). Qed.
Print Assumptions C37_bounds.

(** Not more than that is looked at: the offset of two disjoint polygons by 2, with the default options, has a
    point nearer than 1.5 to one of them. *)
Theorem C37_distance_refuted : exists s r ip v1 v2 u1 u2, shape_from_plines shape_index [quad; triangle] = Ret s
  /\ shape_parallel_offset shape_index s (-2)%float shape_opts = Ret r
  /\ In ip (sh_ccw r) /\ In (v1, v2) (spec_segs (vtx (ip_pline ip)) (is_closed (ip_pline ip)))
  /\ In (u1, u2) (spec_segs (vtx triangle) (is_closed triangle))
  /\ (dist_squared (seg_closest_point u1 u2 (seg_midpoint v1 v2) 1e-5) (seg_midpoint v1 v2) <? 1.5 * 1.5)%float = true.
Proof. exact quad_near. Qed.
Print Assumptions C37_distance_refuted.

(** A panic, with the default options. *)
Theorem C37_never_panics_refuted : exists s, shape_from_plines shape_index [tiny] = Ret s
  /\ shape_parallel_offset shape_index s (-5e-5)%float shape_opts = Panic UnwrapNone.
Proof. exact tiny_panics. Qed.
Print Assumptions C37_never_panics_refuted.

(** An open polyline is put with the clockwise ones, its offset with the counter-clockwise ones. *)
Theorem C37_open_refuted : exists s r ip, shape_from_plines shape_index [angle] = Ret s /\ map ip_pline (sh_cw s) = [angle]
  /\ shape_parallel_offset shape_index s 1%float shape_opts = Ret r /\ In ip (sh_ccw r) /\ is_closed (ip_pline ip) = false.
Proof. exact angle_moves. Qed.
Print Assumptions C37_open_refuted.

(** A ring offset inwards, and two squares that merge when offset outwards. *)
Example C37_example : makes_index (@list_index float _)
  /\ (exists s r, shape_from_plines shape_index ring = Ret s
      /\ shape_parallel_offset shape_index s 1%float shape_opts = Ret r
      /\ map (fun ip => map (fun v => (px v, py v)) (vtx (ip_pline ip))) (sh_ccw r) = [[(1, 1); (9, 1); (9, 9); (1, 9)]]%float
      /\ map (fun ip => (vertex_count (ip_pline ip), is_closed (ip_pline ip))) (sh_cw r) = [(8, true)])
  /\ (exists s r, shape_from_plines shape_index two_squares = Ret s
      /\ shape_parallel_offset shape_index s (-1)%float shape_opts = Ret r
      /\ map (fun ip => (vertex_count (ip_pline ip), is_closed (ip_pline ip))) (sh_ccw r) = [(12, true)] /\ sh_cw r = []).
Proof. exact (conj list_index_ok (conj ring_run squares_run)). Qed.
