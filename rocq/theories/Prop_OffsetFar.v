(** C46: offset results keep the distance. *)
From Coq Require Import Reals List PrimFloat.
From Verif Require Import Num RNum FNum Res ModelMath ModelSeg ModelPline ModelView ModelIndex ModelOffset.
From Verif Require Import Spec SpecGeom SpecBox SpecClosest SpecIndex SpecOffset2 ProofIndex2 ProofOffset3F ProofChain2 ProofOffsetFar ProofOffsetFarF.
Import ListNotations.

(** Every vertex of every result is far enough from the input; except that the result may be the whole raw
    offset, of which only the first vertex is known to be. *)
Theorem C46_far mk (p : pline R) idx offset o rs : makes_index mk -> pline_ok p -> (0 < oo_pos_equal_eps o)%R -> pline_index p idx ->
  (0 <= Rabs offset - oo_offset_dist_eps o)%R -> parallel_offset mk p idx offset o = Ret rs ->
  (forall r v, In r rs -> In v (vtx r) -> far_enough p (pos v) (Rabs offset - oo_offset_dist_eps o)%R (oo_pos_equal_eps o))
  \/ exists raw r, create_raw_offset_polyline p offset (oo_pos_equal_eps o) = Ret raw /\ rs = [r]
     /\ (forall v, In v (vtx r) -> exists u, In u (vtx raw) /\ pos u = pos v)
     /\ (forall u, hd_error (vtx raw) = Some u -> far_enough p (pos u) (Rabs offset - oo_offset_dist_eps o)%R (oo_pos_equal_eps o)).
Proof. exact (offset_far mk p idx offset o rs). Qed.
Print Assumptions C46_far.

(** The exception happens: a simple polygon with an offset of 0.25 and a result with a vertex less than 0.13
    from it, with the default options. *)
Theorem C46_whole_refuted : exists (p : pline float) rs r v v1 v2,
  parallel_offset_constructed (@list_index float _) p 0.25%float (OO 1e-5 1e-4 1e-4 false)%float = Ret rs
  /\ In r rs /\ In v (vtx r) /\ In (v1, v2) (spec_segs (vtx p) (is_closed p))
  /\ (dist_squared (seg_closest_point v1 v2 (pos v) 1e-5%float) (pos v) <? 0.13 * 0.13)%float = true.
Proof. exact chevron_near. Qed.
Print Assumptions C46_whole_refuted.

(** Also of a raw offset that is cut into slices only the vertexes and the middles of the first and last segments of a
    slice are known to be far enough: a simple polygon with an offset of 1, and a line of one of the two results whose
    middle is less than 0.87 from it, with the default options. *)
Theorem C46_between_refuted : exists (p : pline float) r1 r2 w1 w2 v1 v2,
  parallel_offset_constructed (@list_index float _) p 1%float (OO 1e-5 1e-4 1e-4 false)%float = Ret [r1; r2]
  /\ In (w1, w2) (spec_segs (vtx r2) (is_closed r2)) /\ bulge_is_zero w1 = true /\ In (v1, v2) (spec_segs (vtx p) (is_closed p))
  /\ (dist_squared (seg_closest_point v1 v2 (midpoint (pos w1) (pos w2)) 1e-5) (midpoint (pos w1) (pos w2)) <? 0.87 * 0.87)%float = true.
Proof. exact spike_near. Qed.
Print Assumptions C46_between_refuted.

(** There are indexes; a run with two results. *)
Example C46_example : makes_index (@list_index R _)
  /\ (let! rs := parallel_offset (@list_index float _) dumbbell dumbbell_index 1.5%float dumbbell_opts in
      Ret (map (fun r => (vertex_count r, is_closed r)) rs)) = Ret [(7, true); (7, true)].
Proof. exact (conj list_index_ok dumbbell_rooms). Qed.
