(** C33, C34: raw offset segments and the distance of kept slices. *)
From Coq Require Import Reals List.
From Verif Require Import Num RNum Res ModelMath ModelSeg ModelPline ModelView ModelIndex ModelOffset.
From Verif Require Import Spec SpecGeom SpecBox SpecClosest SpecIndex SpecOffset SpecOffset2.
From Verif Require Import ProofMeasure ProofIndex2 ProofOffset1 ProofOffset3 ProofOffset3F.
Import ListNotations.
Local Open Scope R_scope.

(** There is one raw offset per segment, in order: a line moved along its left normal, or the
    concentric arc with the same sweep, flagged when its radius would be below the tolerance. *)
Theorem C33_raw_offsets (p : pline R) offset : pline_ok p ->
  (forall v1 v2, In (v1, v2) (spec_segs (vtx p) (is_closed p)) -> pos v1 <> pos v2) ->
  exists l, create_untrimmed_raw_offset_segs p offset = Ret l
    /\ Forall2 (raw_ok offset) (spec_segs (vtx p) (is_closed p)) l.
Proof. exact (raw_segs_ok p offset). Qed.
Print Assumptions C33_raw_offsets.

(** The bulge computed for a corner gives the arc about the original vertex, if the corner turns the
    way the caller says. *)
Theorem C33_corner c r a th (ccw : bool) : 0 < r -> - PI <= th <= PI -> (if ccw then 0 <= th else th < 0) ->
  is_arc (circle_pt c r a) (circle_pt c r (a + th))
         (bulge_for_connection c (circle_pt c r a) (circle_pt c r (a + th)) ccw) c r a.
Proof. exact (corner_ok c r a th ccw). Qed.
Print Assumptions C33_corner.

(** A line and a half circle of radius 1, moved by 1/2 and by 2. *)
Example C33_example : exists s1 s2, create_untrimmed_raw_offset_segs ex_path (1 / 2) = Ret [s1; s2]
  /\ rs_v1 s1 = Vtx (-2 / 5) (3 / 10) 0 /\ rs_collapsed_arc s2 = false
  /\ exists s3 s4, create_untrimmed_raw_offset_segs ex_path 2 = Ret [s3; s4] /\ rs_collapsed_arc s4 = true.
Proof. exact ex_offset. Qed.

(** The distance test: with an index of the segments, whatever its order, a point that passes is far
    enough from every point of the polyline, and a point that fails is too close to some point (unless
    it grazes the sector of an arc). *)
Theorem C34_point (p : pline R) idx offset tol eps pt : pline_ok p -> 0 < eps -> pline_index p idx ->
  0 <= Rabs offset - tol ->
  exists b, point_valid_for_offset p offset idx pt eps tol = Ret b
  /\ (b = true -> far_enough p pt (Rabs offset - tol) eps)
  /\ (b = false -> (forall v1 v2, In (v1, v2) (spec_segs (vtx p) (is_closed p)) -> ~ grazing v1 v2 pt eps) ->
        exists q, on_path p q /\ dist pt q <= Rabs offset - tol).
Proof. exact (point_valid_spec p idx offset tol eps pt). Qed.
Print Assumptions C34_point.

(** Every slice kept by either kind of slicing is clear of the polyline, or is the whole raw polyline. *)
Theorem C34_slices mk (p raw : pline R) idx offset o : pline_ok p -> 0 < oo_pos_equal_eps o -> pline_index p idx ->
  0 <= Rabs offset - oo_offset_dist_eps o ->
  (forall l s, slices_from_raw_offset mk p raw idx offset o = Ret l -> In s l ->
     clear_slice p raw (Rabs offset - oo_offset_dist_eps o) (oo_pos_equal_eps o) s)
  /\ (forall dual l s, slices_from_dual_raw_offsets mk p raw dual idx offset o = Ret l -> In s l ->
     clear_slice p raw (Rabs offset - oo_offset_dist_eps o) (oo_pos_equal_eps o) s).
Proof. exact (all_slices_clear mk p raw idx offset o). Qed.
Print Assumptions C34_slices.

(** A point passing and a point failing the test; there are indexes; a run keeping two slices. *)
Example C34_example :
  (point_valid_for_offset ex_line 1 ex_line_index (V2 5 2) (1 / 100000) (1 / 10000) = Ret true
   /\ point_valid_for_offset ex_line 1 ex_line_index (V2 5 (1 / 2)) (1 / 100000) (1 / 10000) = Ret false)
  /\ makes_index (@list_index R _)
  /\ dumbbell_run = Ret (16%nat, 2%nat).
Proof. exact (conj ex_line_valid (conj list_index_ok dumbbell_two_slices)). Qed.
