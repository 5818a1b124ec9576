(** Property C70: polygons offset so that corners are rounded; convex polygons offset to their outer side. *)
From Coq Require Import Reals List.
From Verif Require Import Num RNum Res ModelMath ModelSeg ModelPline ModelIndex ModelOffset.
From Verif Require Import Spec SpecGeom SpecIntr SpecBox SpecBoolean SpecView SpecPrune SpecIndex SpecCuts SpecOffset SpecOffNear SpecPolyOff SpecOffsetJoin SpecJordan SpecConvex SpecRound.
From Verif Require Import ProofRound1 ProofRound4 ProofRoundEx.
Import ListNotations.
Local Open Scope R_scope.

(** The raw offset path of a polygon each of whose corners is either one where the moved sides meet or one that is
    rounded: the meeting points and the arcs about the corners in order. *)
Theorem C70_raw p d eps vss : 0 < eps -> is_polygon p -> (2 <= vertex_count p)%nat -> made_corners p d eps vss ->
  create_raw_offset_polyline p d eps = Ret (PL (going_round vss) true).
Proof. exact (made_raw p d eps vss). Qed.
Print Assumptions C70_raw.

(** All corners of a roomy convex polygon offset to its outer side are rounded. *)
Theorem C70_corners s e eps m ps : s = 1 \/ s = -1 -> roomy s e m ps -> coarse eps e m -> exists vws, rounded_corners ps (- s * e) eps vws.
Proof. exact (round_exists s e eps m ps). Qed.
Print Assumptions C70_corners.

(** The offset of such a polygon by [e] to its outer side is the one path with the rounded corners. It passes no point
    twice, all its points are at the distance [e] from the polygon, and it encloses exactly the points inside the
    polygon or nearer to it than [e]. *)
Theorem C70_offset mk s ps e m o idx vws : makes_index mk -> s = 1 \/ s = -1 -> roomy s e m ps -> coarse (oo_pos_equal_eps o) e m ->
  (forall a b, In (a, b) (spec_segs ps true) -> clear_direction a b) ->
  0 < oo_slice_join_eps o -> 0 < oo_offset_dist_eps o < 2 * e -> oo_handle_self_intersects o = false -> pline_index (polygon ps) idx ->
  rounded_corners ps (- s * e) (oo_pos_equal_eps o) vws ->
  parallel_offset mk (polygon ps) idx (- s * e) o = Ret [round_path vws]
  /\ passes_once (round_path vws)
  /\ (forall x, on_path (round_path vws) x -> (forall q, on_path (polygon ps) q -> e <= dist x q) /\ exists q, on_path (polygon ps) q /\ dist x q = e)
  /\ forall x, ~ on_path (round_path vws) x ->
     (inside (round_path vws) x = true <-> inside (polygon ps) x = true \/ exists q, on_path (polygon ps) q /\ dist x q < e).
Proof. exact (round_offset mk s ps e m o idx vws). Qed.
Print Assumptions C70_offset.

(** A triangle with sides 8, 10 and 6 by 1, with the index built by the operation. *)
Example C70_example : let p := polygon [V2 0 0; V2 8 0; V2 0 6] in exists r,
  parallel_offset_constructed (@list_index R _) p (-1) (OO (1 / 100000) (1 / 10000) (1 / 10000) false) = Ret [r]
  /\ (forall x, on_path r x -> exists q, on_path p q /\ dist x q = 1)
  /\ (forall x, ~ on_path r x -> (inside r x = true <-> inside p x = true \/ exists q, on_path p q /\ dist x q < 1))
  /\ inside r (V2 (-1 / 2) (-1 / 2)) = true /\ inside r (V2 (-9 / 10) (-9 / 10)) = false.
Proof. exact tri_round. Qed.
Print Assumptions C70_example.
