(** Property C48: raw offsets of polylines of lines stay near the polyline. *)
From Coq Require Import Reals List PrimFloat.
From Verif Require Import Num RNum FNum Res ModelMath ModelSeg ModelPline ModelOffset.
From Verif Require Import Spec SpecGeom SpecIntr SpecBox SpecOffset SpecOffsetJoin SpecRawNear ProofRawNear3 ProofRawNearF.
Import ListNotations.
Local Open Scope R_scope.

(** The raw offset of a polyline of lines is computed; every point of it is within the offset of the polyline, up
    to six tolerances; for an open polyline it goes from the offset of the start to that of the end, unless
    nothing is left. *)
Theorem C48_raw_near p d eps : 0 < eps -> d <> 0 -> all_lines p -> clear_corners p d eps ->
  exists raw, create_raw_offset_polyline p d eps = Ret raw
  /\ (forall q, on_path raw q -> near_path p (Rabs d + 6 * eps) q) /\ (is_closed p = false -> vtx raw = [] \/ open_ends p d eps (vtx raw)).
Proof. exact (raw_near_total p d eps). Qed.
Print Assumptions C48_raw_near.

(** A path to which it applies and its raw offsets in double precision: the corner is cut, the straight
    continuation kept, and the turn back is half a circle. *)
Example C48_example : (all_lines near_ex /\ clear_corners near_ex 1 (1 / 100000) /\ vertex_count near_ex = 5%nat)
  /\ (create_raw_offset_polyline (PL [Vtx 0 0 0; Vtx 4 0 0; Vtx 8 0 0; Vtx 8 4 0; Vtx 8 2 0] false) 1 0x1p-17
      = Ret (PL [Vtx 0 1 0; Vtx 4 1 0; Vtx 7 1 0; Vtx 7 4 (-1); Vtx 9 4 0; Vtx 9 2 0] false))%float.
Proof. exact (conj near_ex_ok near_ex_run). Qed.
