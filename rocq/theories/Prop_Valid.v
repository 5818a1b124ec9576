(** C57: views made by the library pass its own validation. *)
From Coq Require Import List Arith Bool Reals Floats.
From Verif Require Import Num Res RNum FNum ModelMath ModelSeg ModelPline ModelView Spec SpecPline SpecGeom SpecView SpecClosest SpecValid
  ProofViewEx ProofValid ProofValid2 ProofValidF.
Import ListNotations.

(** A slice between two points, with points compared at the validation's tolerance or a larger one. *)
Theorem C57_slice :
  forall (p : pline R) (eps : R) (i : nat) (t : R) (sp : vec2 R) (j : nat) (u : R) (ep : vec2 R) (d : view_data R),
  (1 / 100000 <= eps)%R -> clear_pline eps p -> point_at p i t sp -> end_at p j u ep ->
  crisp_vertexes eps p sp -> crisp_vertexes eps p ep -> crisp eps sp ep ->
  (is_closed p = false -> i < j \/ i = j /\ (t <= u)%R) ->
  (i = j -> (t < u)%R -> forall a, nth_error (vtx p) i = Some a -> rest_ok a t) ->
  view_from_slice_points p sp i ep j eps = Ret (Some d) ->
  validate_for_source d p = Ret VVIsValid.
Proof. intros p eps i t sp j u ep d A B C D E F G H I. exact (slice_valid p eps i t sp j u ep A B C D E F G H I d). Qed.
Print Assumptions C57_slice.

(** The view of a whole polyline. *)
Theorem C57_entire :
  forall (eps : R) (p : pline R) (d : view_data R),
  (1 / 100000 <= eps)%R -> clear_pline eps p ->
  view_from_entire_pline p = Ret d -> validate_for_source d p = Ret VVIsValid.
Proof. exact entire_valid. Qed.
Print Assumptions C57_entire.

(** The view from another start point. *)
Theorem C57_new_start :
  forall (eps : R) (p : pline R) (i : nat) (t : R) (sp : vec2 R) (d : view_data R),
  (1 / 100000 <= eps)%R -> clear_pline eps p -> point_at p i t sp -> crisp_vertexes eps p sp ->
  (is_closed p = false -> forall l, nth_error (vtx p) (vertex_count p - 1) = Some l -> crisp_vertexes eps p (pos l)) ->
  view_from_new_start p sp i eps = Ret (Some d) -> validate_for_source d p = Ret VVIsValid.
Proof. exact new_start_valid. Qed.
Print Assumptions C57_new_start.

(** Data found valid is within its bounds, its ends are near their segments, its end is not at the start of
    the last segment, and within one segment the two bulges agree. *)
Theorem C57_valid_means :
  forall (d : view_data R) (p : pline R), validate_for_source d p = Ret VVIsValid ->
  let n := vertex_count p in
  2 <= n /\ vd_start_index d < n /\ vd_end_index_offset d <= n
  /\ near_path (vtx p) (vd_start_index d) (pos (vd_updated_start d))
  /\ near_path (vtx p) ((vd_start_index d + vd_end_index_offset d) mod n) (vd_end_point d)
  /\ (forall v, nth_error (vtx p) ((vd_start_index d + vd_end_index_offset d) mod n) = Some v ->
        ~ alike (1 / 100000) (vd_end_point d) (pos v))
  /\ (vd_end_index_offset d = 0 -> (Rabs (vd_updated_end_bulge d - pbulge (vd_updated_start d)) < 1 / 100000)%R).
Proof. exact valid_means. Qed.
Print Assumptions C57_valid_means.

(** A refusal names something that is wrong. *)
Theorem C57_refusal_means :
  forall (d : view_data R) (p : pline R) (r : view_validation R), validate_for_source d p = Ret r ->
  match r with
  | VVSourceHasNoSegments => vertex_count p < 2
  | VVOffsetOutOfRange o n => o = vd_end_index_offset d /\ n = vertex_count p /\ n < o
  | VVUpdatedStartNotOnSegment q => q = pos (vd_updated_start d)
      /\ forall a b, nth_error (vtx p) (vd_start_index d) = Some a ->
           nth_error (vtx p) ((vd_start_index d + 1) mod vertex_count p) = Some b -> seg_ok a b -> ~ on_seg a b q
  | VVEndPointNotOnSegment q => q = vd_end_point d
      /\ forall a b, let k := (vd_start_index d + vd_end_index_offset d) mod vertex_count p in
           nth_error (vtx p) k = Some a -> nth_error (vtx p) ((k + 1) mod vertex_count p) = Some b ->
           seg_ok a b -> ~ on_seg a b q
  | VVEndPointOnFinalOffsetVertex q v => q = vd_end_point d /\ alike (1 / 100000) q (pos v)
      /\ nth_error (vtx p) ((vd_start_index d + vd_end_index_offset d) mod vertex_count p) = Some v
  | VVUpdatedBulgeDoesNotMatch b1 b2 => vd_end_index_offset d = 0
      /\ b1 = vd_updated_end_bulge d /\ b2 = pbulge (vd_updated_start d) /\ b1 <> b2
  | VVIsValid => True
  end.
Proof. exact invalid_means. Qed.
Print Assumptions C57_refusal_means.

(** With points compared at a smaller tolerance, a slice ending just after a vertex is found invalid. *)
Theorem C57_small_eps_refuted :
  exists (p : pline float) (sp ep : vec2 float) (d : view_data float),
  view_from_slice_points p sp 0 ep 1 1e-8%float = Ret (Some d)
  /\ validate_for_source d p = Ret (VVEndPointOnFinalOffsetVertex ep (Vtx 10 0 0)%float).
Proof. exact small_eps_invalid. Qed.
Print Assumptions C57_small_eps_refuted.

Example C57_example :
  let v x y b := Vtx x y b : vertex float in
  let p := (PL [v 0 0 0; v 4 0 1; v 4 4 0; v 0 4 0] true)%float in
  let slice sp i ep j := (let! o := view_from_slice_points p sp i ep j 1e-5%float in let! d := unwrap o in validate_for_source d p) in
  (slice (V2 1 0) 0%nat (V2 6 2) 1%nat = Ret VVIsValid
   /\ slice (V2 6 2) 1%nat (V2 1 0) 0%nat = Ret VVIsValid
   /\ (let! o := view_from_new_start p (V2 6 2) 1 1e-5 in let! d := unwrap o in validate_for_source d p) = Ret VVIsValid
   /\ (let! d := view_from_entire_pline p in validate_for_source d p) = Ret VVIsValid
   /\ validate_for_source (VD 0%nat 1%nat (v 1 0 0) 0 (V2 5 2) false) p = Ret (VVEndPointNotOnSegment (V2 5 2))
   /\ validate_for_source (VD 0%nat 1%nat (v 1 1 0) 0 (V2 6 2) false) p = Ret (VVUpdatedStartNotOnSegment (V2 1 1))
   /\ validate_for_source (VD 0%nat 5%nat (v 1 0 0) 0 (V2 6 2) false) p = Ret (VVOffsetOutOfRange 5 4)
   /\ validate_for_source (VD 0%nat 0%nat (v 1 0 0) 1 (V2 2 0) false) p = Ret (VVUpdatedBulgeDoesNotMatch 1 0)
   /\ validate_for_source (VD 0%nat 1%nat (v 1 0 0) 0 (V2 4 0) false) p = Ret (VVEndPointOnFinalOffsetVertex (V2 4 0) (v 4 0 1))
   /\ validate_for_source (VD 0%nat 1%nat (v 1 0 0) 0 (V2 4 0) false) (PL [v 1 1 1] true) = Ret VVSourceHasNoSegments)%float.
Proof. exact valid_cases. Qed.
Print Assumptions C57_example.

(** The assumptions on slices hold for a square and two points of different sides. *)
Example C57_assumptions :
  let p := (PL [Vtx 0 0 0; Vtx 4 0 0; Vtx 4 4 0; Vtx 0 4 0] true)%R in
  clear_pline (1 / 100000) p /\ point_at p 0 (1 / 4) (V2 1 0)%R /\ end_at p 1 (1 / 2) (V2 4 2)%R
  /\ crisp_vertexes (1 / 100000) p (V2 1 0)%R /\ crisp_vertexes (1 / 100000) p (V2 4 2)%R
  /\ crisp (1 / 100000) (V2 1 0)%R (V2 4 2)%R.
Proof. exact square_slice_ok. Qed.
Print Assumptions C57_assumptions.
