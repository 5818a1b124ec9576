(** C09 (extents of a path) and C10 (boxes of a segment). *)
From Coq Require Import Reals List.
From Verif Require Import Num RNum Res ModelMath ModelSeg ModelPline Spec SpecGeom SpecBox.
From Verif Require Import ProofMeasure ProofBox2 ProofBox3.
Import ListNotations.
Local Open Scope R_scope.

(** extents is absent exactly when there is no segment.  Otherwise the box contains the whole path
    (up to 2e-8 if an arc has ends that agree up to the tolerance) and each side is reached by a
    point of the path, up to 1e-16 times the largest radius. *)
Theorem C09_extents p : pline_ok p ->
  (spec_segs (vtx p) (is_closed p) = [] /\ extents p = Ret None)
  \/ (spec_segs (vtx p) (is_closed p) <> [] /\ exists b, extents p = Ret (Some b)
      /\ (forall q, on_path p q -> inside b (1 / 50000000) q)
      /\ ((forall v1 v2, In (v1, v2) (spec_segs (vtx p) (is_closed p)) -> ~ short_arc v1 v2) ->
          forall q, on_path p q -> inside b 0 q)
      /\ (forall rho, 0 <= rho ->
            (forall v1 v2, In (v1, v2) (spec_segs (vtx p) (is_closed p)) -> radius_within rho v1 v2) ->
            reaches b (rho * (1 / 10000000000000000)) (on_path p))).
Proof. exact (extents_spec p). Qed.
Print Assumptions C09_extents.

Example C09_example :
  pline_ok ex_circle /\ on_path ex_circle (V2 0 1)
  /\ (forall v1 v2, In (v1, v2) (spec_segs (vtx ex_circle) (is_closed ex_circle)) -> ~ short_arc v1 v2)
  /\ (forall v1 v2, In (v1, v2) (spec_segs (vtx ex_circle) (is_closed ex_circle)) -> radius_within 1 v1 v2)
  /\ exists b, extents ex_circle = Ret (Some b) /\ bmin_y b <= -1 /\ 1 <= bmax_y b /\ bmax_x b <= 1 + 1 / 1000000.
Proof.
  exact (conj ex_circle_ok (conj (proj1 ex_circle_top)
        (conj ex_circle_no_short (conj ex_circle_radius ex_circle_extents)))).
Qed.

(** The exact box of a segment. *)
Theorem C10_bounding_box v1 v2 : seg_ok v1 v2 ->
  (forall q, on_seg v1 v2 q -> inside (seg_bounding_box v1 v2) (1 / 50000000) q)
  /\ (~ short_arc v1 v2 -> forall q, on_seg v1 v2 q -> inside (seg_bounding_box v1 v2) 0 q)
  /\ (forall rho, 0 <= rho -> radius_within rho v1 v2 ->
        reaches (seg_bounding_box v1 v2) (rho * (1 / 10000000000000000)) (on_seg v1 v2)).
Proof. exact (seg_box v1 v2). Qed.
Print Assumptions C10_bounding_box.

(** The fast box contains the segment without any tolerance. *)
Theorem C10_fast_bounding_box v1 v2 q :
  seg_ok v1 v2 -> on_seg v1 v2 q -> inside (seg_fast_approx_bounding_box v1 v2) 0 q.
Proof. exact (fast_box v1 v2 q). Qed.
Print Assumptions C10_fast_bounding_box.

(** The fast box contains the exact box, up to 1e-16 times the radius. *)
Theorem C10_fast_contains_exact v1 v2 rho : seg_ok v1 v2 -> 0 <= rho -> radius_within rho v1 v2 ->
  let f := seg_fast_approx_bounding_box v1 v2 in
  let e := seg_bounding_box v1 v2 in
  let d := rho * (1 / 10000000000000000) in
  bmin_x f - d <= bmin_x e /\ bmin_y f - d <= bmin_y e
  /\ bmax_x e <= bmax_x f + d /\ bmax_y e <= bmax_y f + d.
Proof. exact (fast_contains_exact v1 v2 rho). Qed.
Print Assumptions C10_fast_contains_exact.

Example C10_example :
  seg_fast_approx_bounding_box (Vtx 1 0 1) (Vtx (-1) 0 0) = AABB (-1) 0 1 1
  /\ seg_ok (Vtx 1 0 1) (Vtx (-1) 0 0) /\ ~ short_arc (Vtx 1 0 1) (Vtx (-1) 0 0)
  /\ on_seg (Vtx 1 0 1) (Vtx (-1) 0 0) (V2 0 1).
Proof. exact ex_half_boxes. Qed.
