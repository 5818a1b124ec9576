(** Distance of offset slices from the original polyline (C34). *)
From Coq Require Import Reals List.
From Verif Require Import Num RNum Res ModelMath ModelSeg ModelPline ModelView ModelSegIntr ModelIndex ModelOffset.
From Verif Require Import Spec SpecGeom SpecBox SpecClosest SpecView.
Import ListNotations.
Local Open Scope R_scope.

(** No point of the path is within [D] of [pt], up to the tolerances of the closest point; without
    exception if none of these tolerances matters for [pt]. *)
Definition far_enough (p : pline R) (pt : vec2 R) (D eps : R) : Prop :=
  forall q, on_path p q ->
    D * D < (dist pt q + 3 * eps) * (dist pt q + 3 * eps) + 1 / 50000000
    /\ ((forall v1 v2, In (v1, v2) (spec_segs (vtx p) (is_closed p)) -> plain v1 v2 pt eps) -> D < dist pt q).

(** The boxes of the two segments overlap, one of them grown by the tolerance. *)
Definition boxes_touch (a b : aabb R) : Prop :=
  bmin_x a <= bmax_x b + 1 / 100000000 /\ bmin_x b - 1 / 100000000 <= bmax_x a
  /\ bmin_y a <= bmax_y b + 1 / 100000000 /\ bmin_y b - 1 / 100000000 <= bmax_y a.

(** No segment of [p] whose box touches that of the segment [w1], [w2] is found to intersect it. *)
Definition no_hit (p : pline R) (eps : R) (w1 w2 : vertex R) : Prop :=
  forall u1 u2, In (u1, u2) (spec_segs (vtx p) (is_closed p)) ->
    boxes_touch (seg_fast_approx_bounding_box u1 u2) (seg_fast_approx_bounding_box w1 w2) ->
    pline_seg_intr w1 w2 u1 u2 eps = SINoIntersect.

(** The vertexes of [l] and the middles of its first and last segments are far enough from [p], and
    none of its segments is found to intersect [p]. *)
Definition clear_path (p : pline R) (D eps : R) (l : list (vertex R)) : Prop :=
  (forall w, In w l -> far_enough p (pos w) D eps)
  /\ (forall k w1 w2 q, k = 0%nat \/ (k + 2)%nat = length l -> nth_error (spec_segs l false) k = Some (w1, w2) ->
        seg_ok w1 w2 -> seg_at w1 w2 (1 / 2) q -> far_enough p q D eps)
  /\ (forall w1 w2, In (w1, w2) (spec_segs l false) -> no_hit p eps w1 w2).

(** A slice [s] of [raw] is a path clear of [p]; or it is the whole of [raw], whose first vertex is. *)
Definition clear_slice (p raw : pline R) (D eps : R) (s : view_data R) : Prop :=
  exists l, view_pline s raw = Ret (PL l false)
    /\ (clear_path p D eps l
        \/ (view_from_entire_pline raw = Ret s
            /\ forall v, hd_error (vtx raw) = Some v -> far_enough p (pos v) D eps)).
