(** Notions for the intersections of two polyline segments (C23). *)
From Coq Require Import Reals.
From Verif Require Import ModelMath ModelSeg ModelSegIntr SpecGeom SpecIntr.
Local Open Scope R_scope.

(** [q] is on the segment up to [tol] for a line and up to [tol * (1 + 2 / r)] for an arc of radius
    [r]. *)
Definition near_seg (v1 v2 : vertex R) (tol : R) (q : vec2 R) : Prop :=
  exists q', on_seg v1 v2 q'
    /\ ((pbulge v1 = 0 /\ dist q q' <= tol)
        \/ (pbulge v1 <> 0 /\ exists c r a, is_arc (pos v1) (pos v2) (pbulge v1) c r a
                              /\ dist q q' <= tol * (1 + 2 / r))).

(** Radius and chord of an arc are not tiny compared with [tol]. *)
Definition wide (v1 v2 : vertex R) (tol : R) : Prop :=
  pbulge v1 <> 0 -> forall c r a, is_arc (pos v1) (pos v2) (pbulge v1) c r a ->
  2 * tol <= r /\ 4 * tol <= r * dist (pos v1) (pos v2).

(** Going along the segment [p] comes no later than [q]. *)
Definition before (v1 v2 : vertex R) (p q : vec2 R) : Prop :=
  exists s t, 0 <= s <= t /\ t <= 1 /\ seg_at v1 v2 s p /\ seg_at v1 v2 t q.

(** The points of a result. *)
Definition reported (i : seg_intr R) (q : vec2 R) : Prop :=
  match i with
  | SINoIntersect => False
  | SITangent p | SIOne p => q = p
  | SITwo p1 p2 | SIOverlapLines p1 p2 | SIOverlapArcs p1 p2 => q = p1 \/ q = p2
  end.

(** The line through [p0] and [p1] passes the point [c] at distance [d]. *)
Definition passes_at (p0 p1 c : vec2 R) (d : R) : Prop :=
  (exists t, dist (line_pt p0 p1 t) c = d) /\ forall t, d <= dist (line_pt p0 p1 t) c.


(** Every point of a result is near both segments. *)
Definition all_near (v1 v2 u1 u2 : vertex R) (tol : R) (i : seg_intr R) : Prop :=
  forall q, reported i q -> near_seg v1 v2 tol q /\ near_seg u1 u2 tol q.

(** Two reported points that are on the second segment come in its order. *)
Definition in_order (u1 u2 : vertex R) (i : seg_intr R) : Prop :=
  match i with
  | SITwo p q | SIOverlapLines p q | SIOverlapArcs p q => on_seg u1 u2 p -> on_seg u1 u2 q -> before u1 u2 p q
  | _ => True
  end.

(** The result is not an overlap. *)
Definition no_overlap (i : seg_intr R) : Prop :=
  match i with SIOverlapLines _ _ | SIOverlapArcs _ _ => False | _ => True end.

(** The two segments have no common point. *)
Definition disjoint_segs (v1 v2 u1 u2 : vertex R) : Prop := forall q, on_seg v1 v2 q -> ~ on_seg u1 u2 q.

(** The part of the second segment from [p] to [q]. *)
Definition part (u1 u2 : vertex R) (p q x : vec2 R) : Prop := before u1 u2 p x /\ before u1 u2 x q.
