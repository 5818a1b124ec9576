(** Polygons that clearly cross or clearly do not meet (C63).

    Sides beside each other, polygons, and when a polyline is clear are those of C60 and C28. *)
From Coq Require Import Reals List.
From Verif Require Import Num RNum Res ModelMath ModelSeg ModelPline ModelIntersects.
From Verif Require Import Spec SpecGeom SpecIntr SpecBox SpecView SpecPolyOff.
Import ListNotations.
Local Open Scope R_scope.

(** [q] differs by at least [eps] in a coordinate from every vertex. *)
Definition off_vertexes (eps : R) (p : pline R) (q : vec2 R) : Prop :=
  forall v, In v (vtx p) -> eps <= Rabs (px v - vx q) \/ eps <= Rabs (py v - vy q).

(** The lines from [a] to [b] and from [c] to [e] cross in [q], at an angle that does not count as parallel. *)
Definition cross_in (eps : R) (a b c e q : vec2 R) : Prop :=
  eps <= Rabs (cross (vec a b) (vec c e))
  /\ exists s t, 0 < s < 1 /\ 0 < t < 1 /\ q = line_pt a b s /\ q = line_pt c e t.

(** Of two sides either one is beside the other, or they cross away from all vertexes; and different common points
    differ by more than [eps] in a coordinate. *)
Definition clear_pair (eps : R) (p1 p2 : pline R) : Prop :=
  is_polygon p1 /\ is_polygon p2 /\ clear_pline eps p1 /\ clear_pline eps p2
  /\ (forall a b c e, In (a, b) (spec_segs (vtx p1) true) -> In (c, e) (spec_segs (vtx p2) true) ->
        beside eps (pos a) (pos b) (pos c) (pos e) \/ beside eps (pos c) (pos e) (pos a) (pos b)
        \/ exists q, cross_in eps (pos a) (pos b) (pos c) (pos e) q /\ off_vertexes eps p1 q /\ off_vertexes eps p2 q)
  /\ (forall q q', on_path p1 q -> on_path p2 q -> on_path p1 q' -> on_path p2 q' ->
        q = q' \/ eps < Rabs (vx q - vx q') \/ eps < Rabs (vy q - vy q')).

(** A common point of two polylines, with the numbers of the segments it is on. *)
Definition common_point (p1 p2 : pline R) (b : basic_intr R) : Prop :=
  exists v1 v2 u1 u2, nth_error (spec_segs (vtx p1) (is_closed p1)) (bi_index1 b) = Some (v1, v2)
  /\ nth_error (spec_segs (vtx p2) (is_closed p2)) (bi_index2 b) = Some (u1, u2)
  /\ on_seg v1 v2 (bi_point b) /\ on_seg u1 u2 (bi_point b).
