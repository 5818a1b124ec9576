(** Raw offsets of polylines of lines stay near the polyline (C48). *)
From Coq Require Import Reals List.
From Verif Require Import ModelMath ModelSeg ModelPline Spec SpecGeom SpecIntr SpecBox SpecOffset SpecOffsetJoin.
Import ListNotations.
Local Open Scope R_scope.

Definition all_lines (p : pline R) : Prop := forall v, In v (vtx p) -> pbulge v = 0.

(** Within [D] of a point of the path. *)
Definition near_path (p : pline R) (D : R) (q : vec2 R) : Prop := exists y, on_path p y /\ dist q y <= D.

(** A corner is clearly a corner, or the path goes straight on or straight back there. *)
Definition clear_corner (d eps : R) (p q r : vec2 R) : Prop :=
  eps <= Rabs (cross (vec p q) (vec q r))
  \/ (ahead p q r /\ 4 * eps < dist p q)
  \/ (back p q r /\ eps <= 2 * Rabs d * Rmax (dist p q) (dist q r)).

(** So are all corners, and no segment is a point. *)
Definition clear_corners (p : pline R) (d eps : R) : Prop :=
  (forall v1 v2, In (v1, v2) (spec_segs (vtx p) (is_closed p)) -> ~ is_point (pos v1) (pos v2) eps)
  /\ (forall v1 v2 u1 u2, In ((v1, v2), (u1, u2)) (spec_segs (spec_segs (vtx p) (is_closed p)) (is_closed p)) ->
        clear_corner d eps (pos v1) (pos v2) (pos u2)).

(** The path starts at the offset of the start of the first segment of [p] and ends, up to the tolerance, at the
    offset of the end of the last one. *)
Definition open_ends (p : pline R) (d eps : R) (l : list (vertex R)) : Prop :=
  (forall v1 v2 n, hd_error (spec_segs (vtx p) false) = Some (v1, v2) -> left_normal (pos v1) (pos v2) n ->
     exists w, hd_error l = Some w /\ pos w = moved (pos v1) n d)
  /\ (forall pre v1 v2 n, spec_segs (vtx p) false = pre ++ [(v1, v2)] -> left_normal (pos v1) (pos v2) n ->
     exists pre' w, l = pre' ++ [w] /\ dist (pos w) (moved (pos v2) n d) <= 3 / 2 * eps).
