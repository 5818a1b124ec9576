(** Boxes around drawn segments and paths (C09, C10). *)
From Coq Require Import Reals List.
From Verif Require Import ModelMath ModelSeg ModelPline Spec SpecGeom.
Local Open Scope R_scope.

(** [q] lies in the box grown by [e] on every side. *)
Definition inside (b : aabb R) (e : R) (q : vec2 R) : Prop :=
  bmin_x b - e <= vx q <= bmax_x b + e /\ bmin_y b - e <= vy q <= bmax_y b + e.

(** Every side of the box is reached, up to [e], by a point of [S]. *)
Definition reaches (b : aabb R) (e : R) (S : vec2 R -> Prop) : Prop :=
  (exists q, S q /\ Rabs (vx q - bmin_x b) <= e) /\ (exists q, S q /\ Rabs (vx q - bmax_x b) <= e)
  /\ (exists q, S q /\ Rabs (vy q - bmin_y b) <= e) /\ (exists q, S q /\ Rabs (vy q - bmax_y b) <= e).

(** An arc whose ends agree up to the tolerance: the code treats it as a single point. *)
Definition short_arc (v1 v2 : vertex R) : Prop :=
  pbulge v1 <> 0 /\ Rabs (px v1 - px v2) < 1 / 100000000 /\ Rabs (py v1 - py v2) < 1 / 100000000.

(** If the segment is an arc its radius is at most [rho]. *)
Definition radius_within (rho : R) (v1 v2 : vertex R) : Prop :=
  pbulge v1 <> 0 -> forall c r a, is_arc (pos v1) (pos v2) (pbulge v1) c r a -> r <= rho.

Definition on_path (p : pline R) (q : vec2 R) : Prop :=
  exists v1 v2, In (v1, v2) (spec_segs (vtx p) (is_closed p)) /\ on_seg v1 v2 q.
