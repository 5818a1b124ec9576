(** Notions used in the statements about intersections, over the reals. *)
From Coq Require Import Reals.
From Verif Require Import ModelMath SpecGeom.
Local Open Scope R_scope.

(** Cross product of two vectors and the vector from [p] to [q]. *)
Definition cross (a b : vec2 R) : R := vx a * vy b - vy a * vx b.
Definition vec (p q : vec2 R) : vec2 R := V2 (vx q - vx p) (vy q - vy p).

(** Parameter [s] of a segment of length [L] is on the segment extended by [eps] at both ends. *)
Definition in_range (s L eps : R) : Prop := - eps < s * L < L + eps.

(** Smaller than [eps] in both coordinates: the code treats such a segment as a point. *)
Definition is_point (p q : vec2 R) (eps : R) : Prop :=
  Rabs (vx q - vx p) < eps /\ Rabs (vy q - vy p) < eps.
