(** What a valid view is (C57). *)
From Coq Require Import Reals List Arith.
From Verif Require Import Num RNum ModelPline ModelMath ModelSeg ModelView.
From Verif Require Import Spec SpecPline SpecGeom SpecClosest.
Local Open Scope R_scope.

(** Both coordinates differ by less than [eps]. *)
Definition alike (eps : R) (p q : vec2 R) : Prop := Rabs (vx p - vx q) < eps /\ Rabs (vy p - vy q) < eps.

(** [q] is, up to a thousandth, an end of the segment or a point of it. *)
Definition near_seg (a b : vertex R) (q : vec2 R) : Prop :=
  alike (1 / 1000) q (pos a) \/ alike (1 / 1000) q (pos b)
  \/ (seg_ok a b -> ~ grazing a b q (1 / 100000) -> exists y, on_seg a b y /\ alike (1 / 1000) y q).

(** [q] is near the path from vertex [k] to the vertex after it, the first coming after the last. *)
Definition near_path (l : list (vertex R)) (k : nat) (q : vec2 R) : Prop :=
  exists a b, nth_error l k = Some a /\ nth_error l ((k + 1) mod length l) = Some b /\ near_seg a b q.
