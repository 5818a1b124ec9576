(** Notions for the closest point on a segment or path (C14). *)
From Coq Require Import Reals List.
From Verif Require Import ModelMath ModelSeg ModelPline Spec SpecGeom SpecIntr SpecBox.
Local Open Scope R_scope.

Definition dot (a b : vec2 R) : R := vx a * vx b + vy a * vy b.

(** [q] is on the ray from [c] through [p]. *)
Definition on_ray (c p q : vec2 R) : Prop :=
  exists k, 0 <= k /\ vec c q = V2 (k * vx (vec c p)) (k * vy (vec c p)).

(** The point lies outside the sector of the arc, but so close to the line through the centre and one
    of the arc's ends that the code takes it to be inside. *)
Definition grazing (v1 v2 : vertex R) (pt : vec2 R) (eps : R) : Prop :=
  pbulge v1 <> 0
  /\ (exists c r a, is_arc (pos v1) (pos v2) (pbulge v1) c r a
      /\ (forall q, on_seg v1 v2 q -> ~ on_ray c q pt)
      /\ (Rabs (cross (vec c (pos v1)) (vec c pt)) < eps
          \/ Rabs (cross (vec c (pos v2)) (vec c pt)) < eps)).

(** The point is, up to [eps], the centre of the arc. *)
Definition near_centre (v1 v2 : vertex R) (pt : vec2 R) (eps : R) : Prop :=
  pbulge v1 <> 0
  /\ exists c r a, is_arc (pos v1) (pos v2) (pbulge v1) c r a /\ is_point c pt eps.

(** The foot of the perpendicular from the point to the line is not within the code's tolerance of
    one of the ends: beyond the start, beyond the end, or clearly between them. *)
Definition clear_foot (v1 v2 : vertex R) (pt : vec2 R) : Prop :=
  let c1 := dot (vec (pos v1) pt) (vec (pos v1) (pos v2)) in
  let c2 := dot (vec (pos v1) (pos v2)) (vec (pos v1) (pos v2)) in
  c1 <= 0 \/ (1 / 100000000 <= c1 /\ (c2 <= c1 \/ c1 + 1 / 100000000 <= c2)).

(** None of the tolerances matters for this segment and point. *)
Definition plain (v1 v2 : vertex R) (pt : vec2 R) (eps : R) : Prop :=
  (pbulge v1 = 0 -> clear_foot v1 v2 pt) /\ ~ near_centre v1 v2 pt eps /\ ~ grazing v1 v2 pt eps.

(** [d] exceeds the distance [d'] by no more than the tolerances. *)
Definition not_much_further (d d' eps : R) : Prop :=
  d * d <= (d' + 3 * eps) * (d' + 3 * eps) + 1 / 50000000.
