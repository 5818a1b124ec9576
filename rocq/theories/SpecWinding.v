(** How far a path turns around a point (C15). *)
From Coq Require Import Reals List.
From Verif Require Import ModelMath ModelSeg ModelPline Spec SpecGeom.
Local Open Scope R_scope.

(** Seen from [pt], the direction to a point travelling along the segment can be followed continuously
    by an angle [phi], which changes by [delta] from the start to the end of the segment. *)
Definition turns_by (v1 v2 : vertex R) (pt : vec2 R) (delta : R) : Prop :=
  exists phi rho, continuity phi
    /\ (forall t, 0 <= t <= 1 -> 0 < rho t)
    /\ (forall t q, 0 <= t <= 1 -> seg_at v1 v2 t q -> q = circle_pt pt (rho t) (phi t))
    /\ delta = phi 1 - phi 0.

(** The turns of the segments of [p] around [pt] add up to [total]. *)
Definition path_turns_by (p : pline R) (pt : vec2 R) (total : R) : Prop :=
  exists ds, Forall2 (fun s d => turns_by (fst s) (snd s) pt d) (spec_segs (vtx p) (is_closed p)) ds
    /\ total = rsum ds.
