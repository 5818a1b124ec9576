(** What it means to walk along a polyline (C16) and for one drawn path to be the image of another
    under a map of the plane (C40). *)
From Coq Require Import Reals List.
From Verif Require Import ModelMath ModelSeg ModelPline Spec SpecGeom.
Import ListNotations.
Local Open Scope R_scope.

(** Walking the distance [d] from the start along the segments of [p] ends on the segment with
    number [i], at its point [q]: the segments before number [i] are together shorter than [d], with
    segment [i] they are not, and [q] divides segment [i] in the remaining proportion. *)
Definition walk (p : pline R) (d : R) (i : nat) (q : vec2 R) : Prop :=
  exists v1 v2 Ls L,
    nth_error (spec_segs (vtx p) (is_closed p)) i = Some (v1, v2)
    /\ Forall2 (fun s L => seg_has_length (fst s) (snd s) L) (firstn i (spec_segs (vtx p) (is_closed p))) Ls
    /\ seg_has_length v1 v2 L
    /\ rsum Ls < d <= rsum Ls + L
    /\ seg_at v1 v2 ((d - rsum Ls) / L) q.

(** The path drawn by [p'] is the image of the path drawn by [p] under [f], segment by segment and
    parameter by parameter. *)
Definition path_image (f : vec2 R -> vec2 R) (p p' : pline R) : Prop :=
  Forall2 (fun s s' => forall t q',
             seg_at (fst s') (snd s') t q'
             <-> exists q, seg_at (fst s) (snd s) t q /\ q' = f q)
    (spec_segs (vtx p) (is_closed p)) (spec_segs (vtx p') (is_closed p')).
