(** Polygons that clearly cross themselves (C76).

    Lines that cross, sides beside each other, polygons and convex polygons are those of C63, C60 and C69. *)
From Coq Require Import Reals List.
From Verif Require Import Num RNum Res ModelMath ModelSeg ModelPline.
From Verif Require Import Spec SpecGeom SpecIntr SpecBox SpecPolyOff SpecPolyBool SpecConvex.
Import ListNotations.
Local Open Scope R_scope.

(** Sides [i] and [j] of a polygon with [n] corners are different and have no common corner. *)
Definition no_neighbours (n i j : nat) : Prop := i <> j /\ i <> ((j + 1) mod n)%nat /\ ((i + 1) mod n)%nat <> j.

(** Sides [i] and [j] cross in [x]. *)
Definition sides_cross (eps : R) (qs : list (vec2 R)) (i j : nat) (x : vec2 R) : Prop :=
  no_neighbours (length qs) i j
  /\ exists a b c e, nth_error (spec_segs qs true) i = Some (a, b) /\ nth_error (spec_segs qs true) j = Some (c, e)
     /\ cross_in eps a b c e x.

(** Two points differ by at least [d] in a coordinate. *)
Definition differ_by (d : R) (x y : vec2 R) : Prop := d <= Rabs (vx x - vx y) \/ d <= Rabs (vy x - vy y).

(** No corner is flat; of two sides without a common corner one is beside the other, or they cross, which at least two
    do; the points where sides cross differ clearly from the corners and from each other. *)
Definition crossing_polygon (eps join : R) (qs : list (vec2 R)) : Prop :=
  let segs := spec_segs qs true in
  let n := length qs in
  (3 <= n)%nat
  /\ (forall i a b c, nth_error segs i = Some (a, b) -> nth_error segs ((i + 1) mod n) = Some (b, c) -> eps <= Rabs (cross (vec a b) (vec b c)))
  /\ (forall i j a b c e, nth_error segs i = Some (a, b) -> nth_error segs j = Some (c, e) -> no_neighbours n i j ->
        beside eps a b c e \/ beside eps c e a b \/ exists x, cross_in eps a b c e x)
  /\ (forall i j x q, sides_cross eps qs i j x -> In q qs -> differ_by eps q x)
  /\ (forall i j x i' j' x', sides_cross eps qs i j x -> sides_cross eps qs i' j' x' ->
        (i = i' /\ j = j') \/ (i = j' /\ j = i') \/ (differ_by eps x x' /\ exists d, 2 * join < d /\ differ_by d x x'))
  /\ exists i j x, sides_cross eps qs i j x.

(** The middle of [x] and [y]. *)
Definition middle (x y : vec2 R) : vec2 R := line_pt x y (1 / 2).

(** Going along a side from where it crosses another one to where it crosses the next one, or to its end, the middle is
    at least [e] inside the polygon [ps], or clearly nearer to it than [e]. *)
Definition clearly_kept (s e eps dist_eps : R) (ps qs : list (vec2 R)) : Prop :=
  forall k j x a b y, sides_cross eps qs k j x -> nth_error (spec_segs qs true) k = Some (a, b) ->
    y = b \/ (exists j', sides_cross eps qs k j' y) -> x <> y ->
    within_by s e ps (middle x y)
    \/ exists q, on_path (polygon ps) q /\ (dist (middle x y) q + 3 * eps) * (dist (middle x y) q + 3 * eps) + 1 / 50000000 <= (e - dist_eps) * (e - dist_eps).
