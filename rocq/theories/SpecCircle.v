(** Circles drawn as two half circles (C59). *)
From Coq Require Import Reals List.
From Verif Require Import Num RNum ModelMath ModelSeg ModelPline SpecOffset SpecOffsetJoin.
Import ListNotations.
Local Open Scope R_scope.

(** The direction [u] has length one. *)
Definition unit_vec (u : vec2 R) : Prop := vx u * vx u + vy u * vy u = 1.

(** The circle about [c] with radius [r] that begins in direction [u], counterclockwise if [b] is one, clockwise
    if [b] is minus one. *)
Definition circle (c u : vec2 R) (r b : R) : pline R := PL [vertex_at (moved c u r) b; vertex_at (moved c u (- r)) b] true.
