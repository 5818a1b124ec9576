(** Convex polygons (C69). *)
From Coq Require Import Reals List.
From Verif Require Import Num RNum Res ModelMath ModelSeg ModelPline.
From Verif Require Import Spec SpecGeom SpecIntr.
Import ListNotations.
Local Open Scope R_scope.

(** All corners are on one side of, or on, the line through every side: the left one if [s] is [1], the right one if
    it is [-1]. *)
Definition convex (s : R) (ps : list (vec2 R)) : Prop :=
  forall a b c, In (a, b) (spec_segs ps true) -> In c ps -> 0 <= s * cross (vec a b) (vec a c).

(** [q] is at least [e] to that side of the lines through all sides. *)
Definition within_by (s e : R) (ps : list (vec2 R)) (q : vec2 R) : Prop :=
  forall a b, In (a, b) (spec_segs ps true) -> e * dist a b <= s * cross (vec a b) (vec a q).
