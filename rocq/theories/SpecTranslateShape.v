(** Moving a shape by a vector. *)
From Coq Require Import Reals List.
From Verif Require Import Num Res ModelMath ModelSeg ModelPline ModelIndex ModelShape SpecTranslate.
Import ListNotations.
Local Open Scope R_scope.

Definition moved_loop (x y : R) (a a' : indexed_pline R) : Prop :=
  ip_pline a' = moved x y (ip_pline a) /\ moved_index x y (ip_index a) (ip_index a').
(** the same loops in the same order, moved, with indexes over the moved boxes *)
Definition moved_shape (x y : R) (s s' : shape R) : Prop :=
  Forall2 (moved_loop x y) (sh_ccw s) (sh_ccw s') /\ Forall2 (moved_loop x y) (sh_cw s) (sh_cw s')
  /\ moved_index x y (sh_index s) (sh_index s').
(** both give a shape, the one moved from the other, or both panic in the same way *)
Definition moved_outcome (x y : R) (r r' : res (shape R)) : Prop :=
  match r, r' with Ret s, Ret s' => moved_shape x y s s' | Panic k, Panic k' => k = k' | _, _ => False end.
(** the counterclockwise and the clockwise polylines of a shape *)
Definition loops_of (s : shape R) : list (pline R) * list (pline R) := (map ip_pline (sh_ccw s), map ip_pline (sh_cw s)).
