(** Loops that do not meet themselves (C64). *)
From Coq Require Import Reals List ZArith.
From Verif Require Import Num RNum Res ModelMath ModelSeg ModelPline Spec SpecGeom SpecBox SpecView.
Local Open Scope R_scope.

(** No point of the path is passed twice: two places on it are the same place if they are at the same point (the end
    of a segment being the beginning of the next). *)
Definition passes_once (p : pline R) : Prop :=
  forall i j t u q, point_at p i t q -> point_at p j u q -> t < 1 -> u < 1 -> i = j /\ t = u.

(** From one point to the other along straight lines that do not meet the path. *)
Inductive joined (p : pline R) : vec2 R -> vec2 R -> Prop :=
| joined_here x : joined p x x
| joined_line x y z : joined p x y -> (forall t, 0 <= t <= 1 -> ~ on_path p (line_pt y z t)) -> joined p x z.
