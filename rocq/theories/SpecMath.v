(** Vectors by length and direction (C56). *)
From Coq Require Import Reals.
From Verif Require Import ModelMath.
Local Open Scope R_scope.

(** The vector of length [r] in direction [s]. *)
Definition polar (r s : R) : vec2 R := V2 (r * cos s) (r * sin s).
