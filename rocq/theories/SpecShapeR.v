(** Bounds of loops (C37). *)
From Coq Require Import Reals List.
From Verif Require Import ModelMath ModelSeg.
Local Open Scope R_scope.

(** [x] is inside [b]. *)
Definition covers (b x : aabb R) : Prop := bmin_x b <= bmin_x x /\ bmin_y b <= bmin_y x /\ bmax_x x <= bmax_x b /\ bmax_y x <= bmax_y b.

(** Each side of [b] is that of one of the boxes [l]. *)
Definition reached (b : aabb R) (l : list (aabb R)) : Prop :=
  (exists x, In x l /\ bmin_x x = bmin_x b) /\ (exists x, In x l /\ bmin_y x = bmin_y b)
  /\ (exists x, In x l /\ bmax_x x = bmax_x b) /\ (exists x, In x l /\ bmax_y x = bmax_y b).

