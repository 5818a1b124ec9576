(** Cases of C56 in double precision. *)
From Coq Require Import Reals Lra PrimFloat Bool.
From Verif Require Import Num RNum FNum ModelMath SpecGeom SpecIntr SpecOffset.
Local Open Scope R_scope.

Lemma both_zero : exists a b c s : PrimFloat.float, ((s * s =? b * b - 4 * a * c) && (0 <? a))%float%bool = true
  /\ (let (x1, x2) := quadratic_solutions a b c s in (a * x1 * x1 + b * x1 + c =? 0) && negb (x2 =? x2))%float%bool = true.
Proof. exists 1%float, 0%float, 0%float, 0%float. vm_compute. split; reflexivity. Qed.

Lemma math_example : (quadratic_solutions 1 (-3) 2 1 = (2, 1) /\ is_left (V2 0 0) (V2 0 5) (V2 1 3) = false
  /\ is_right_or_coincident (V2 0 0) (V2 0 5) (V2 1 3) = true)%float
  /\ left_normal (V2 0 0) (V2 0 5) (V2 (-1) 0).
Proof. split; [vm_compute; auto|]. unfold left_normal, cross, vec. cbn [vx vy]. lra. Qed.
