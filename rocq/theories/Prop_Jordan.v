(** C64, C67: loops that do not meet themselves. *)
From Coq Require Import Reals ZArith Bool List.
From Verif Require Import Num RNum Res ModelMath ModelSeg ModelPline.
From Verif Require Import Spec SpecGeom SpecBox SpecView SpecBoolean SpecJordan.
From Verif Require Import ProofJordan6 ProofConn3.
Import ListNotations.
Local Open Scope R_scope.

(** A loop (of lines and arcs) that passes no point twice goes around every point not on it either not at all or once
    in one and the same direction, and near every point of it there are points of both kinds. *)
Theorem C64_winding (p : pline R) : pline_ok p -> valid_loop p -> passes_once p ->
  exists o, (o = 1%Z \/ o = (-1)%Z) /\ (forall x w, ~ on_path p x -> winding_number p x = Ret w -> w = 0%Z \/ w = o)
  /\ forall q e, on_path p q -> 0 < e ->
     (exists x, ~ on_path p x /\ dist q x < e /\ winding_number p x = Ret 0%Z)
     /\ (exists x, ~ on_path p x /\ dist q x < e /\ winding_number p x = Ret o).
Proof. exact (loop_winding p). Qed.
Print Assumptions C64_winding.

(** A half disc is such a loop; it goes once around a point of it. *)
Example C64_example : pline_ok ex_half /\ valid_loop ex_half /\ passes_once ex_half
  /\ ~ on_path ex_half (V2 0 (-1 / 2)) /\ winding_number ex_half (V2 0 (-1 / 2)) = Ret 1%Z.
Proof. exact (conj ex_half_ok (conj ex_half_loop (conj ex_half_once (conj ex_half_off ex_half_inside)))). Qed.
Print Assumptions C64_example.

(** C67. Two points off such a loop can be joined by straight lines that do not meet it exactly if it goes around
    both of them or around neither. *)
Theorem C67_one_piece (p : pline R) x y : pline_ok p -> valid_loop p -> passes_once p -> ~ on_path p x -> ~ on_path p y ->
  (winding_number p x = winding_number p y <-> joined p x y).
Proof. exact (one_piece p x y). Qed.
Print Assumptions C67_one_piece.

(** Around the half disc there is a way from above to below it; there is none from a point of it to one beside it. *)
Example C67_example : pline_ok ex_half /\ valid_loop ex_half /\ passes_once ex_half
  /\ joined ex_half (V2 0 1) (V2 0 (-2)) /\ ~ joined ex_half (V2 0 (-1 / 2)) (V2 2 1).
Proof. exact (conj ex_half_ok (conj ex_half_loop (conj ex_half_once (conj ex_half_around ex_half_cut)))). Qed.
Print Assumptions C67_example.
