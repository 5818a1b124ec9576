(** Arc flattening in double precision: error distances without an answer (C17). *)
From Coq Require Import PrimFloat List.
From Verif Require Import Num FNum Res ModelMath ModelSeg ModelPline.
Import ListNotations.
Local Open Scope float_scope.

Lemma flat_fails : exists p : pline float,
  arcs_to_approx_lines p 0 = Ret None /\ arcs_to_approx_lines p (-3) = Ret None
  /\ exists q, arcs_to_approx_lines p (-1) = Ret (Some q).
Proof.
  exists (PL [Vtx (-1) 0 1; Vtx 1 0 1] true). split; [vm_compute; reflexivity|]. split; [vm_compute; reflexivity|].
  eexists. vm_compute. reflexivity.
Qed.
