(** A raw offset of lines run in double precision (C48). *)
From Coq Require Import List PrimFloat.
From Verif Require Import Num FNum Res ModelMath ModelSeg ModelPline ModelOffset.
Import ListNotations.
Local Open Scope float_scope.

Lemma near_ex_run : create_raw_offset_polyline (PL [Vtx 0 0 0; Vtx 4 0 0; Vtx 8 0 0; Vtx 8 4 0; Vtx 8 2 0] false) 1 0x1p-17
  = Ret (PL [Vtx 0 1 0; Vtx 4 1 0; Vtx 7 1 0; Vtx 7 4 (-1); Vtx 9 4 0; Vtx 9 2 0] false).
Proof. vm_compute. reflexivity. Qed.
