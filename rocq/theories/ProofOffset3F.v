(** A raw offset with slices that are dropped and kept, run in double precision (C34). *)
From Coq Require Import List PrimFloat.
From Verif Require Import Num FNum Res ModelMath ModelSeg ModelPline ModelView ModelIndex ModelIntersects ModelOffset TestUtil.
Import ListNotations.
Set Warnings "-inexact-float".
Local Open Scope float_scope.

(** Two squares joined by a narrow corridor, offset inwards by more than half of its width. *)
Definition dumbbell : pline float :=
  PL [Vtx 0 0 0; Vtx 10 0 0; Vtx 10 4 0; Vtx 20 4 0; Vtx 20 0 0; Vtx 30 0 0; Vtx 30 10 0; Vtx 20 10 0; Vtx 20 6 0; Vtx 10 6 0; Vtx 10 10 0; Vtx 0 10 0] true.
Definition dumbbell_index : sindex float :=
  match create_approx_aabb_index dumbbell with Ret b => list_index b | _ => list_index [] end.
Definition dumbbell_opts : offset_options float := OO 1e-5 1e-4 1e-4 false.

Definition dumbbell_run : res (nat * nat) :=
  let! raw := create_raw_offset_polyline dumbbell 1.5 1e-5 in
  let! slices := slices_from_raw_offset (@list_index float _) dumbbell raw dumbbell_index 1.5 dumbbell_opts in
  Ret (vertex_count raw, length slices).

Lemma dumbbell_two_slices : dumbbell_run = Ret (16%nat, 2%nat).
Proof. vm_compute. reflexivity. Qed.
