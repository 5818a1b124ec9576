(** The demo scenes with floats (C61): the figure eight and a square, offset repeatedly. *)
From Coq Require Import List Bool Arith PrimFloat.
From Verif Require Import Num FNum Res ModelMath ModelSeg ModelPline ModelIndex ModelOffset ModelBoolean ModelShape ModelUi.
From Verif Require Import SpecUi ProofUi ProofShapeF.
Import ListNotations.
Local Open Scope float_scope.

Definition demo_square := polygon [(0, 0); (10, 0); (10, 10); (0, 10)].
Definition demo_eight := polygon [(0, 0); (10, 10); (10, 0); (0, 10)].

Lemma square_none : exists r s, build_offset shape_index demo_square 2 true 0 = Ret r /\ r <> []
  /\ build_offsets shape_index [demo_square] 2 0 = Ret (s, []).
Proof.
  destruct (build_offset shape_index demo_square 2 true 0) as [r|] eqn:E; [|vm_compute in E; discriminate].
  destruct (build_offsets shape_index [demo_square] 2 0) as [s|] eqn:E2; [|vm_compute in E2; discriminate].
  exists r, (fst s). split; [reflexivity|]. vm_compute in E. injection E as <-. split; [discriminate|].
  vm_compute in E2. injection E2 as <-. reflexivity.
Qed.

Lemma demo_runs :
  (let! r := build_offset shape_index demo_square 2 true 4 in Ret (map (fun q => (map (fun v => (px v, py v)) (vtx (fst q)), snd q)) r))
  = Ret [([(2, 2); (8, 2); (8, 8); (2, 8)], true); ([(4, 4); (6, 4); (6, 6); (4, 6)], true)]
  /\ (let! r := build_offset shape_index demo_eight 1 true 2 in Ret (map (fun q => (vertex_count (fst q), snd q)) r)) = Ret [(3%nat, true); (6%nat, false); (3%nat, true)]
  /\ (let! r := build_offsets shape_index [demo_square] 2 4 in
      Ret (map (fun s => map (fun ip => map (fun v => (px v, py v)) (vtx (ip_pline ip))) (sh_ccw s)) (snd r)))
     = Ret [[[(2, 2); (8, 2); (8, 8); (2, 8)]]; [[(4, 4); (6, 4); (6, 6); (4, 6)]]]
  /\ (let! r := build_boolean_result shape_index demo_square demo_square ModeXor in Ret (option_map (fun b => length (br_pos b)) r)) = Ret (Some 0%nat)
  /\ build_boolean_result shape_index demo_square (PL (vtx demo_square) false) ModeXor = Ret None.
Proof. repeat apply conj; vm_compute; reflexivity. Qed.
