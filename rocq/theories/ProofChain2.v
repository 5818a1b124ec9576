(** Slices joined by stitching are near each other; an example (C35). *)
From Coq Require Import List Bool Arith Reals Lra PrimFloat.
From Verif Require Import Num RNum FNum Res ModelMath ModelSeg ModelPline ModelView ModelIndex ModelOffset SpecChain ProofR ProofIntr TestUtil ProofOffset3F.
Import ListNotations.
Set Warnings "-inexact-float".

Lemma reaches_dist (eps : R) (q r : vec2 R) : reaches eps q r = true <->
  (Rabs (vx q - vx r) <= 2 * eps /\ Rabs (vy q - vy r) <= 2 * eps)%R.
Proof.
  unfold reaches. rewrite !andb_true_iff, !negb_true_iff. rnum. rewrite !rltb_false.
  split.
  - intros [[[A B] C] D]. split; apply Rabs_le; lra.
  - intros [A B].
    assert (A' := Rle_abs (vx q - vx r)). assert (A2 := Rle_abs (- (vx q - vx r))). rewrite Rabs_Ropp in A2.
    assert (B' := Rle_abs (vy q - vy r)). assert (B2 := Rle_abs (- (vy q - vy r))). rewrite Rabs_Ropp in B2.
    repeat split; lra.
Qed.

Section Example.
Local Open Scope float_scope.

(** Two slices of a square path that meet at (4, 2) and at the start, and a third elsewhere; the third
    meets its own start only. *)
Definition chain_raw : pline float := PL [Vtx 0 0 0; Vtx 4 0 0; Vtx 4 4 0; Vtx 0 4 0; Vtx 0 0 0] false.
Definition chain_slices : list (view_data float) :=
  [VD 0%nat 1%nat (Vtx 0 0 0) 0 (V2 4 2) false; VD 1%nat 3%nat (Vtx 4 2 0) 0 (V2 0 0) false;
   VD 2%nat 0%nat (Vtx 3 4 0) 0 (V2 1 4) false].
Definition chain_opts : offset_options float := OO 1e-5 1e-4 1e-4 false.

Lemma chain_run : 
  stitch_slices_together (@list_index float _) chain_raw chain_slices true 4 chain_opts
  = Ret [PL [Vtx 0 0 0; Vtx 4 0 0; Vtx 4 2 0; Vtx 4 4 0; Vtx 0 4 0] true; PL [Vtx 3 4 0; Vtx 1 4 0] false].
Proof. vm_compute. reflexivity. Qed.

(** The dumbbell gives both of its rooms, each with the door rounded off. *)
Lemma dumbbell_rooms : (let! rs := parallel_offset (@list_index float _) dumbbell dumbbell_index 1.5 dumbbell_opts in
   Ret (map (fun r => (vertex_count r, is_closed r)) rs)) = Ret [(7%nat, true); (7%nat, true)].
Proof. vm_compute. reflexivity. Qed.
End Example.
