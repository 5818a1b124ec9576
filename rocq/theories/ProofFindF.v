(** Runs of the intersection searches in double precision (C24, C25). *)
From Coq Require Import List Bool PrimFloat.
From Verif Require Import Num FNum Res ModelMath ModelSeg ModelPline ModelIndex ModelIntersects.
Import ListNotations.
Set Warnings "-inexact-float".
Local Open Scope float_scope.

(** The index with its items and hits reversed. *)
Definition rev_index (boxes : list (aabb float)) : sindex float :=
  let ix := list_index boxes in IX (ix_boxes ix) (rev (ix_order ix)) (fun q => rev (ix_query ix q)).

Definition index_with (mk : list (aabb float) -> sindex float) (p : pline float) : sindex float :=
  match create_approx_aabb_index p with Ret b => mk b | _ => mk [] end.

(** A bow tie with a spike: the tie crosses itself at (2, 2), the spike lies on its own segment. *)
Definition bow_tie : pline float :=
  PL [Vtx 0 0 0; Vtx 4 4 0; Vtx 4 0 0; Vtx 0 4 0; Vtx (-2) 4 0; Vtx 0 4 0] true.

Definition collect (n : nat) (s : list (nat * nat)) (e : intr_event float) : list (nat * nat) * bool :=
  let s := s ++ [match e with EvBasic b => (bi_index1 b, bi_index2 b) | EvOverlap o => (oi_index1 o, oi_index2 o) end] in
  (s, Nat.leb n (length s)).

Definition visit_run mk inc n := visit_self_intersects (collect n) bow_tie (index_with mk bow_tie) inc 1e-5 [].

Lemma bow_tie_runs :
  visit_run (@list_index float _) IncludeLocal 10 = Ret ([(3, 4)]%nat, false)
  /\ visit_run (@list_index float _) IncludeAll 10 = Ret ([(3, 4); (0, 2); (2, 5); (3, 5)]%nat, false)
  /\ visit_run rev_index IncludeAll 10 = Ret ([(3, 4); (5, 3); (5, 2); (2, 0)]%nat, false)
  /\ visit_run (@list_index float _) IncludeAll 2 = Ret ([(3, 4); (0, 2)]%nat, true).
Proof. vm_compute. repeat split; reflexivity. Qed.

(** A square and a path that runs along a part of its bottom side and then through it. *)
Definition square4 : pline float := PL [Vtx 0 0 0; Vtx 4 0 0; Vtx 4 4 0; Vtx 0 4 0] true.
Definition along : pline float := PL [Vtx 1 0 0; Vtx 3 0 0; Vtx 3 6 0] false.

Definition find_run (p q : pline float) :=
  let! r := find_intersects p q (index_with (@list_index float _) p) 1e-5 in
  Ret (map (fun b => (bi_index1 b, bi_index2 b)) (fst r), map (fun o => (oi_index1 o, oi_index2 o)) (snd r)).

Lemma along_run : find_run square4 along = Ret ([(2, 1)]%nat, [(0, 0)]%nat).
Proof. vm_compute. reflexivity. Qed.
