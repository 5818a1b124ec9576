(** Boolean operations on concrete polylines (C30, C31, C32, C45). *)
From Coq Require Import ZArith Bool List Floats.
From Verif Require Import Num FNum Res ModelMath ModelSeg ModelPline ModelView ModelIndex ModelIntersects ModelBoolean.
From Verif Require Import SpecIndex ProofJoinF.
Import ListNotations.
Local Open Scope float_scope.
Set Warnings "-inexact-float".

Definition run_boolean (p q : pline float) (op : boolean_op) :=
  boolean_constructed (@list_index float _) p q op 1e-5.

(** The positions of the loops; all bulges must be zero. *)
Definition corners (r : boolean_result_pline float) : list (float * float) :=
  flat_map (fun v => if pbulge v =? 0 then [(px v, py v)] else []) (vtx (brp_pline r)).
Definition outcome (p q : pline float) (op : boolean_op) :=
  let! r := run_boolean p q op in Ret (map corners (br_pos r), map corners (br_neg r), br_info r).

Definition square (x y s : float) : pline float := PL [Vtx x y 0; Vtx (x + s) y 0; Vtx (x + s) (y + s) 0; Vtx x (y + s) 0] true.

(** Two squares that cross: the L shapes and the common square. *)
Lemma squares_cross :
  map (outcome (square 0 0 4) (square 2 2 4)) [BOr; BAnd; BNot; BXor]
  = [Ret ([[(2, 4); (0, 4); (0, 0); (4, 0); (4, 2); (6, 2); (6, 6); (2, 6)]], [], Intersected);
     Ret ([[(4, 2); (4, 4); (2, 4); (2, 2)]], [], Intersected);
     Ret ([[(4, 2); (4, 0); (0, 0); (0, 4); (2, 4); (2, 2)]], [], Intersected);
     Ret ([[(4, 2); (4, 0); (0, 0); (0, 4); (2, 4); (2, 2)]; [(2, 4); (4, 4); (4, 2); (6, 2); (6, 6); (2, 6)]], [], Intersected)].
Proof. vm_compute. reflexivity. Qed.

(** A cup under a lid: the union has a hole, the intersection two parts. *)
Definition cup : pline float := PL [Vtx 0 0 0; Vtx 6 0 0; Vtx 6 4 0; Vtx 4 4 0; Vtx 4 2 0; Vtx 2 2 0; Vtx 2 4 0; Vtx 0 4 0] true.
Definition lid : pline float := PL [Vtx (-1) 3 0; Vtx 7 3 0; Vtx 7 5 0; Vtx (-1) 5 0] true.
Lemma cup_and_lid :
  map (outcome cup lid) [BOr; BAnd]
  = [Ret ([[(0, 3); (0, 0); (6, 0); (6, 3); (7, 3); (7, 5); (-1, 5); (-1, 3)]], [[(4, 3); (4, 2); (2, 2); (2, 3)]], Intersected);
     Ret ([[(6, 3); (6, 4); (4, 4); (4, 3)]; [(2, 3); (2, 4); (0, 4); (0, 3)]], [], Intersected)].
Proof. vm_compute. reflexivity. Qed.

(** One square within another, apart from it, and the same. *)
Lemma squares_whole :
  map (outcome (square 0 0 4) (square 1 1 2)) [BOr; BAnd; BNot; BXor]
  = [Ret ([[(0, 0); (4, 0); (4, 4); (0, 4)]], [], Pline2InsidePline1);
     Ret ([[(1, 1); (3, 1); (3, 3); (1, 3)]], [], Pline2InsidePline1);
     Ret ([[(0, 0); (4, 0); (4, 4); (0, 4)]], [[(1, 1); (3, 1); (3, 3); (1, 3)]], Pline2InsidePline1);
     Ret ([[(0, 0); (4, 0); (4, 4); (0, 4)]], [[(1, 1); (3, 1); (3, 3); (1, 3)]], Pline2InsidePline1)]
  /\ map (outcome (square 0 0 4) (square 5 1 2)) [BOr; BAnd; BNot; BXor]
  = [Ret ([[(0, 0); (4, 0); (4, 4); (0, 4)]; [(5, 1); (7, 1); (7, 3); (5, 3)]], [], Disjoint);
     Ret ([], [], Disjoint);
     Ret ([[(0, 0); (4, 0); (4, 4); (0, 4)]], [], Disjoint);
     Ret ([[(0, 0); (4, 0); (4, 4); (0, 4)]; [(5, 1); (7, 1); (7, 3); (5, 3)]], [], Disjoint)]
  /\ map (outcome (square 0 0 4) (square 0 0 4)) [BOr; BAnd; BNot; BXor]
  = [Ret ([[(0, 0); (4, 0); (4, 4); (0, 4)]], [], Overlapping);
     Ret ([[(0, 0); (4, 0); (4, 4); (0, 4)]], [], Overlapping);
     Ret ([], [], Overlapping); Ret ([], [], Overlapping)].
Proof. vm_compute. repeat split; reflexivity. Qed.

(** The area of a union that is smaller than that of one operand. *)
Definition areas (p q : pline float) (op : boolean_op) :=
  let! r := run_boolean p q op in
  let! l := rmapM (fun r => area (brp_pline r)) (br_pos r) in
  Ret (l, br_neg r).
Lemma union_small : exists a b, area half_disc = Ret a /\ areas split_disc half_disc BOr = Ret ([b], []) /\ (b + 3 <? a) = true.
Proof. do 2 eexists. vm_compute. repeat split; reflexivity. Qed.

(** Two squares with a common edge part: the common region has no area, but there is a loop for it. *)
Lemma shared_edge : outcome (square 0 0 4) (square 4 1 2) BAnd = Ret ([[(4, 1); (4, 3)]], [], Intersected).
Proof. vm_compute. reflexivity. Qed.

(** A loop that touches itself at (0, 0). *)
Definition knot : pline float :=
  PL [Vtx 0 0 0; Vtx 4 0 0; Vtx 6 2 0; Vtx 6 4 0; Vtx 4 6 0; Vtx 0 4 0; Vtx 0 0 0; Vtx (-4) 0 0; Vtx (-4) (-4) 0] true.
Definition wide_knot : pline float :=
  PL [Vtx 0 0 0; Vtx 4 0 0; Vtx 6 2 0; Vtx 6 4 0; Vtx 4 6 0; Vtx 0 4 0; Vtx (-1) 2 0; Vtx 0 0 0; Vtx (-4) 0 0; Vtx (-4) (-4) 0] true.
Lemma knot_panics : map (run_boolean wide_knot knot) [BOr; BAnd; BNot; BXor]
  = [Panic IndexOutOfBounds; Panic IndexOutOfBounds; Panic IndexOutOfBounds; Panic IndexOutOfBounds].
Proof. vm_compute. reflexivity. Qed.
Lemma knot_overlap : exists s, join_run wide_knot knot = Ret [s] /\ vd_end_index_offset (os_view s) = 13%nat.
Proof. eexists. split; vm_compute; reflexivity. Qed.

(** The overlap of the two squares with a common edge part refers to vertexes. *)
Lemma shared_overlap : exists s, join_run (square 0 0 4) (square 4 1 2) = Ret [s] /\ vd_end_index_offset (os_view s) = 0%nat /\ os_opposing s = true.
Proof. eexists. split; vm_compute; [reflexivity|]. split; reflexivity. Qed.
