(** Fidelity tests: /repo/cavalier_contours_ffi/tests/test_pline.rs run on the model with binary64 numbers.
    Addresses are counted from 0 in the order of allocation. *)
From Coq Require Import ZArith Bool List Floats.
From Verif Require Import Num Res ModelMath ModelSeg ModelPline ModelIndex ModelBoolean ModelOffset ModelFfi FNum
  ProofFfiEx.
Import ListNotations.
Set Warnings "-inexact-float".
Local Open Scope float_scope.

Definition close (a b : float) : bool := PrimFloat.ltb (PrimFloat.abs (a - b)) 1e-8.
Definition close_v (a b : vertex float) : bool :=
  close (px a) (px b) && close (py a) (py b) && close (pbulge a) (pbulge b).
Fixpoint close_vs (a b : list (vertex float)) : bool :=
  match a, b with
  | [], [] => true
  | x :: s, y :: t => close_v x y && close_vs s t
  | _, _ => false
  end.

Definition out_eqb (a b : output float) : bool :=
  match a, b with
  | WNothing, WNothing => true
  | WPtr x, WPtr y => Nat.eqb x y
  | WPtrs x y, WPtrs z w => Nat.eqb x z && Nat.eqb y w
  | WU32 x, WU32 y => N.eqb x y
  | WI32 x, WI32 y => Z.eqb x y
  | WF64 x, WF64 y => close x y
  | WVertex v, WVertex w => close_v v w
  | WVertexes v, WVertexes w => close_vs v w
  | WBox (Some b), WBox (Some c) =>
      close (bmin_x b) (bmin_x c) && close (bmin_y b) (bmin_y c) && close (bmax_x b) (bmax_x c) && close (bmax_y b) (bmax_y c)
  | WBox None, WBox None => true
  | _, _ => false
  end.

Fixpoint check (m : mem float) (cs : list (call float * Z * output float)) : bool :=
  match cs with
  | [] => true
  | (c, code, w) :: t =>
      match run_call list_index m c with
      | Done code1 w1 m1 => Z.eqb code code1 && out_eqb w w1 && check m1 t
      | _ => false
      end
  end.

Definition p0 : ptr := Some 0%nat.
Definition vs (l : list (vertex float)) : option (list (vertex float)) := Some l.
Definition create_circle := (CCreate (vs [Vtx 0 0 1; Vtx 2 0 1]) 2%N 1%N, 0%Z, WPtr (T := float) 0).

Example pline_data_manipulation : check [] [
  (CCreate (vs []) 0%N 1%N, 0%Z, WPtr 0);
  (CReserve p0 5%N, 0%Z, WNothing); (CReserve None 5%N, 1%Z, WNothing);
  (CGetClosed p0, 0%Z, WU32 1%N); (CSetClosed p0 0%N, 0%Z, WNothing); (CGetClosed p0, 0%Z, WU32 0%N);
  (CSetData p0 (vs [Vtx (-1) (-2) 0; Vtx (-3) (-4) (-1)]) 2%N, 0%Z, WNothing);
  (CGetData p0 (Some 2%nat), 0%Z, WVertexes [Vtx (-1) (-2) 0; Vtx (-3) (-4) (-1)]);
  (CClone p0, 0%Z, WPtr 1); (CGetVertex (Some 1%nat) 1%N, 0%Z, WVertex (Vtx (-3) (-4) (-1)));
  (CClone None, 1%Z, WNothing); (CPlineFree (Some 1%nat), 0%Z, WNothing);
  (CClear p0, 0%Z, WNothing); (CGetCount p0, 0%Z, WU32 0%N);
  (CAdd None 0 0 0, 1%Z, WNothing); (CAdd p0 1 2 0, 0%Z, WNothing); (CAdd p0 3 4 1, 0%Z, WNothing);
  (CGetCount None, 1%Z, WNothing); (CGetCount p0, 0%Z, WU32 2%N);
  (CGetVertex None 0%N, 1%Z, WNothing); (CGetVertex p0 0%N, 0%Z, WVertex (Vtx 1 2 0));
  (CGetVertex p0 1%N, 0%Z, WVertex (Vtx 3 4 1)); (CGetVertex p0 3%N, 2%Z, WNothing);
  (CSetVertex p0 0%N (Vtx 8 8 0.55), 0%Z, WNothing); (CGetVertex p0 0%N, 0%Z, WVertex (Vtx 8 8 0.55));
  (CSetVertex p0 3%N (Vtx 0 0 0), 2%Z, WNothing); (CRemove p0 0%N, 0%Z, WNothing);
  (CGetCount p0, 0%Z, WU32 1%N); (CGetVertex p0 0%N, 0%Z, WVertex (Vtx 3 4 1)); (CPlineFree p0, 0%Z, WNothing)] = true.
Proof. vm_compute. reflexivity. Qed.

Example pline_eval_path_length : check [] [create_circle; (CPathLength p0, 0%Z, WF64 6.283185307179586);
  (CPathLength None, 1%Z, WNothing)] = true.
Proof. vm_compute. reflexivity. Qed.
Example pline_eval_area : check [] [create_circle; (CArea p0, 0%Z, WF64 3.141592653589793);
  (CArea None, 1%Z, WNothing)] = true.
Proof. vm_compute. reflexivity. Qed.
Example pline_eval_wn : check [] [create_circle; (CWinding p0 1 0, 0%Z, WI32 1%Z); (CWinding None 1 0, 1%Z, WNothing)] = true.
Proof. vm_compute. reflexivity. Qed.
Example pline_invert_direction : check [] [create_circle; (CInvert p0, 0%Z, WNothing); (CInvert None, 1%Z, WNothing);
  (CGetVertex p0 0%N, 0%Z, WVertex (Vtx 2 0 (-1))); (CGetVertex p0 1%N, 0%Z, WVertex (Vtx 0 0 (-1)))] = true.
Proof. vm_compute. reflexivity. Qed.
Example pline_scale : check [] [create_circle; (CScale p0 2, 0%Z, WNothing); (CScale None 2, 1%Z, WNothing);
  (CGetVertex p0 0%N, 0%Z, WVertex (Vtx 0 0 1)); (CGetVertex p0 1%N, 0%Z, WVertex (Vtx 4 0 1))] = true.
Proof. vm_compute. reflexivity. Qed.
Example pline_translate : check [] [create_circle; (CTranslate p0 1 1, 0%Z, WNothing); (CTranslate None 1 1, 1%Z, WNothing);
  (CGetVertex p0 0%N, 0%Z, WVertex (Vtx 1 1 1)); (CGetVertex p0 1%N, 0%Z, WVertex (Vtx 3 1 1))] = true.
Proof. vm_compute. reflexivity. Qed.
Example pline_remove_repeat_pos : check [] [create_circle; (CRemoveRepeat p0 1e-5, 0%Z, WNothing);
  (CRemoveRepeat None 1e-5, 1%Z, WNothing); (CGetVertex p0 0%N, 0%Z, WVertex (Vtx 0 0 1));
  (CGetVertex p0 1%N, 0%Z, WVertex (Vtx 2 0 1)); (CPlineFree p0, 0%Z, WNothing);
  (CCreate (vs [Vtx 0 0 1; Vtx 0 0 0.5; Vtx 2 0 1]) 3%N 1%N, 0%Z, WPtr 1);
  (CRemoveRepeat (Some 1%nat) 1e-5, 0%Z, WNothing); (CGetVertex (Some 1%nat) 0%N, 0%Z, WVertex (Vtx 0 0 0.5));
  (CGetVertex (Some 1%nat) 1%N, 0%Z, WVertex (Vtx 2 0 1))] = true.
Proof. vm_compute. reflexivity. Qed.
Example pline_remove_redundant :
  let b := 0.41421356237309503 in check [] [create_circle; (CRemoveRedundant p0 1e-5, 0%Z, WNothing);
  (CRemoveRedundant None 1e-5, 1%Z, WNothing); (CGetVertex p0 0%N, 0%Z, WVertex (Vtx 0 0 1));
  (CGetVertex p0 1%N, 0%Z, WVertex (Vtx 2 0 1)); (CPlineFree p0, 0%Z, WNothing);
  (CCreate (vs [Vtx 0 0 b; Vtx 1 (-1) b; Vtx 2 0 1]) 3%N 1%N, 0%Z, WPtr 1);
  (CRemoveRedundant (Some 1%nat) 1e-5, 0%Z, WNothing); (CGetVertex (Some 1%nat) 0%N, 0%Z, WVertex (Vtx 0 0 1));
  (CGetVertex (Some 1%nat) 1%N, 0%Z, WVertex (Vtx 2 0 1))] = true.
Proof. vm_compute. reflexivity. Qed.
Example pline_eval_extents : check [] [create_circle; (CExtents p0, 0%Z, WBox (Some (AABB 0 (-1) 2 1)));
  (CExtents None, 1%Z, WNothing)] = true.
Proof. vm_compute. reflexivity. Qed.

Example pline_eval_parallel_offset_null_options : check [] [create_circle;
  (COffset p0 (-1) None, 0%Z, WPtr 2); (COffset None (-1) None, 1%Z, WNothing);
  (CListCount (Some 2%nat), 0%Z, WU32 1%N); (CListGet (Some 2%nat) 0%N, 0%Z, WPtr 1);
  (CGetVertex (Some 1%nat) 0%N, 0%Z, WVertex (Vtx (-1) 0 1)); (CGetVertex (Some 1%nat) 1%N, 0%Z, WVertex (Vtx 3 0 1));
  (CListFree (Some 2%nat), 0%Z, WNothing); (CPlineFree p0, 0%Z, WNothing)] = true.
Proof. vm_compute. reflexivity. Qed.
Example pline_eval_parallel_offset_options :
  let o := Some (CO (Some 1%nat) 1e-5 1e-4 1e-4 0%N) in check [] [create_circle;
  (CApproxIndex p0, 0%Z, WPtr 1); (COffset p0 (-1) o, 0%Z, WPtr 3); (COffset None (-1) o, 1%Z, WNothing);
  (CListCount (Some 3%nat), 0%Z, WU32 1%N); (CListGet (Some 3%nat) 0%N, 0%Z, WPtr 2);
  (CGetVertex (Some 2%nat) 0%N, 0%Z, WVertex (Vtx (-1) 0 1)); (CGetVertex (Some 2%nat) 1%N, 0%Z, WVertex (Vtx 3 0 1));
  (CListFree (Some 3%nat), 0%Z, WNothing); (CIndexFree (Some 1%nat), 0%Z, WNothing); (CPlineFree p0, 0%Z, WNothing)] = true.
Proof. vm_compute. reflexivity. Qed.

Definition create_square :=
  (CCreate (vs [Vtx (-1) (-2) 0; Vtx 3 (-2) 0; Vtx 3 2 0; Vtx (-1) 2 0]) 4%N 1%N, 0%Z, WPtr (T := float) 0).
Definition create_inner := (CCreate (vs [Vtx 0 0 1; Vtx 2 0 1]) 2%N 1%N, 0%Z, WPtr (T := float) 1).
Definition p1 : ptr := Some 1%nat.

Example pline_eval_boolean_null_options : check [] [create_square; create_inner;
  (CBoolean p0 p1 2%N None, 0%Z, WPtrs 3 5); (CBoolean None None 2%N None, 1%Z, WNothing);
  (CBoolean p0 None 2%N None, 1%Z, WNothing); (CBoolean None p1 2%N None, 1%Z, WNothing);
  (CListCount (Some 3%nat), 0%Z, WU32 1%N); (CListCount (Some 5%nat), 0%Z, WU32 1%N);
  (CListGet (Some 3%nat) 0%N, 0%Z, WPtr 2); (CArea (Some 2%nat), 0%Z, WF64 16);
  (CListGet (Some 5%nat) 0%N, 0%Z, WPtr 4); (CArea (Some 4%nat), 0%Z, WF64 3.141592653589793);
  (CListTake None 0%N, 1%Z, WNothing); (CListTake (Some 5%nat) 1%N, 2%Z, WNothing);
  (CListTake (Some 5%nat) 0%N, 0%Z, WPtr 4); (CArea (Some 4%nat), 0%Z, WF64 3.141592653589793);
  (CListCount (Some 5%nat), 0%Z, WU32 0%N); (CPlineFree (Some 4%nat), 0%Z, WNothing);
  (CListPop None, 1%Z, WNothing); (CListPop (Some 3%nat), 0%Z, WPtr 2); (CArea (Some 2%nat), 0%Z, WF64 16);
  (CListCount (Some 3%nat), 0%Z, WU32 0%N); (CPlineFree (Some 2%nat), 0%Z, WNothing);
  (CListPop (Some 3%nat), 2%Z, WNothing); (CListFree (Some 3%nat), 0%Z, WNothing);
  (CListFree (Some 5%nat), 0%Z, WNothing); (CPlineFree p0, 0%Z, WNothing)] = true.
Proof. vm_compute. reflexivity. Qed.
Example pline_eval_boolean_options :
  let o := Some (CB (Some 2%nat) 1e-5) in check [] [create_square; create_inner;
  (CApproxIndex p0, 0%Z, WPtr 2); (CBoolean p0 p1 2%N o, 0%Z, WPtrs 4 6);
  (CListCount (Some 4%nat), 0%Z, WU32 1%N); (CListCount (Some 6%nat), 0%Z, WU32 1%N);
  (CListGet (Some 4%nat) 0%N, 0%Z, WPtr 3); (CArea (Some 3%nat), 0%Z, WF64 16);
  (CListGet (Some 6%nat) 0%N, 0%Z, WPtr 5); (CArea (Some 5%nat), 0%Z, WF64 3.141592653589793);
  (CListFree (Some 4%nat), 0%Z, WNothing); (CListFree (Some 6%nat), 0%Z, WNothing); (CPlineFree p0, 0%Z, WNothing)] = true.
Proof. vm_compute. reflexivity. Qed.
