(** Comparison of results in the fidelity tests, after
    /repo/cavalier_contours/tests/test_utils/pline_test_properties.rs and pline_modifiers.rs. *)
From Coq Require Import ZArith Bool List Floats Arith.
From Verif Require Import Num Res ModelMath ModelSeg ModelPline ModelRedundant ModelView ModelIndex ModelIntersects
  ModelBoolean ModelOffset ModelShape FNum.
Import ListNotations.
Set Warnings "-inexact-float".
Local Open Scope float_scope.

Inductive props := Props (vc : nat) (a l minx miny maxx maxy : float).

Definition fabs_lt (a b eps : float) : bool := PrimFloat.ltb (PrimFloat.abs (a - b)) eps.

Definition props_of (p : pline float) (invert : bool) : res props :=
  let! rr := remove_redundant p 1e-4 in
  let q := match rr with Some r => r | None => p end in
  let! a := area q in
  let! l := path_length q in
  let! eo := extents q in
  let! e := unwrap eo in
  Ret (Props (vertex_count q) (if invert then - a else a) l (bmin_x e) (bmin_y e) (bmax_x e) (bmax_y e)).

Definition props_eqb (abs_area : bool) (p q : props) : bool :=
  let '(Props n a l x y z w) := p in
  let '(Props n' a' l' x' y' z' w') := q in
  Nat.eqb n n' && (if abs_area then fabs_lt (PrimFloat.abs a) (PrimFloat.abs a') 1e-4
                   else fabs_lt a a' 1e-4)
  && fabs_lt l l' 1e-4 && fabs_lt x x' 1e-4 && fabs_lt y y' 1e-4 && fabs_lt z z' 1e-4
  && fabs_lt w w' 1e-4.

Definition sets_match (abs_area : bool) (result expected : list props) : bool :=
  Nat.eqb (length result) (length expected)
  && forallb (fun e => Nat.eqb (length (filter (props_eqb abs_area e) result)) 1) expected.

Definition is_ret_true (r : res bool) : bool := match r with Ret b => b | Panic _ => false end.

Definition no_repeats (p : pline float) : res bool :=
  let! r := remove_repeat_pos p 1e-5 in Ret (match r with None => true | Some _ => false end).

Definition all_ok {A} (f : A -> res bool) (l : list A) : res bool :=
  let! bs := rmapM f l in Ret (forallb id bs).

Definition opts (h : bool) : offset_options float := OO 1e-5 1e-4 1e-4 h.

Definition offset_once (p : pline float) (off : float) (inv h : bool) (expected : list props) : bool :=
  is_ret_true (
    let! r := parallel_offset_constructed list_index p (if inv then - off else off) (opts h) in
    let! nr := all_ok no_repeats r in
    let! ps := rmapM (fun q => props_of q inv) r in
    Ret (nr && sets_match false ps expected)).

Definition cycled (p : pline float) (n : nat) : pline float :=
  PL (skipn n (vtx p) ++ firstn n (vtx p)) (is_closed p).

Definition inverted (p : pline float) : pline float :=
  match invert_direction_mut p with Ret q => q | Panic _ => p end.

(** The input and its reversal with another start vertex (for a closed polyline). The tests were
    also run once with every rotation and direction. *)
Definition variants (p : pline float) : list (pline float * bool) :=
  [(p, false); (inverted (if is_closed p then cycled p 1 else p), true)].

Definition offset_test (p : pline float) (off : float) (h : bool) (expected : list props) : bool :=
  forallb (fun v => offset_once (fst v) off (snd v) h expected
                    && (negb (is_closed p) || offset_once (fst v) off (snd v) true expected))
          (variants p).

Definition shape_test (l : list (pline float)) (off : float) (expected : list props) : bool :=
  is_ret_true (
    let! s := shape_from_plines list_index l in
    let! r := shape_parallel_offset list_index s off (SO 1e-5 1e-4 1e-4) in
    let! ps := rmapM (fun ip => props_of (ip_pline ip) false) (sh_ccw r ++ sh_cw r) in
    Ret (sets_match false ps expected)).

Definition boolean_once (p q : pline float) (op : boolean_op) (pos neg : list props) : bool :=
  is_ret_true (
    let! r := boolean_constructed list_index p q op 1e-5 in
    let! nr := all_ok (fun b => no_repeats (brp_pline b)) (br_pos r ++ br_neg r) in
    let! ps := rmapM (fun b => props_of (brp_pline b) false) (br_pos r) in
    let! ns := rmapM (fun b => props_of (brp_pline b) false) (br_neg r) in
    Ret (nr && sets_match true ps pos && sets_match true ns neg)).

Definition boolean_test (p q : pline float) (op : boolean_op) (pos neg : list props) : bool :=
  forallb (fun v => forallb (fun w => boolean_once (fst v) (fst w) op pos neg) (variants q))
          (variants p).

Definition info_is (i : boolean_result_info) (p q : pline float) (op : boolean_op) (npos nneg : nat)
  : bool :=
  is_ret_true (
    let! r := boolean_constructed list_index p q op 1e-5 in
    Ret (match br_info r, i with
         | InvalidInput, InvalidInput | Pline1InsidePline2, Pline1InsidePline2
         | Pline2InsidePline1, Pline2InsidePline1 | Disjoint, Disjoint
         | Overlapping, Overlapping | Intersected, Intersected => true
         | _, _ => false
         end && Nat.eqb (length (br_pos r)) npos && Nat.eqb (length (br_neg r)) nneg)).

Definition same_test (p : pline float) : bool :=
  forallb (fun v => forallb (fun w =>
      let a := fst v in
      let b := fst w in
      info_is Overlapping a b BOr 1 0 && info_is Overlapping a b BAnd 1 0
      && info_is Overlapping a b BNot 0 0 && info_is Overlapping a b BXor 0 0
      && is_ret_true (
        let! eo := extents a in
        let! e := unwrap eo in
        let! d := translate_mut a (1 + bmax_x e - bmin_x e) 0 in
        Ret (info_is Disjoint d b BOr 2 0 && info_is Disjoint d b BAnd 0 0
             && info_is Disjoint d b BNot 1 0 && info_is Disjoint d b BXor 2 0))
      && is_ret_true (
        let! ar := area a in
        let! r := parallel_offset_constructed list_index a
                    (if PrimFloat.ltb ar 0 then (-0.2) else 0.2) (opts false) in
        let! i := index r 0 in
        Ret (info_is Pline2InsidePline1 b i BOr 1 0 && info_is Pline2InsidePline1 b i BAnd 1 0
             && info_is Pline2InsidePline1 b i BNot 1 1 && info_is Pline1InsidePline2 i b BNot 0 0
             && info_is Pline2InsidePline1 b i BXor 1 1)))
    (variants p)) (variants p).
