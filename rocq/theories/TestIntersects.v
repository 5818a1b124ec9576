(** Fidelity tests: the unit tests of /repo/cavalier_contours/src/polyline/internal/pline_intersects.rs (lines 754-1398)
    run on the model with binary64 numbers. *)
From Coq Require Import ZArith Bool List Floats.
From Verif Require Import Num Res ModelMath ModelIntr ModelSeg ModelPline ModelIndex ModelView ModelIntersects FNum TestUtil.
Import ListNotations.
Set Warnings "-inexact-float".
Local Open Scope float_scope.

Definition peq (a b : vec2 float) : bool := v2fuzzy_eq_eps a b 1e-8.
Definition collect (l : list (basic_intr float) * list (overlap_intr float)) (e : intr_event float)
  : (list (basic_intr float) * list (overlap_intr float)) * bool :=
  match e with EvBasic b => ((fst l ++ [b], snd l), false) | EvOverlap o => ((fst l, snd l ++ [o]), false) end.
Definition basic_same (a b : basic_intr float) : bool :=
  Nat.eqb (bi_index1 a) (bi_index1 b) && Nat.eqb (bi_index2 a) (bi_index2 b) && v2fuzzy_eq_eps (bi_point a) (bi_point b) 1e-5.
Definition overlap_same (a b : overlap_intr float) : bool :=
  Nat.eqb (oi_index1 a) (oi_index1 b) && Nat.eqb (oi_index2 a) (oi_index2 b)
  && peq (oi_point1 a) (oi_point1 b) && peq (oi_point2 a) (oi_point2 b).
Fixpoint all2 {A} (f : A -> A -> bool) (l m : list A) : bool :=
  match l, m with [], [] => true | a :: l', b :: m' => f a b && all2 f l' m' | _, _ => false end.
(** the same members in any order *)
Definition same_set {A} (f : A -> A -> bool) (l m : list A) : bool :=
  Nat.eqb (length l) (length m) && forallb (fun b => existsb (fun a => f a b) l) m.
Definition found (r : res (list (basic_intr float) * list (overlap_intr float))) (bs : list (basic_intr float))
    (os : list (overlap_intr float)) : bool :=
  is_ret_true (let! c := r in Ret (all2 basic_same (fst c) bs && same_set overlap_same (snd c) os)).

Definition local_self (p : pline float) := let! r := visit_local_self_intersects collect p 1e-5 ([], []) in Ret (fst r).
Definition global_self (p : pline float) :=
  let! boxes := create_approx_aabb_index p in
  let! r := visit_global_self_intersects collect p (list_index boxes) 1e-5 ([], []) in Ret (fst r).
Definition intersects (p q : pline float) :=
  let! boxes := create_approx_aabb_index p in find_intersects p q (list_index boxes) 1e-5.

Definition quarter : float := bulge_from_angle (npi / 2).
Definition circle := PL [Vtx 0 0 1; Vtx 2 0 1] true.
Definition folded := PL [Vtx 0 0 1; Vtx 2 0 (-1)] true.
Definition short_open := PL [Vtx 0 0 1; Vtx 2 0 1; Vtx 0 0 0] false.
Definition long_open := PL [Vtx 0 0 quarter; Vtx 1 (-1) quarter; Vtx 2 0 quarter; Vtx 1 1 quarter; Vtx 0 0 0] false.

Example local_self_cases :
  (found (local_self (PL [] false)) [] [] && found (local_self (PL [Vtx 0 0 1] false)) [] []
   && found (local_self circle) [] [] && found (local_self folded) [] [OI 0 1 (V2 0 0) (V2 2 0)]
   && found (local_self short_open) [BI 0 1 (V2 0 0)] [] && found (local_self long_open) [] []) = true.
Proof. vm_compute. reflexivity. Qed.

Definition as_lines (p : pline float) : res (pline float) := let! o := arcs_to_approx_lines p 1e-2 in unwrap o.
Example global_self_cases :
  (found (global_self circle) [] [] && found (let! l := as_lines circle in global_self l) [] []
   && found (global_self folded) [] [] && found (global_self short_open) [] []
   && is_ret_true (let! l := as_lines short_open in
        Ret (Nat.ltb 20 (length (vtx l)) && found (global_self l) [BI 0 (length (vtx l) - 2) (V2 0 0)] []))
   && found (global_self long_open) [BI 0 3 (V2 0 0)] []) = true.
Proof. vm_compute. reflexivity. Qed.

Definition unit_pair (b : float) := PL [Vtx 0 0 b; Vtx 1 0 b] true.
Example find_intersects_cases :
  (found (intersects (PL [Vtx 0 0 0; Vtx 1 1 0] false) (PL [Vtx (-1) (-1) 0; Vtx 0 0 0] false)) [BI 0 0 (V2 0 0)] []
   && found (intersects (PL [Vtx (-1) (-1) 0; Vtx 0 0 0] false) (PL [Vtx 0 0 0; Vtx 1 1 0] false)) [BI 0 0 (V2 0 0)] []
   && found (intersects (PL [Vtx 0 0 0; Vtx 1 1 0] false) (PL [Vtx 0 0 0; Vtx (-1) (-1) 0] false)) [BI 0 0 (V2 0 0)] []
   && found (intersects (unit_pair 1) (PL [Vtx 1 0 1; Vtx 2 0 1] true)) [BI 1 0 (V2 1 0)] []
   && found (intersects (unit_pair 1) (unit_pair 1)) [] [OI 0 0 (V2 0 0) (V2 1 0); OI 1 1 (V2 1 0) (V2 0 0)]
   && found (intersects (unit_pair 1) (unit_pair (-1))) [] [OI 1 0 (V2 0 0) (V2 1 0); OI 0 1 (V2 1 0) (V2 0 0)]
   && found (intersects (unit_pair (-1)) (unit_pair 1)) [] [OI 1 0 (V2 0 0) (V2 1 0); OI 0 1 (V2 1 0) (V2 0 0)]
   && is_ret_true (let! c := intersects (PL [Vtx 0.5 0 0; Vtx 0.5 (1 - 0.99 * 1e-5) 0] false) (PL [Vtx 0 1 0; Vtx 1 1 0] false) in
        Ret (match c with ([b], []) => peq (bi_point b) (V2 0.5 1) | _ => false end))) = true.
Proof. vm_compute. reflexivity. Qed.

Definition joined (p q : pline float) (start_is end_is : nat * nat) (opposing : bool) (expected : list (vertex float)) : bool :=
  is_ret_true (let! c := intersects p q in
    let! ss := sort_and_join_overlapping_intersects (snd c) p q 1e-5 in
    match ss with
    | [s] =>
      let! w := view_pline (os_view s) q in
      Ret (all2 (fun a b => vfuzzy_eq_eps a b 1e-8) (vtx w) expected && Bool.eqb (os_opposing s) opposing
           && Nat.eqb (fst (os_start_indexes s)) (fst start_is) && Nat.eqb (snd (os_start_indexes s)) (snd start_is)
           && Nat.eqb (fst (os_end_indexes s)) (fst end_is) && Nat.eqb (snd (os_end_indexes s)) (snd end_is))
    | _ => Ret false
    end).
Definition tenths : pline float :=
  let sub := (1 / 10) * (2 * npi) in let b := bulge_from_angle sub in
  PL (map (fun i => let a := i * sub in Vtx (ncos a) (nsin a) b) [0; 1; 2; 3; 4; 5; 6; 7; 8; 9]) true.
Definition half : pline float := PL [Vtx (-1) 0 1; Vtx 1 0 0] false.
Definition flat (v : vertex float) : vertex float := Vtx (px v) (py v) 0.

Example sort_and_join_cases :
  (joined (unit_pair 1) (unit_pair 1) (0, 0)%nat (0, 0)%nat false [Vtx 0 0 1; Vtx 1 0 1; Vtx 0 0 0]
   && joined (unit_pair 1) (PL [Vtx 1 0 1; Vtx 0 0 1] true) (1, 0)%nat (1, 0)%nat false [Vtx 1 0 1; Vtx 0 0 1; Vtx 1 0 0]
   && joined (unit_pair 1) (unit_pair (-1)) (1, 0)%nat (1, 0)%nat true [Vtx 0 0 (-1); Vtx 1 0 (-1); Vtx 0 0 0]
   && joined (unit_pair 1) (PL [Vtx 0.5 (-0.5) 1; Vtx 0.5 0.5 1] true) (0, 0)%nat (0, 0)%nat false
        [Vtx 0.5 (-0.5) 1; Vtx 0.5 0.5 1; Vtx 0.5 (-0.5) 0]
   && joined tenths half (5, 0)%nat (9, 0)%nat false (vtx half)
   && joined half tenths (0, 5)%nat (0, 9)%nat false (skipn 5 (vtx tenths) ++ map flat (firstn 1 (vtx tenths)))) = true.
Proof. vm_compute. reflexivity. Qed.
