(** Fidelity tests: the cases of /repo/cavalier_contours/tests/test_pline_basics.rs run on the model with
    binary64 numbers (the ones on repeat and redundant vertexes generated from that file). *)
From Coq Require Import ZArith Bool List Floats.
From Verif Require Import Num Res ModelMath ModelIntr ModelSeg ModelPline ModelRedundant ModelView FNum TestUtil.
Import ListNotations.
Set Warnings "-inexact-float".
Local Open Scope float_scope.

Definition PI : float := npi.
Definition tau : float := 2 * npi.
Definition FRAC_PI_2 : float := npi / 2.
Definition near (a b : float) : bool := fabs_lt a b 1e-8.
Definition is_near (r : res float) (b : float) : bool := is_ret_true (let! a := r in Ret (near a b)).
Definition same (p q : pline float) : bool := pline_fuzzy_eq_eps p q 1e-8.
Definition same_option (r : res (option (pline float))) (o : option (pline float)) : bool :=
  match r, o with
  | Ret (Some p), Some q => same p q
  | Ret None, None => true
  | _, _ => false
  end.

Example remove_repeat_1 : (same_option (remove_repeat_pos (PL ([]) true) 1e-5)
  (None)) = true.
Proof. vm_compute. reflexivity. Qed.

Example remove_repeat_2 : (same_option (remove_repeat_pos (PL ([Vtx 2.0 2.0 0.5]) true) 1e-5)
  (None)) = true.
Proof. vm_compute. reflexivity. Qed.

Example remove_repeat_3 : (same_option (remove_repeat_pos (PL ([Vtx 2.0 2.0 0.5;
    Vtx 2.0 2.0 1.0;
    Vtx 3.0 3.0 1.0;
    Vtx 3.0 3.0 0.5]) true) 1e-5)
  (Some (PL [Vtx 2.0 2.0 1.0;
    Vtx 3.0 3.0 0.5] true))) = true.
Proof. vm_compute. reflexivity. Qed.

Example remove_repeat_4 : (same_option (remove_repeat_pos (PL ([Vtx 2.0 2.0 0.5;
    Vtx 2.0 2.0 1.0;
    Vtx 3.0 3.0 1.0;
    Vtx 3.0 3.0 0.5]) false) 1e-5)
  (Some (PL [Vtx 2.0 2.0 1.0;
    Vtx 3.0 3.0 0.5] false))) = true.
Proof. vm_compute. reflexivity. Qed.

Example remove_repeat_5 : (same_option (remove_repeat_pos (PL ([Vtx 2.0 2.0 0.5;
    Vtx 3.0 3.0 1.0]) true) 1e-5)
  (None)) = true.
Proof. vm_compute. reflexivity. Qed.

Example remove_repeat_6 : (same_option (remove_repeat_pos (PL ([Vtx 2.0 2.0 0.5;
    Vtx 3.0 3.0 1.0;
    Vtx 4.0 3.0 1.0]) false) 1e-5)
  (None)) = true.
Proof. vm_compute. reflexivity. Qed.

Example remove_repeat_7 : (same_option (remove_repeat_pos (PL ([Vtx 2.0 2.0 0.5;
    Vtx 3.0 3.0 1.0;
    Vtx 2.0 2.0 1.0]) true) 1e-5)
  (Some (PL [Vtx 2.0 2.0 0.5;
    Vtx 3.0 3.0 1.0] true))) = true.
Proof. vm_compute. reflexivity. Qed.

Example remove_repeat_8 : (same_option (remove_repeat_pos (PL ([Vtx 2.0 2.0 0.5;
    Vtx 3.0 3.0 1.0;
    Vtx 2.0 2.0 1.0]) false) 1e-5)
  (None)) = true.
Proof. vm_compute. reflexivity. Qed.

Example remove_repeat_9 : (same_option (remove_repeat_pos (PL ([Vtx 149.75759744152376 2753.341034622115 0.0;
    Vtx 149.75761269666256 2753.341034955893 (-0.000000016806842584315973);
    Vtx 149.75760725254852 2753.341034836777 (-0.000000026349436410555433);
    Vtx 149.75759871737387 2753.3410346500286 (-0.0000000059965514775939255);
    Vtx 149.7576044186626 2753.341034774772 (-0.000000017257169693252198);
    Vtx 149.7576208261107 2753.3410351337648 (-0.00000001907759705765955);
    Vtx 149.75762700577317 2753.3410352689743 (-0.0024145466234173404);
    Vtx 176.35224446582103 2753.7944419559553 (-0.000000003667288472897212);
    Vtx 176.35224565393378 2753.7944419704727 0.0;
    Vtx 176.35227673059205 2753.794442350188 0.0;
    Vtx 176.35229710705553 2753.794442599162 0.0]) false) 1e-5)
  (Some (PL [Vtx 149.75759744152376 2753.341034622115 0.0;
    Vtx 149.75761269666256 2753.341034955893 (-0.000000026349436410555433);
    Vtx 149.75759871737387 2753.3410346500286 (-0.000000017257169693252198);
    Vtx 149.7576208261107 2753.3410351337648 (-0.0024145466234173404);
    Vtx 176.35224446582103 2753.7944419559553 0.0;
    Vtx 176.35227673059205 2753.794442350188 0.0;
    Vtx 176.35229710705553 2753.794442599162 0.0] false))) = true.
Proof. vm_compute. reflexivity. Qed.

Example remove_redundant_removes_repeat_pos_1 : (same_option (remove_redundant (PL ([]) true) 1e-5)
  (None)) = true.
Proof. vm_compute. reflexivity. Qed.

Example remove_redundant_removes_repeat_pos_2 : (same_option (remove_redundant (PL ([Vtx 2.0 2.0 0.5]) true) 1e-5)
  (None)) = true.
Proof. vm_compute. reflexivity. Qed.

Example remove_redundant_removes_repeat_pos_3 : (same_option (remove_repeat_pos (PL ([Vtx 2.0 2.0 0.5;
    Vtx 2.0 2.0 1.0;
    Vtx 3.0 3.0 1.0;
    Vtx 3.0 3.0 0.5]) true) 1e-5)
  (Some (PL [Vtx 2.0 2.0 1.0;
    Vtx 3.0 3.0 0.5] true))) = true.
Proof. vm_compute. reflexivity. Qed.

Example remove_redundant_removes_repeat_pos_4 : (same_option (remove_repeat_pos (PL ([Vtx 2.0 2.0 0.5;
    Vtx 2.0 2.0 1.0;
    Vtx 3.0 3.0 1.0;
    Vtx 3.0 3.0 0.5]) false) 1e-5)
  (Some (PL [Vtx 2.0 2.0 1.0;
    Vtx 3.0 3.0 0.5] false))) = true.
Proof. vm_compute. reflexivity. Qed.

Example remove_redundant_removes_repeat_pos_5 : (same_option (remove_redundant (PL ([Vtx 2.0 2.0 0.5;
    Vtx 3.0 3.0 1.0]) true) 1e-5)
  (None)) = true.
Proof. vm_compute. reflexivity. Qed.

Example remove_redundant_removes_repeat_pos_6 : (same_option (remove_redundant (PL ([Vtx 2.0 2.0 0.5;
    Vtx 3.0 3.0 1.0;
    Vtx 4.0 3.0 1.0]) false) 1e-5)
  (None)) = true.
Proof. vm_compute. reflexivity. Qed.

Example remove_redundant_removes_repeat_pos_7 : (same_option (remove_repeat_pos (PL ([Vtx 2.0 2.0 0.5;
    Vtx 3.0 3.0 1.0;
    Vtx 2.0 2.0 1.0]) true) 1e-5)
  (Some (PL [Vtx 2.0 2.0 0.5;
    Vtx 3.0 3.0 1.0] true))) = true.
Proof. vm_compute. reflexivity. Qed.

Example remove_redundant_removes_repeat_pos_8 : (same_option (remove_redundant (PL ([Vtx 2.0 2.0 0.5;
    Vtx 3.0 3.0 1.0;
    Vtx 2.0 2.0 1.0]) false) 1e-5)
  (None)) = true.
Proof. vm_compute. reflexivity. Qed.

Example remove_redundant_removes_repeat_pos_9 : (same_option (remove_repeat_pos (PL ([Vtx 149.75759744152376 2753.341034622115 0.0;
    Vtx 149.75761269666256 2753.341034955893 (-0.000000016806842584315973);
    Vtx 149.75760725254852 2753.341034836777 (-0.000000026349436410555433);
    Vtx 149.75759871737387 2753.3410346500286 (-0.0000000059965514775939255);
    Vtx 149.7576044186626 2753.341034774772 (-0.000000017257169693252198);
    Vtx 149.7576208261107 2753.3410351337648 (-0.00000001907759705765955);
    Vtx 149.75762700577317 2753.3410352689743 (-0.0024145466234173404);
    Vtx 176.35224446582103 2753.7944419559553 (-0.000000003667288472897212);
    Vtx 176.35224565393378 2753.7944419704727 0.0;
    Vtx 176.35227673059205 2753.794442350188 0.0;
    Vtx 176.35229710705553 2753.794442599162 0.0]) false) 1e-5)
  (Some (PL [Vtx 149.75759744152376 2753.341034622115 0.0;
    Vtx 149.75761269666256 2753.341034955893 (-0.000000026349436410555433);
    Vtx 149.75759871737387 2753.3410346500286 (-0.000000017257169693252198);
    Vtx 149.7576208261107 2753.3410351337648 (-0.0024145466234173404);
    Vtx 176.35224446582103 2753.7944419559553 0.0;
    Vtx 176.35227673059205 2753.794442350188 0.0;
    Vtx 176.35229710705553 2753.794442599162 0.0] false))) = true.
Proof. vm_compute. reflexivity. Qed.

Example remove_redundant_1 : (same_option (remove_redundant (PL ([Vtx 2.0 2.0 0.0;
    Vtx 3.0 3.0 0.0;
    Vtx 3.0 3.0 0.0;
    Vtx 4.0 4.0 0.0;
    Vtx 2.0 4.0 0.0]) true) 1e-5)
  (Some (PL [Vtx 2.0 2.0 0.0;
    Vtx 4.0 4.0 0.0;
    Vtx 2.0 4.0 0.0] true))) = true.
Proof. vm_compute. reflexivity. Qed.

Example remove_redundant_2 : (same_option (remove_redundant (PL ([Vtx 2.0 2.0 0.0;
    Vtx 3.0 3.0 0.0;
    Vtx 2.5 2.5 0.0;
    Vtx 4.0 4.0 0.0;
    Vtx 2.0 4.0 0.0]) true) 1e-5)
  (None)) = true.
Proof. vm_compute. reflexivity. Qed.

Example remove_redundant_3 : (let bulge := (ntan (FRAC_PI_2 / 4.0)) in same_option (remove_redundant (PL ([Vtx 0.0 0.0 (-bulge);
    Vtx 1.0 1.0 (-bulge);
    Vtx 2.0 0.0 (-1.0)]) true) 1e-5)
  (Some (PL [Vtx 0.0 0.0 (-1.0);
    Vtx 2.0 0.0 (-1.0)] true))) = true.
Proof. vm_compute. reflexivity. Qed.

Example remove_redundant_4 : (let radius := 5.0 in let max_angle := FRAC_PI_2 in let sub_angle := 1 / 4 * max_angle in let bulge := bulge_from_angle sub_angle in same_option (remove_redundant (PL (map (fun angle => Vtx (radius * ncos angle) (radius * nsin angle) bulge) [0 * sub_angle; 1 * sub_angle; 2 * sub_angle; 3 * sub_angle; 4 * sub_angle]) false) 1e-5)
  (Some (PL [Vtx radius 0.0 (bulge_from_angle max_angle);
    Vtx 0.0 radius bulge] false))) = true.
Proof. vm_compute. reflexivity. Qed.

Example remove_redundant_5 : (let radius := 5.0 in let max_angle := tau in let sub_angle := 1 / 10 * max_angle in let bulge := bulge_from_angle sub_angle in same_option (remove_redundant (PL (map (fun angle => Vtx (radius * ncos angle) (radius * nsin angle) bulge) [0 * sub_angle; 1 * sub_angle; 2 * sub_angle; 3 * sub_angle; 4 * sub_angle; 5 * sub_angle; 6 * sub_angle; 7 * sub_angle; 8 * sub_angle; 9 * sub_angle]) true) 1e-5)
  (Some (PL [Vtx radius 0.0 1.0;
    Vtx (-radius) 0.0 1.0] true))) = true.
Proof. vm_compute. reflexivity. Qed.

Example remove_redundant_6 : (let radius := 5.0 in let max_angle := tau in let sub_angle := 1 / 10 * max_angle in let bulge := bulge_from_angle sub_angle in same_option (remove_redundant (PL (map (fun angle => Vtx (radius * ncos angle) (radius * nsin angle) bulge) [0 * sub_angle; 1 * sub_angle; 2 * sub_angle; 3 * sub_angle; 4 * sub_angle; 5 * sub_angle; 6 * sub_angle; 7 * sub_angle; 8 * sub_angle; 9 * sub_angle; 10 * sub_angle]) false) 1e-5)
  (Some (PL [Vtx radius 0.0 1.0;
    Vtx (-radius) 0.0 1.0;
    Vtx radius 0.0 bulge] false))) = true.
Proof. vm_compute. reflexivity. Qed.

Example remove_redundant_7 : (let radius := 5.0 in same_option (remove_redundant (PL ([Vtx 0.0 (-radius) 1.0;
    Vtx 0.0 radius 1.0]) true) 1e-5)
  (None)) = true.
Proof. vm_compute. reflexivity. Qed.

Example remove_redundant_8 : (let radius := 5.0 in let bulge := (bulge_from_angle (-FRAC_PI_2)) in same_option (remove_redundant (PL ([Vtx 0.0 radius bulge;
    Vtx radius 0.0 0.0;
    Vtx (-radius) 0.0 bulge]) true) 1e-5)
  (Some (PL [Vtx (-radius) 0.0 (-1.0);
    Vtx radius 0.0 0.0] true))) = true.
Proof. vm_compute. reflexivity. Qed.

Example remove_redundant_9 : (let radius := 5.0 in let bulge := (bulge_from_angle (-FRAC_PI_2)) in same_option (remove_redundant (PL ([Vtx 0.0 radius bulge;
    Vtx radius 0.0 0.0;
    Vtx (-radius) 0.0 bulge]) false) 1e-5)
  (None)) = true.
Proof. vm_compute. reflexivity. Qed.

Example remove_redundant_10 : (same_option (remove_redundant (PL ([Vtx 2.0 2.0 0.0;
    Vtx 3.0 3.0 0.0;
    Vtx 3.0 (-2.0) 0.0;
    Vtx (-2.0) (-2.0) 0.0;
    Vtx (-1.0) (-1.0) 0.0]) true) 1e-5)
  (Some (PL [Vtx (-2.0) (-2.0) 0.0;
    Vtx 3.0 3.0 0.0;
    Vtx 3.0 (-2.0) 0.0] true))) = true.
Proof. vm_compute. reflexivity. Qed.

Example remove_redundant_11 : (same_option (remove_redundant (PL ([Vtx 2.0 2.0 0.0;
    Vtx 3.0 3.0 0.0;
    Vtx 3.0 (-2.0) 0.0;
    Vtx (-2.0) (-2.0) 0.0;
    Vtx (-1.0) (-1.0) 0.0]) false) 1e-5)
  (None)) = true.
Proof. vm_compute. reflexivity. Qed.

Example remove_redundant_12 : (let bulge := (ntan (PI / 8.0)) in same_option (remove_redundant (PL ([Vtx (-0.5) 0.0 bulge;
    Vtx 0.0 (-0.5) bulge;
    Vtx 0.5 0.0 bulge;
    Vtx 0.0 0.5 bulge]) true) 1e-5)
  (Some (PL [Vtx (-0.5) 0.0 1.0;
    Vtx 0.5 0.0 1.0] true))) = true.
Proof. vm_compute. reflexivity. Qed.

Example remove_redundant_13 : (let bulge := (ntan (PI / 8.0)) in same_option (remove_redundant (PL ([Vtx (-0.5) 0.0 bulge;
    Vtx 0.0 (-0.5) 0.0;
    Vtx 0.0 (-0.5) bulge;
    Vtx 0.5 0.0 0.0;
    Vtx 0.5 0.0 bulge;
    Vtx 0.0 0.5 0.0;
    Vtx 0.0 0.5 bulge;
    Vtx (-0.5) 0.0 0.0]) true) 1e-5)
  (Some (PL [Vtx (-0.5) 0.0 1.0;
    Vtx 0.5 0.0 1.0] true))) = true.
Proof. vm_compute. reflexivity. Qed.

Example remove_redundant_14 : (let bulge := (ntan (PI / 8.0)) in same_option (remove_redundant (PL ([Vtx (-0.5) 0.0 0.0;
    Vtx (-0.5) 0.0 bulge;
    Vtx 0.0 (-0.5) 0.0;
    Vtx 0.0 (-0.5) bulge;
    Vtx 0.5 0.0 0.0;
    Vtx 0.5 0.0 bulge;
    Vtx 0.0 0.5 0.0;
    Vtx 0.0 0.5 bulge]) true) 1e-5)
  (Some (PL [Vtx (-0.5) 0.0 1.0;
    Vtx 0.5 0.0 1.0] true))) = true.
Proof. vm_compute. reflexivity. Qed.

Example remove_redundant_15 : (let bulge := (ntan (PI / 8.0)) in same_option (remove_redundant (PL ([Vtx (-0.5) 0.0 bulge;
    Vtx 0.0 (-0.5) 0.0;
    Vtx 0.0 (-0.5) bulge;
    Vtx 0.5 0.0 0.0;
    Vtx 0.5 0.0 bulge;
    Vtx 0.0 0.5 0.0;
    Vtx 0.0 0.5 bulge;
    Vtx (-0.5) 0.0 0.0]) false) 1e-5)
  (Some (PL [Vtx (-0.5) 0.0 1.0;
    Vtx 0.5 0.0 1.0;
    Vtx (-0.5) 0.0 0.0] false))) = true.
Proof. vm_compute. reflexivity. Qed.

Example remove_redundant_16 : (let bulge := (ntan (PI / 8.0)) in same_option (remove_redundant (PL ([Vtx (-0.5) 0.0 0.0;
    Vtx (-0.5) 0.0 0.0;
    Vtx (-0.5) 0.0 0.0;
    Vtx (-0.5) 0.0 bulge;
    Vtx (-0.5) 0.0 bulge;
    Vtx (-0.5) 0.0 bulge;
    Vtx 0.0 (-0.5) 0.0;
    Vtx 0.0 (-0.5) 0.0;
    Vtx 0.0 (-0.5) 0.0;
    Vtx 0.0 (-0.5) bulge;
    Vtx 0.5 0.0 0.0;
    Vtx 0.5 0.0 bulge;
    Vtx 0.0 0.5 0.0;
    Vtx 0.0 0.5 bulge;
    Vtx 0.0 0.5 bulge;
    Vtx 0.0 0.5 bulge]) true) 1e-5)
  (Some (PL [Vtx (-0.5) 0.0 1.0;
    Vtx 0.5 0.0 1.0] true))) = true.
Proof. vm_compute. reflexivity. Qed.

Example remove_redundant_equal_points :
  (same_option (remove_redundant (PL [Vtx 0 0 0; Vtx 0 0 0; Vtx 0 0 0] false) 1e-5) (Some (PL [Vtx 0 0 0] false))
   && same_option (remove_redundant (PL [Vtx 1 1 0; Vtx 1 1 0; Vtx 1 1 1] false) 1e-5) (Some (PL [Vtx 1 1 1] false))
   && same_option (remove_redundant (PL [Vtx 2 2 0; Vtx 2 2 1] false) 1e-5) (Some (PL [Vtx 2 2 1] false))) = true.
Proof. vm_compute. reflexivity. Qed.

Example iter_segments_cases :
  let a := Vtx 1 2 0.3 in let b := Vtx 4 5 0.6 in let c := Vtx 0.5 0.5 0.5 in
  iter_segments (PL [] false : pline float) = Ret [] /\ iter_segments (PL [a] false) = Ret []
  /\ iter_segments (PL [a; b] false) = Ret [(a, b)] /\ iter_segments (PL [a; b] true) = Ret [(a, b); (b, a)]
  /\ iter_segments (PL [a; b; c] true) = Ret [(a, b); (b, c); (c, a)] /\ iter_segments (PL [a; b; c] false) = Ret [(a, b); (b, c)]
  /\ iter_segment_indexes (PL [] false : pline float) = Ret [] /\ iter_segment_indexes (PL [a] false) = Ret []
  /\ iter_segment_indexes (PL [a; b] false) = Ret [(0, 1)]%nat /\ iter_segment_indexes (PL [a; b] true) = Ret [(0, 1); (1, 0)]%nat
  /\ iter_segment_indexes (PL [a; b; c] true) = Ret [(0, 1); (1, 2); (2, 0)]%nat
  /\ iter_segment_indexes (PL [a; b; c] false) = Ret [(0, 1); (1, 2)]%nat.
Proof. repeat split; vm_compute; reflexivity. Qed.

Example invert_direction_case :
  invert_direction_mut (PL [Vtx 0 0 0.1; Vtx 2 0 0.2; Vtx 2 2 0.3; Vtx 0 2 0.4] true)
  = Ret (PL [Vtx 0 2 (-0.3); Vtx 2 2 (-0.2); Vtx 2 0 (-0.1); Vtx 0 0 (-0.4)] true).
Proof. vm_compute. reflexivity. Qed.

Example rotate_start_cases :
  let o := V2 0 0 in
  let q c := PL [Vtx 0 0 0; Vtx 1 0 0.5; Vtx 1 1 0.2; Vtx 0 1 (-0.1)] c in
  (same_option (rotate_start (PL [] true) 0 o 1e-5) None
   && same_option (rotate_start (PL [Vtx 1 0 0] true) 0 o 1e-5) None
   && same_option (rotate_start (q false) 0 o 1e-5) None
   && same_option (rotate_start (q true) 0 o 1e-5) (Some (q true))
   && same_option (rotate_start (q true) 3 (V2 0 1) 1e-5) (Some (PL [Vtx 0 1 (-0.1); Vtx 0 0 0; Vtx 1 0 0.5; Vtx 1 1 0.2] true))
   && same_option (rotate_start (PL [Vtx 0 0 0; Vtx 1 0 0; Vtx 1 1 0; Vtx 0 1 0] true) 0 (V2 0.5 0) 1e-5)
        (Some (PL [Vtx 0.5 0 0; Vtx 1 0 0; Vtx 1 1 0; Vtx 0 1 0; Vtx 0 0 0] true))
   && same_option (rotate_start (PL [Vtx 0 0 0; Vtx 1 0 1; Vtx 1 1 0; Vtx 0 1 0] true) 1 (V2 1.5 0.5) 1e-5)
        (Some (PL [Vtx 1.5 0.5 (bulge_from_angle FRAC_PI_2); Vtx 1 1 0; Vtx 0 1 0; Vtx 0 0 0;
                   Vtx 1 0 (bulge_from_angle FRAC_PI_2)] true))) = true.
Proof. vm_compute. reflexivity. Qed.

Definition area_both (p : pline float) (a : float) : bool := is_near (area p) a && is_near (area (inverted p)) (- a).
Example area_cases :
  (area_both (PL [Vtx 0 0 1; Vtx 2 0 1] true) PI && area_both (PL [Vtx 0 0 (-1); Vtx 2 0 0] true) (- 0.5 * PI)
   && area_both (PL [Vtx 0 0 0; Vtx 3 0 0; Vtx 3 2 0; Vtx 0 2 0] true) 6
   && area_both (PL [Vtx 0 0 0; Vtx 2 0 0; Vtx 2 2 0; Vtx 0 2 0] false) 0
   && is_near (area (PL [] false)) 0 && is_near (area (PL [] true)) 0
   && is_near (area (PL [Vtx 1 1 0] false)) 0 && is_near (area (PL [Vtx 1 1 0] true)) 0) = true.
Proof. vm_compute. reflexivity. Qed.

Definition length_both (p : pline float) (a : float) : bool := is_near (path_length p) a && is_near (path_length (inverted p)) a.
Example path_length_cases :
  (is_near (path_length (PL [] false)) 0 && is_near (path_length (PL [Vtx 1 1 0] false)) 0 && is_near (path_length (PL [Vtx 1 1 0] true)) 0
   && length_both (PL [Vtx 0 0 1; Vtx 2 0 1] true) tau && length_both (PL [Vtx 0 0 (-1); Vtx 2 0 0] true) (PI + 2)
   && length_both (PL [Vtx 0 0 0; Vtx 3 0 0; Vtx 3 2 0; Vtx 0 2 0] true) 10
   && length_both (PL [Vtx 0 0 0; Vtx 3 0 0; Vtx 3 2 0; Vtx 0 2 0] false) 8) = true.
Proof. vm_compute. reflexivity. Qed.

Definition box_is (p : pline float) (a b c d : float) : bool :=
  is_ret_true (let! o := extents p in let! e := unwrap o in
    Ret (PrimFloat.eqb (bmin_x e) a && PrimFloat.eqb (bmin_y e) b && PrimFloat.eqb (bmax_x e) c && PrimFloat.eqb (bmax_y e) d)).
Example extents_cases :
  extents (PL [] false : pline float) = Ret None /\ extents (PL [Vtx 1 1 0] false) = Ret None
  /\ (box_is (PL [Vtx (-2) (-1) 0; Vtx 3 4 0] false) (-2) (-1) 3 4 && box_is (PL [Vtx (-2) (-1) 0; Vtx 3 4 0] true) (-2) (-1) 3 4
      && box_is (PL [Vtx (-1) 0 1; Vtx 1 0 1] true) (-1) (-1) 1 1 && box_is (PL [Vtx (-1) 0 1; Vtx 1 0 1] false) (-1) (-1) 1 0
      && box_is (PL [Vtx 0 (-1) 1; Vtx 0 1 1] true) (-1) (-1) 1 1 && box_is (PL [Vtx 0 (-1) 1; Vtx 0 1 1] false) 0 (-1) 1 1
      && box_is (PL [Vtx (-1) 0 0; Vtx (-1) 0 1; Vtx (-1) 0 0; Vtx (-1) 0 1; Vtx 1 0 1; Vtx 1 0 1] true) (-1) (-1) 1 1) = true.
Proof. repeat split; vm_compute; reflexivity. Qed.

Definition found (r : res ((nat * vec2 float) + float)) (e : (nat * vec2 float) + float) : bool :=
  match r, e with
  | Ret (inl (i, p)), inl (j, q) => Nat.eqb i j && v2fuzzy_eq_eps p q 1e-5
  | Ret (inr a), inr b => fabs_lt a b 1e-5
  | _, _ => false
  end.
Example find_point_at_path_length_cases :
  (let v0 := Vtx 0 0 1 in let v1 := Vtx 1 0 (-1) in let v2 := Vtx 1 1 0 in let v3 := Vtx 1 2 0 in
   let pl := PL [v0; v1; v2; v3] true in
   let l0 := seg_length v0 v1 in let l1 := seg_length v1 v2 in let l2 := seg_length v2 v3 in
   let find := find_point_at_path_length pl in
   found (find 0) (inl (0%nat, V2 0 0))
   && is_ret_true (let! l := path_length pl in Ret (found (find l) (inl (3%nat, V2 0 0)) && found (find (l + 1)) (inr l)))
   && found (find (-1)) (inl (0%nat, V2 0 0)) && found (find (l0 / 2)) (inl (0%nat, V2 0.5 (-0.5))) && found (find l0) (inl (0%nat, V2 1 0))
   && found (find (l0 + l1 / 2)) (inl (1%nat, V2 0.5 0.5)) && found (find (l0 + l1 + l2 / 2)) (inl (2%nat, V2 1 1.5))
   && is_ret_true (let! o := view_from_slice_points pl (pos v2) 2 (pos v3) 3 1e-5 in let! d := unwrap o in let! w := view_pline d pl in
        Ret (found (find_point_at_path_length w 0) (inl (0%nat, V2 1 1)) && found (find_point_at_path_length w l2) (inl (0%nat, V2 1 2))))) = true.
Proof. vm_compute. reflexivity. Qed.

Example create_from_remove_repeat_case :
  is_ret_true (let! p := create_from_remove_repeat (PL [Vtx 0 0 0; Vtx 1 0 0; Vtx 1 0 0; Vtx 1 1 0; Vtx 0 1 0; Vtx 0 1 0; Vtx 0 1 0; Vtx 0 0 0] true) 1e-5 in
    Ret (same p (PL [Vtx 0 0 0; Vtx 1 0 0; Vtx 1 1 0; Vtx 0 1 0] true))) = true.
Proof. vm_compute. reflexivity. Qed.
