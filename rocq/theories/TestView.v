(** Fidelity tests: the cases of /repo/cavalier_contours/tests/test_pline_view.rs run on the model with
    binary64 numbers, generated from that file.  Its last test, which expects a debug_assert! to fail, is not here: the
    model is of a build without them.  The tests of from_new_start compare the segments of two polylines one by one, and so
    do the ones here. *)
From Coq Require Import ZArith Bool List Floats.
From Verif Require Import Num Res ModelMath ModelIntr ModelSeg ModelPline ModelView FNum TestUtil.
Import ListNotations.
Set Warnings "-inexact-float".
Local Open Scope float_scope.

Definition PI : float := npi.
Definition FRAC_PI_2 : float := npi / 2.
Definition FRAC_PI_3 : float := npi / 3.
Definition sliced (r : res (option (view_data float))) (source expected : pline float) : bool :=
  is_ret_true (let! o := r in let! d := unwrap o in let! p := view_pline d source in Ret (pline_fuzzy_eq_eps p expected 1e-8)).
Definition none_sliced (r : res (option (view_data float))) : bool := match r with Ret None => true | _ => false end.
Definition same_segments (r : res (option (view_data float))) (source expected : pline float) : bool :=
  is_ret_true (let! o := r in let! d := unwrap o in let! p := view_pline d source in
    let! ss := iter_segments p in let! es := iter_segments expected in
    Ret (Nat.eqb (length ss) (length es)
         && forallb (fun z => vfuzzy_eq_eps (fst (fst z)) (fst (snd z)) 1e-8
                              && v2fuzzy_eq_eps (pos (snd (fst z))) (pos (snd (snd z))) 1e-8) (combine ss es))).

Example from_slice_points_single_seg_1 : (sliced (view_from_slice_points (PL [Vtx 0.0 0.0 1.0; Vtx 1.0 0.0 0.0] false) (V2 0.0 0.0) 0 (V2 1.0 0.0) 0 1e-5) (PL [Vtx 0.0 0.0 1.0; Vtx 1.0 0.0 0.0] false)
  (PL [Vtx 0.0 0.0 1.0; Vtx 1.0 0.0 0.0] false)) = true.
Proof. vm_compute. reflexivity. Qed.

Example from_slice_points_single_seg_2 : (sliced (view_from_slice_points (PL [Vtx 0.0 0.0 1.0; Vtx 1.0 0.0 0.0] false) (V2 0.0 0.0) 0 (V2 1.0 0.0) 1 1e-5) (PL [Vtx 0.0 0.0 1.0; Vtx 1.0 0.0 0.0] false)
  (PL [Vtx 0.0 0.0 1.0; Vtx 1.0 0.0 0.0] false)) = true.
Proof. vm_compute. reflexivity. Qed.

Example from_slice_points_single_seg_3 : (let bulge := bulge_from_angle FRAC_PI_2 in sliced (view_from_slice_points (PL [Vtx 0.0 0.0 1.0; Vtx 1.0 0.0 0.0] false) (V2 0.0 0.0) 0 (V2 0.5 (-0.5)) 0 1e-5) (PL [Vtx 0.0 0.0 1.0; Vtx 1.0 0.0 0.0] false)
  (PL [Vtx 0.0 0.0 bulge; Vtx 0.5 (-0.5) 0.0] false)) = true.
Proof. vm_compute. reflexivity. Qed.

Example from_slice_points_single_seg_4 : (let bulge := bulge_from_angle FRAC_PI_2 in sliced (view_from_slice_points (PL [Vtx 0.0 0.0 1.0; Vtx 1.0 0.0 0.0] false) (V2 0.5 (-0.5)) 0 (V2 1.0 0.0) 0 1e-5) (PL [Vtx 0.0 0.0 1.0; Vtx 1.0 0.0 0.0] false)
  (PL [Vtx 0.5 (-0.5) bulge; Vtx 1.0 0.0 0.0] false)) = true.
Proof. vm_compute. reflexivity. Qed.

Example from_slice_points_single_seg_5 : (let bulge := bulge_from_angle FRAC_PI_2 in sliced (view_from_slice_points (PL [Vtx 0.0 0.0 1.0; Vtx 1.0 0.0 0.0] false) (V2 0.5 (-0.5)) 0 (V2 1.0 0.0) 1 1e-5) (PL [Vtx 0.0 0.0 1.0; Vtx 1.0 0.0 0.0] false)
  (PL [Vtx 0.5 (-0.5) bulge; Vtx 1.0 0.0 0.0] false)) = true.
Proof. vm_compute. reflexivity. Qed.

Example from_slice_points_single_seg_6 : (let bulge := bulge_from_angle FRAC_PI_3 in let start_point := point_on_circle 0.5 (V2 0.5 0) (PI + FRAC_PI_3) in let end_point := point_on_circle 0.5 (V2 0.5 0) (PI + 2.0 * FRAC_PI_3) in sliced (view_from_slice_points (PL [Vtx 0.0 0.0 1.0; Vtx 1.0 0.0 0.0] false) start_point 0 end_point 0 1e-5) (PL [Vtx 0.0 0.0 1.0; Vtx 1.0 0.0 0.0] false)
  (PL [Vtx (vx start_point) (vy start_point) bulge; Vtx (vx end_point) (vy end_point) 0] false)) = true.
Proof. vm_compute. reflexivity. Qed.

Example from_slice_points_single_seg_7 : (none_sliced (view_from_slice_points (PL [Vtx 0.0 0.0 1.0; Vtx 1.0 0.0 0.0] false) (V2 0.0 0.0) 0 (V2 0.0 0.0) 0 1e-5)) = true.
Proof. vm_compute. reflexivity. Qed.

Example from_slice_points_single_seg_8 : (none_sliced (view_from_slice_points (PL [Vtx 0.0 0.0 1.0; Vtx 1.0 0.0 0.0] false) (V2 1.0 0.0) 0 (V2 1.0 0.0) 0 1e-5)) = true.
Proof. vm_compute. reflexivity. Qed.

Example from_slice_points_single_seg_9 : (none_sliced (view_from_slice_points (PL [Vtx 0.0 0.0 0.0; Vtx 5.0 0.0 0.0; Vtx 5.0 5.0 0.0; Vtx 0.0 5.0 0.0] true) (V2 0.0 0.0) 0 (V2 0.0 0.0) 0 1e-5)) = true.
Proof. vm_compute. reflexivity. Qed.

Example from_slice_points_single_seg_10 : (same_segments (view_from_slice_points (PL [Vtx 0.0 0.0 0.0; Vtx 5.0 0.0 0.0; Vtx 5.0 5.0 0.0; Vtx 0.0 5.0 0.0] true) (V2 0.0 0.0) 0 (V2 0.0 0.0) 3 1e-5) (PL [Vtx 0.0 0.0 0.0; Vtx 5.0 0.0 0.0; Vtx 5.0 5.0 0.0; Vtx 0.0 5.0 0.0] true) (PL [Vtx 0.0 0.0 0.0; Vtx 5.0 0.0 0.0; Vtx 5.0 5.0 0.0; Vtx 0.0 5.0 0.0] true)) = true.
Proof. vm_compute. reflexivity. Qed.

Example from_slice_points_multi_seg_1 : (sliced (view_from_slice_points (PL [Vtx 0.0 0.0 1.0; Vtx 1.0 0.0 0.0; Vtx 1.0 1.0 0.0] true) (V2 0.0 0.0) 0 (V2 1.0 1.0) 1 1e-5) (PL [Vtx 0.0 0.0 1.0; Vtx 1.0 0.0 0.0; Vtx 1.0 1.0 0.0] true)
  (PL (vtx (PL [Vtx 0.0 0.0 1.0; Vtx 1.0 0.0 0.0; Vtx 1.0 1.0 0.0] true)) false)) = true.
Proof. vm_compute. reflexivity. Qed.

Example from_slice_points_multi_seg_2 : (sliced (view_from_slice_points (PL [Vtx 0.0 0.0 1.0; Vtx 1.0 0.0 0.0; Vtx 1.0 1.0 0.0] true) (V2 0.0 0.0) 0 (V2 1.0 1.0) 2 1e-5) (PL [Vtx 0.0 0.0 1.0; Vtx 1.0 0.0 0.0; Vtx 1.0 1.0 0.0] true)
  (PL (vtx (PL [Vtx 0.0 0.0 1.0; Vtx 1.0 0.0 0.0; Vtx 1.0 1.0 0.0] true)) false)) = true.
Proof. vm_compute. reflexivity. Qed.

Example from_slice_points_multi_seg_3 : (let bulge := bulge_from_angle FRAC_PI_2 in sliced (view_from_slice_points (PL [Vtx 0.0 0.0 1.0; Vtx 1.0 0.0 0.0; Vtx 1.0 1.0 0.0] true) (V2 0.0 0.0) 0 (V2 0.5 (-0.5)) 0 1e-5) (PL [Vtx 0.0 0.0 1.0; Vtx 1.0 0.0 0.0; Vtx 1.0 1.0 0.0] true)
  (PL [Vtx 0.0 0.0 bulge; Vtx 0.5 (-0.5) 0.0] false)) = true.
Proof. vm_compute. reflexivity. Qed.

Example from_slice_points_multi_seg_4 : (let bulge := bulge_from_angle FRAC_PI_2 in sliced (view_from_slice_points (PL [Vtx 0.0 0.0 1.0; Vtx 1.0 0.0 0.0; Vtx 1.0 1.0 0.0] true) (V2 0.5 (-0.5)) 0 (V2 1.0 0.0) 0 1e-5) (PL [Vtx 0.0 0.0 1.0; Vtx 1.0 0.0 0.0; Vtx 1.0 1.0 0.0] true)
  (PL [Vtx 0.5 (-0.5) bulge; Vtx 1.0 0.0 0.0] false)) = true.
Proof. vm_compute. reflexivity. Qed.

Example from_slice_points_multi_seg_5 : (sliced (view_from_slice_points (PL [Vtx 0.0 0.0 1.0; Vtx 1.0 0.0 0.0; Vtx 1.0 1.0 0.0] true) (V2 0.0 0.0) 0 (V2 1.0 0.0) 0 1e-5) (PL [Vtx 0.0 0.0 1.0; Vtx 1.0 0.0 0.0; Vtx 1.0 1.0 0.0] true)
  (PL [Vtx 0.0 0.0 1.0; Vtx 1.0 0.0 0.0] false)) = true.
Proof. vm_compute. reflexivity. Qed.

Example from_slice_points_multi_seg_6 : (sliced (view_from_slice_points (PL [Vtx 0.0 0.0 1.0; Vtx 1.0 0.0 0.0; Vtx 1.0 1.0 0.0] true) (V2 0.0 0.0) 0 (V2 1.0 0.5) 1 1e-5) (PL [Vtx 0.0 0.0 1.0; Vtx 1.0 0.0 0.0; Vtx 1.0 1.0 0.0] true)
  (PL [Vtx 0.0 0.0 1.0; Vtx 1.0 0.0 0.0; Vtx 1.0 0.5 0.0] false)) = true.
Proof. vm_compute. reflexivity. Qed.

Example from_slice_points_multi_seg_7 : (sliced (view_from_slice_points (PL [Vtx 0.0 0.0 1.0; Vtx 1.0 0.0 0.0; Vtx 1.0 1.0 0.0] true) (V2 1.0 0.0) 1 (V2 1.0 0.5) 1 1e-5) (PL [Vtx 0.0 0.0 1.0; Vtx 1.0 0.0 0.0; Vtx 1.0 1.0 0.0] true)
  (PL [Vtx 1.0 0.0 0.0; Vtx 1.0 0.5 0.0] false)) = true.
Proof. vm_compute. reflexivity. Qed.

Example from_slice_points_multi_seg_8 : (sliced (view_from_slice_points (PL [Vtx 0.0 0.0 1.0; Vtx 1.0 0.0 0.0; Vtx 1.0 1.0 0.0] true) (V2 1.0 0.0) 0 (V2 1.0 0.5) 1 1e-5) (PL [Vtx 0.0 0.0 1.0; Vtx 1.0 0.0 0.0; Vtx 1.0 1.0 0.0] true)
  (PL [Vtx 1.0 0.0 0.0; Vtx 1.0 0.5 0.0] false)) = true.
Proof. vm_compute. reflexivity. Qed.

Example from_slice_points_multi_seg_9 : (let bulge := bulge_from_angle FRAC_PI_2 in sliced (view_from_slice_points (PL [Vtx 0.0 0.0 1.0; Vtx 1.0 0.0 0.0; Vtx 1.0 1.0 0.0] true) (V2 0.5 (-0.5)) 0 (V2 1.0 1.0) 1 1e-5) (PL [Vtx 0.0 0.0 1.0; Vtx 1.0 0.0 0.0; Vtx 1.0 1.0 0.0] true)
  (PL [Vtx 0.5 (-0.5) bulge; Vtx 1.0 0.0 0.0; Vtx 1.0 1.0 0.0] false)) = true.
Proof. vm_compute. reflexivity. Qed.

Example from_slice_points_multi_seg_10 : (let bulge := bulge_from_angle FRAC_PI_2 in sliced (view_from_slice_points (PL [Vtx 0.0 0.0 1.0; Vtx 1.0 0.0 0.0; Vtx 1.0 1.0 0.0] true) (V2 1.0 0.5) 1 (V2 0.5 (-0.5)) 0 1e-5) (PL [Vtx 0.0 0.0 1.0; Vtx 1.0 0.0 0.0; Vtx 1.0 1.0 0.0] true)
  (PL [Vtx 1.0 0.5 0.0; Vtx 1.0 1.0 0.0; Vtx 0.0 0.0 bulge; Vtx 0.5 (-0.5) 0.0] false)) = true.
Proof. vm_compute. reflexivity. Qed.

Example from_slice_points_multi_seg_11 : (none_sliced (view_from_slice_points (PL [Vtx 0.0 0.0 1.0; Vtx 1.0 0.0 0.0; Vtx 1.0 1.0 0.0] true) (V2 0.0 0.0) 0 (V2 0.0 0.0) 0 1e-5)) = true.
Proof. vm_compute. reflexivity. Qed.

Example from_slice_points_multi_seg_12 : (none_sliced (view_from_slice_points (PL [Vtx 0.0 0.0 1.0; Vtx 1.0 0.0 0.0; Vtx 1.0 1.0 0.0] true) (V2 1.0 0.5) 1 (V2 1.0 0.5) 1 1e-5)) = true.
Proof. vm_compute. reflexivity. Qed.

Example from_slice_points_multi_seg_13 : (let bulge := bulge_from_angle FRAC_PI_2 in sliced (view_from_slice_points (PL [Vtx 0.0 0.0 1.0; Vtx 1.0 0.0 0.0; Vtx 1.0 1.0 0.0] true) (V2 0.5 (-0.5)) 0 (V2 0.0 0.0) 0 1e-5) (PL [Vtx 0.0 0.0 1.0; Vtx 1.0 0.0 0.0; Vtx 1.0 1.0 0.0] true)
  (PL [Vtx 0.5 (-0.5) bulge; Vtx 1.0 0.0 0.0; Vtx 1.0 1.0 0.0; Vtx 0.0 0.0 0.0] false)) = true.
Proof. vm_compute. reflexivity. Qed.

Example from_slice_points_multi_seg_14 : (let bulge := bulge_from_angle FRAC_PI_2 in sliced (view_from_slice_points (PL [Vtx 0.0 0.0 1.0; Vtx 1.0 0.0 0.0; Vtx 1.0 1.0 0.0] true) (V2 1.0 0.5) 1 (V2 0.5 (-0.5)) 0 1e-5) (PL [Vtx 0.0 0.0 1.0; Vtx 1.0 0.0 0.0; Vtx 1.0 1.0 0.0] true)
  (PL [Vtx 1.0 0.5 0.0; Vtx 1.0 1.0 0.0; Vtx 0.0 0.0 bulge; Vtx 0.5 (-0.5) 0.0] false)) = true.
Proof. vm_compute. reflexivity. Qed.

Example from_new_start_1 : (same_segments (view_from_new_start (PL [Vtx 0.0 0.0 0.0; Vtx 5.0 0.0 0.0; Vtx 5.0 5.0 0.0; Vtx 0.0 5.0 0.0] true) (V2 1.5 0.0) 0 1e-5) (PL [Vtx 0.0 0.0 0.0; Vtx 5.0 0.0 0.0; Vtx 5.0 5.0 0.0; Vtx 0.0 5.0 0.0] true) (PL [Vtx 1.5 0.0 0.0; Vtx 5.0 0.0 0.0; Vtx 5.0 5.0 0.0; Vtx 0.0 5.0 0.0; Vtx 0.0 0.0 0.0] true)) = true.
Proof. vm_compute. reflexivity. Qed.

Example from_new_start_2 : (same_segments (view_from_new_start (PL [Vtx 0.0 0.0 0.0; Vtx 5.0 0.0 0.0; Vtx 5.0 5.0 0.0; Vtx 0.0 5.0 0.0] true) (V2 0.0 0.0) 0 1e-5) (PL [Vtx 0.0 0.0 0.0; Vtx 5.0 0.0 0.0; Vtx 5.0 5.0 0.0; Vtx 0.0 5.0 0.0] true) (PL [Vtx 0.0 0.0 0.0; Vtx 5.0 0.0 0.0; Vtx 5.0 5.0 0.0; Vtx 0.0 5.0 0.0] true)) = true.
Proof. vm_compute. reflexivity. Qed.

Example from_new_start_3 : (same_segments (view_from_new_start (PL [Vtx 0.0 0.0 0.1; Vtx 5.0 0.0 0.2; Vtx 5.0 5.0 0.3; Vtx 0.0 5.0 0.4] true) (V2 0.0 0.0) 0 1e-5) (PL [Vtx 0.0 0.0 0.1; Vtx 5.0 0.0 0.2; Vtx 5.0 5.0 0.3; Vtx 0.0 5.0 0.4] true) (PL [Vtx 0.0 0.0 0.1; Vtx 5.0 0.0 0.2; Vtx 5.0 5.0 0.3; Vtx 0.0 5.0 0.4] true)) = true.
Proof. vm_compute. reflexivity. Qed.

Example from_new_start_4 : (same_segments (view_from_new_start (PL [Vtx 0.0 0.0 0.0; Vtx 5.0 0.0 0.0; Vtx 5.0 5.0 0.0; Vtx 0.0 5.0 0.0] true) (V2 0.0 0.0) 3 1e-5) (PL [Vtx 0.0 0.0 0.0; Vtx 5.0 0.0 0.0; Vtx 5.0 5.0 0.0; Vtx 0.0 5.0 0.0] true) (PL [Vtx 0.0 0.0 0.0; Vtx 5.0 0.0 0.0; Vtx 5.0 5.0 0.0; Vtx 0.0 5.0 0.0] true)) = true.
Proof. vm_compute. reflexivity. Qed.

Example from_new_start_5 : (same_segments (view_from_new_start (PL [Vtx 0.0 0.0 0.0; Vtx 5.0 0.0 0.0; Vtx 5.0 5.0 0.0; Vtx 0.0 5.0 0.0] true) (V2 5.0 0.0) 1 1e-5) (PL [Vtx 0.0 0.0 0.0; Vtx 5.0 0.0 0.0; Vtx 5.0 5.0 0.0; Vtx 0.0 5.0 0.0] true) (PL [Vtx 5.0 0.0 0.0; Vtx 5.0 5.0 0.0; Vtx 0.0 5.0 0.0; Vtx 0.0 0.0 0.0] true)) = true.
Proof. vm_compute. reflexivity. Qed.

Example from_new_start_6 : (same_segments (view_from_new_start (PL [Vtx 0.0 0.0 0.1; Vtx 5.0 0.0 0.2; Vtx 5.0 5.0 0.3; Vtx 0.0 5.0 0.4] true) (V2 5.0 0.0) 1 1e-5) (PL [Vtx 0.0 0.0 0.1; Vtx 5.0 0.0 0.2; Vtx 5.0 5.0 0.3; Vtx 0.0 5.0 0.4] true) (PL [Vtx 5.0 0.0 0.2; Vtx 5.0 5.0 0.3; Vtx 0.0 5.0 0.4; Vtx 0.0 0.0 0.1] true)) = true.
Proof. vm_compute. reflexivity. Qed.

Example from_new_start_7 : (same_segments (view_from_new_start (PL [Vtx 0.0 0.0 0.0; Vtx 5.0 0.0 0.0; Vtx 5.0 5.0 0.0; Vtx 0.0 5.0 0.0] true) (V2 5.0 0.0) 0 1e-5) (PL [Vtx 0.0 0.0 0.0; Vtx 5.0 0.0 0.0; Vtx 5.0 5.0 0.0; Vtx 0.0 5.0 0.0] true) (PL [Vtx 5.0 0.0 0.0; Vtx 5.0 5.0 0.0; Vtx 0.0 5.0 0.0; Vtx 0.0 0.0 0.0] true)) = true.
Proof. vm_compute. reflexivity. Qed.

Example from_new_start_8 : (same_segments (view_from_new_start (PL [Vtx 0.0 0.0 0.0; Vtx 5.0 0.0 0.0; Vtx 5.0 5.0 0.0; Vtx 0.0 5.0 0.0] true) (V2 5.0 2.22) 1 1e-5) (PL [Vtx 0.0 0.0 0.0; Vtx 5.0 0.0 0.0; Vtx 5.0 5.0 0.0; Vtx 0.0 5.0 0.0] true) (PL [Vtx 5.0 2.22 0.0; Vtx 5.0 5.0 0.0; Vtx 0.0 5.0 0.0; Vtx 0.0 0.0 0.0; Vtx 5.0 0.0 0.0] true)) = true.
Proof. vm_compute. reflexivity. Qed.

Example from_new_start_9 : (same_segments (view_from_new_start (PL [Vtx 0.0 0.0 0.0; Vtx 5.0 0.0 0.0; Vtx 5.0 5.0 0.0; Vtx 0.0 5.0 0.0] true) (V2 0.0 2.22) 3 1e-5) (PL [Vtx 0.0 0.0 0.0; Vtx 5.0 0.0 0.0; Vtx 5.0 5.0 0.0; Vtx 0.0 5.0 0.0] true) (PL [Vtx 0.0 2.22 0.0; Vtx 0.0 0.0 0.0; Vtx 5.0 0.0 0.0; Vtx 5.0 5.0 0.0; Vtx 0.0 5.0 0.0] true)) = true.
Proof. vm_compute. reflexivity. Qed.

