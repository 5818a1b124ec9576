(** Fidelity tests: the cases of /repo/cavalier_contours/tests/test_shape_parallel_offset.rs run on the model with
    binary64 numbers (generated from that file). *)
From Coq Require Import ZArith Bool List Floats.
From Verif Require Import Num Res ModelMath ModelSeg ModelPline ModelRedundant ModelView ModelIndex ModelIntersects
  ModelBoolean ModelOffset ModelShape FNum TestUtil.
Import ListNotations.
Set Warnings "-inexact-float".
Local Open Scope float_scope.

Example empty_returns_empty_0 : shape_test [] 5.0
  [] = true.
Proof. vm_compute. reflexivity. Qed.

Example set_of_empty_returns_empty_0 : shape_test [PL [] true; PL [] true] 5.0
  [] = true.
Proof. vm_compute. reflexivity. Qed.

Example rectangle_inside_shape_0 : shape_test [PL [Vtx 100.0 100.0 (-0.5); Vtx 80.0 90.0 0.374794619217547; Vtx 210.0 0.0 0.0; Vtx 230.0 0.0 1.0; Vtx 320.0 0.0 (-0.5); Vtx 280.0 0.0 0.5; Vtx 390.0 210.0 0.0; Vtx 280.0 120.0 0.5] true; PL [Vtx 150.0 50.0 0.0; Vtx 150.0 100.0 0.0; Vtx 200.0 100.0 0.0; Vtx 200.0 50.0 0.0] true] 3.0
  [Props 12%nat 40977.79061358948 998.5536075336107 84.32384698504309 (-41.99999999999997) 401.41586988912127 205.22199935960901; Props 8%nat (-3128.274333882308) 218.84955592153878 147.0 47.0 203.0 103.0] = true.
Proof. vm_compute. reflexivity. Qed.

Example case1_0 : shape_test [PL [Vtx 100.0 100.0 (-0.5); Vtx 80.0 90.0 0.374794619217547; Vtx 210.0 0.0 0.0; Vtx 230.0 0.0 1.0; Vtx 320.0 0.0 (-0.5); Vtx 280.0 0.0 0.5; Vtx 390.0 210.0 0.0; Vtx 280.0 120.0 0.5] true; PL [Vtx 150.0 50.0 0.0; Vtx 146.32758944101474 104.13867601941358 0.0; Vtx 200.0 100.0 0.0; Vtx 200.0 50.0 0.0] true] 17.0
  [Props 22%nat 20848.93377998434 1149.2701898185926 102.79564651409214 (-28.000000000000004) 387.41586988912127 181.8843855860552] = true.
Proof. vm_compute. reflexivity. Qed.

Example case2_0 : shape_test [PL [Vtx 160.655879768138 148.75471430537402 (-0.5); Vtx 80.0 90.0 0.374794619217547; Vtx 210.0 0.0 0.0; Vtx 230.0 0.0 1.0; Vtx 320.0 0.0 (-0.5); Vtx 280.0 0.0 0.5; Vtx 390.0 210.0 0.0; Vtx 280.0 120.0 0.5] true; PL [Vtx 150.0 50.0 0.0; Vtx 192.62381977774953 130.82800839110848 0.0; Vtx 200.0 100.0 0.0; Vtx 200.0 50.0 0.0] true] 17.0
  [Props 20%nat 20135.256681247833 1053.2414865948808 105.64684517241575 (-28.000000000000004) 387.41586988912127 181.8843855860552; Props 4%nat 2.091291658768 9.557331573939933 176.64810774674345 136.97815392110508 178.9335673169721 140.906549335123] = true.
Proof. vm_compute. reflexivity. Qed.

