(** Fidelity tests: the cases of /repo/cavalier_contours/tests/test_line_line_intersect.rs,
    test_line_circle_intersect.rs, test_circle_circle_intersect.rs, test_pline_seg_intersect.rs and
    test_pline_winding_number.rs run on the model with binary64 numbers (generated from these files). *)
From Coq Require Import ZArith Bool List Floats.
From Verif Require Import Num Res ModelMath ModelIntr ModelSeg ModelSegIntr ModelPline FNum TestUtil.
Import ListNotations.
Set Warnings "-inexact-float".
Local Open Scope float_scope.

Definition rotation_angles : list float := [npi / 8; npi / 6; npi / 4; npi / 3; npi / 2].
Definition feq (a b : float) : bool := fabs_lt a b 1e-8.
Definition peq (a b : vec2 float) : bool := v2fuzzy_eq_eps a b 1e-8.
Definition LL_same (a b : line_line_result float) : bool :=
  match a, b with
  | LLNoIntersect, LLNoIntersect => true
  | LLTrueIntersect x y, LLTrueIntersect z w | LLOverlapping x y, LLOverlapping z w
  | LLFalseIntersect x y, LLFalseIntersect z w => feq x z && feq y w
  | _, _ => false
  end.
Definition LC_same (a b : line_circle_result float) : bool :=
  match a, b with
  | LCNoIntersect, LCNoIntersect => true
  | LCTangentIntersect x, LCTangentIntersect y => feq x y
  | LCTwoIntersects x y, LCTwoIntersects z w => feq x z && feq y w
  | _, _ => false
  end.
Definition CC_same (a b : circle_circle_result float) : bool :=
  match a, b with
  | CCNoIntersect, CCNoIntersect | CCOverlapping, CCOverlapping => true
  | CCTangentIntersect x, CCTangentIntersect y => peq x y
  | CCTwoIntersects x y, CCTwoIntersects z w => peq x z && peq y w
  | _, _ => false
  end.
Definition SI_same (a b : seg_intr float) : bool :=
  match a, b with
  | SINoIntersect, SINoIntersect => true
  | SITangent x, SITangent y | SIOne x, SIOne y => peq x y
  | SITwo x y, SITwo z w | SIOverlapLines x y, SIOverlapLines z w | SIOverlapArcs x y, SIOverlapArcs z w => peq x z && peq y w
  | _, _ => false
  end.

(** ** test_line_line_intersect.rs *)
Example LL_true_intersect : (let u1 := V2 (-1.0) (-1.0) in
  let u2 := V2 1.0 1.0 in
  let v1 := V2 (-1.0) 1.0 in
  let v2 := V2 1.0 (-1.0) in
  let result := line_line_intr u1 u2 v1 v2 1e-5 in
  LL_same result (LLTrueIntersect 0.5 0.5)
  && (true)) = true.
Proof. vm_compute. reflexivity. Qed.

Example LL_end_point_start_point_touch_same_direction : (let u1 := V2 (-1.0) (-1.0) in
  let u2 := V2 1.0 1.0 in
  let v1 := V2 1.0 1.0 in
  let v2 := V2 2.0 2.0 in
  let result := line_line_intr u1 u2 v1 v2 1e-5 in
  LL_same result (LLTrueIntersect 1.0 0.0)
  && (let result := line_line_intr v1 v2 u1 u2 1e-5 in
  LL_same result (LLTrueIntersect 0.0 1.0)
  && (forallb (fun angle => let v2 := v2rotate_about v2 v1 angle in
  let result := line_line_intr u1 u2 v1 v2 1e-5 in
  LL_same result (LLTrueIntersect 1.0 0.0)
  && (true)) rotation_angles
  && (true)))) = true.
Proof. vm_compute. reflexivity. Qed.

Example LL_start_points_touch_opposing_direction : (let u1 := V2 0.0 0.0 in
  let u2 := V2 1.0 1.0 in
  let v1 := V2 0.0 0.0 in
  let v2 := V2 (-1.0) (-1.0) in
  let result := line_line_intr u1 u2 v1 v2 1e-5 in
  LL_same result (LLTrueIntersect 0.0 0.0)
  && (let result := line_line_intr v1 v2 u1 u2 1e-5 in
  LL_same result (LLTrueIntersect 0.0 0.0)
  && (forallb (fun angle => let v2 := v2rotate_about v2 v1 angle in
  let result := line_line_intr u1 u2 v1 v2 1e-5 in
  LL_same result (LLTrueIntersect 0.0 0.0)
  && (true)) rotation_angles
  && (true)))) = true.
Proof. vm_compute. reflexivity. Qed.

Example LL_false_intersect : (let u1 := V2 (-1.0) (-1.0) in
  let u2 := V2 (-0.5) (-0.5) in
  let v1 := V2 (-1.0) 1.0 in
  let v2 := V2 1.0 (-1.0) in
  let result := line_line_intr u1 u2 v1 v2 1e-5 in
  LL_same result (LLFalseIntersect 2.0 0.5)
  && (true)) = true.
Proof. vm_compute. reflexivity. Qed.

Example LL_no_intersect : (let u1 := V2 (-1.0) (-1.0) in
  let u2 := V2 1.0 1.0 in
  let v1 := V2 0.0 1.0 in
  let v2 := V2 1.0 2.0 in
  let result := line_line_intr u1 u2 v1 v2 1e-5 in
  LL_same result (LLNoIntersect)
  && (true)) = true.
Proof. vm_compute. reflexivity. Qed.

Example LL_no_intersect_vertical : (let u1 := V2 2.0 0.0 in
  let u2 := V2 2.0 1.0 in
  let v1 := V2 (-1.0) (-1.0) in
  let v2 := V2 (-1.0) (-2.0) in
  let result := line_line_intr u1 u2 v1 v2 1e-5 in
  LL_same result (LLNoIntersect)
  && (true)) = true.
Proof. vm_compute. reflexivity. Qed.

Example LL_no_intersect_horizontal : (let u1 := V2 (-2.0) (-1.0) in
  let u2 := V2 2.0 (-1.0) in
  let v1 := V2 (-1.0) 5.0 in
  let v2 := V2 1.0 5.0 in
  let result := line_line_intr u1 u2 v1 v2 1e-5 in
  LL_same result (LLNoIntersect)
  && (true)) = true.
Proof. vm_compute. reflexivity. Qed.

Example LL_overlapping_intersect : (let u1 := V2 (-1.0) (-1.0) in
  let u2 := V2 1.0 1.0 in
  let v1 := V2 0.0 0.0 in
  let v2 := V2 0.5 0.5 in
  let result := line_line_intr u1 u2 v1 v2 1e-5 in
  LL_same result (LLOverlapping 0.0 1.0)
  && (true)) = true.
Proof. vm_compute. reflexivity. Qed.

Example LL_point_intersect : (let u1 := V2 (-1.0) (-1.0) in
  let u2 := V2 1.0 1.0 in
  let v1 := V2 0.0 0.0 in
  let v2 := V2 0.0 0.0 in
  let result := line_line_intr u1 u2 v1 v2 1e-5 in
  LL_same result (LLTrueIntersect 0.5 0.0)
  && (let result := line_line_intr v1 v2 u1 u2 1e-5 in
  LL_same result (LLTrueIntersect 0.0 0.5)
  && (true))) = true.
Proof. vm_compute. reflexivity. Qed.

Example LL_point_intersect_vertical : (let u1 := V2 0.0 (-1.0) in
  let u2 := V2 0.0 1.0 in
  let v1 := V2 0.0 0.0 in
  let v2 := V2 0.0 0.0 in
  let result := line_line_intr u1 u2 v1 v2 1e-5 in
  LL_same result (LLTrueIntersect 0.5 0.0)
  && (let result := line_line_intr v1 v2 u1 u2 1e-5 in
  LL_same result (LLTrueIntersect 0.0 0.5)
  && (true))) = true.
Proof. vm_compute. reflexivity. Qed.

Example LL_point_intersect_horizontal : (let u1 := V2 (-1.0) 0.0 in
  let u2 := V2 1.0 0.0 in
  let v1 := V2 0.0 0.0 in
  let v2 := V2 0.0 0.0 in
  let result := line_line_intr u1 u2 v1 v2 1e-5 in
  LL_same result (LLTrueIntersect 0.5 0.0)
  && (let result := line_line_intr v1 v2 u1 u2 1e-5 in
  LL_same result (LLTrueIntersect 0.0 0.5)
  && (true))) = true.
Proof. vm_compute. reflexivity. Qed.

Example LL_point_intersect_at_end : (let u1 := V2 (-1.0) (-1.0) in
  let u2 := V2 1.0 1.0 in
  let v1 := u1 in
  let v2 := u1 in
  let result := line_line_intr u1 u2 v1 v2 1e-5 in
  LL_same result (LLTrueIntersect 0.0 0.0)
  && (let result := line_line_intr v1 v2 u1 u2 1e-5 in
  LL_same result (LLTrueIntersect 0.0 0.0)
  && (let v1 := u2 in
  let v2 := u2 in
  let result := line_line_intr u1 u2 v1 v2 1e-5 in
  LL_same result (LLTrueIntersect 1.0 0.0)
  && (let result := line_line_intr v1 v2 u1 u2 1e-5 in
  LL_same result (LLTrueIntersect 0.0 1.0)
  && (true))))) = true.
Proof. vm_compute. reflexivity. Qed.

Example LL_entirely_overlapping_same_direction : (let u1 := V2 (-1.0) (-1.0) in
  let u2 := V2 1.0 1.0 in
  let v1 := u1 in
  let v2 := u2 in
  let result := line_line_intr u1 u2 v1 v2 1e-5 in
  LL_same result (LLOverlapping 0.0 1.0)
  && (forallb (fun angle => let u2 := v2rotate_about u2 u1 angle in
  let v2 := v2rotate_about v2 v1 angle in
  let result := line_line_intr u1 u2 v1 v2 1e-5 in
  LL_same result (LLOverlapping 0.0 1.0)
  && (true)) rotation_angles
  && (true))) = true.
Proof. vm_compute. reflexivity. Qed.

Example LL_entirely_overlapping_opposing_direction : (let u1 := V2 (-1.0) (-1.0) in
  let u2 := V2 1.0 1.0 in
  let v1 := u2 in
  let v2 := u1 in
  let result := line_line_intr u1 u2 v1 v2 1e-5 in
  LL_same result (LLOverlapping 0.0 1.0)
  && (let result := line_line_intr v1 v2 u1 u2 1e-5 in
  LL_same result (LLOverlapping 0.0 1.0)
  && (forallb (fun angle => let u2 := v2rotate_about u2 u1 angle in
  let v1 := v2rotate_about v1 v2 angle in
  let result := line_line_intr u1 u2 v1 v2 1e-5 in
  LL_same result (LLOverlapping 0.0 1.0)
  && (true)) rotation_angles
  && (true)))) = true.
Proof. vm_compute. reflexivity. Qed.

(** ** test_line_circle_intersect.rs *)
Example LC_no_intersect : (let p0 := V2 (-1.0) (-1.0) in
  let p1 := V2 1.0 1.0 in
  let circle_center := V2 0.0 5.0 in
  let radius := 0.5 in
  let result := line_circle_intr p0 p1 radius circle_center 1e-5 in
  LC_same result (LCNoIntersect)
  && (true)) = true.
Proof. vm_compute. reflexivity. Qed.

Example LC_no_intersect_vertical : (let p0 := V2 0.0 (-1.0) in
  let p1 := V2 0.0 1.0 in
  let circle_center := V2 2.0 0.0 in
  let radius := 0.5 in
  let result := line_circle_intr p0 p1 radius circle_center 1e-5 in
  LC_same result (LCNoIntersect)
  && (true)) = true.
Proof. vm_compute. reflexivity. Qed.

Example LC_no_intersect_horizontal : (let p0 := V2 1.0 1.0 in
  let p1 := V2 3.0 1.0 in
  let circle_center := V2 2.0 (-2.0) in
  let radius := 0.5 in
  let result := line_circle_intr p0 p1 radius circle_center 1e-5 in
  LC_same result (LCNoIntersect)
  && (true)) = true.
Proof. vm_compute. reflexivity. Qed.

Example LC_two_intersects_true : (let p0 := V2 (-1.0) (-1.0) in
  let p1 := V2 1.0 1.0 in
  let radius := 0.5 in
  let offset := PrimFloat.sqrt (radius * radius / 2) in
  let circle_center := V2 offset offset in
  let expected_t1_intr_point_x := 2 * offset in
  let expected_t1 := (expected_t1_intr_point_x - vx p0) / (vx p1 - vx p0) in
  let result := line_circle_intr p0 p1 radius circle_center 1e-5 in
  LC_same result (LCTwoIntersects 0.5 expected_t1)
  && (true)) = true.
Proof. vm_compute. reflexivity. Qed.

Example LC_two_intersects_seg_inside_vertical : (let p0 := V2 0.0 (-1.0) in
  let p1 := V2 0.0 1.0 in
  let circle_center := V2 0.0 0.0 in
  let radius := 1.0 in
  let result := line_circle_intr p0 p1 radius circle_center 1e-5 in
  LC_same result (LCTwoIntersects 0.0 1.0)
  && (true)) = true.
Proof. vm_compute. reflexivity. Qed.

Example LC_two_intersects_seg_inside_horizontal : (let p0 := V2 (-1.0) 0.0 in
  let p1 := V2 1.0 0.0 in
  let circle_center := V2 0.0 0.0 in
  let radius := 1.0 in
  let result := line_circle_intr p0 p1 radius circle_center 1e-5 in
  LC_same result (LCTwoIntersects 0.0 1.0)
  && (true)) = true.
Proof. vm_compute. reflexivity. Qed.

Example LC_two_intersects_seg_touching : (let p0 := V2 0.0 (-1.0) in
  let p1 := V2 0.0 1.0 in
  let circle_center := V2 0.0 0.0 in
  let radius := 1.0 in
  let result := line_circle_intr p0 p1 radius circle_center 1e-5 in
  LC_same result (LCTwoIntersects 0.0 1.0)
  && (true)) = true.
Proof. vm_compute. reflexivity. Qed.

Example LC_tangent_intersect_vertical : (let p0 := V2 0.0 (-1.0) in
  let p1 := V2 0.0 1.0 in
  let circle_center := V2 1.0 0.0 in
  let radius := 1.0 in
  let result := line_circle_intr p0 p1 radius circle_center 1e-5 in
  LC_same result (LCTangentIntersect 0.5)
  && (true)) = true.
Proof. vm_compute. reflexivity. Qed.

Example LC_tangent_intersect_horizontal : (let p0 := V2 (-1.0) 0.0 in
  let p1 := V2 1.0 0.0 in
  let circle_center := V2 0.0 (-1.0) in
  let radius := 1.0 in
  let result := line_circle_intr p0 p1 radius circle_center 1e-5 in
  LC_same result (LCTangentIntersect 0.5)
  && (true)) = true.
Proof. vm_compute. reflexivity. Qed.

Example LC_tangent_at_start_point : (let p0 := V2 161.29 113.665 in
  let p1 := V2 167.64 113.665 in
  let circle_center := V2 161.29 114.30000000000001 in
  let radius := 0.634999999999998 in
  let result := line_circle_intr p0 p1 radius circle_center 1e-5 in
  LC_same result (LCTangentIntersect 0.0)
  && (true)) = true.
Proof. vm_compute. reflexivity. Qed.

(** ** test_circle_circle_intersect.rs *)
Example CC_no_intersect_outside : (let r1 := 1.0 in
  let c1 := V2 (-1.0) (-1.0) in
  let r2 := 0.5 in
  let c2 := V2 0.0 5.0 in
  let result := circle_circle_intr r1 c1 r2 c2 1e-5 in
  CC_same result (CCNoIntersect)
  && (true)) = true.
Proof. vm_compute. reflexivity. Qed.

Example CC_no_intersect_inside : (let r1 := 5.0 in
  let c1 := V2 (-1.0) (-1.0) in
  let r2 := 0.5 in
  let c2 := V2 1.0 1.0 in
  let result := circle_circle_intr r1 c1 r2 c2 1e-5 in
  CC_same result (CCNoIntersect)
  && (true)) = true.
Proof. vm_compute. reflexivity. Qed.

Example CC_tangent_intersect_outside : (let r1 := 1.0 in
  let c1 := V2 (-1.0) 1.0 in
  let r2 := 0.5 in
  let c2 := V2 0.5 1.0 in
  let result := circle_circle_intr r1 c1 r2 c2 1e-5 in
  CC_same result (CCTangentIntersect (V2 0.0 1.0))
  && (true)) = true.
Proof. vm_compute. reflexivity. Qed.

Example CC_tangent_intersect_inside : (let r1 := 3.0 in
  let c1 := V2 0.0 1.0 in
  let r2 := 4.0 in
  let c2 := V2 0.0 0.0 in
  let result := circle_circle_intr r1 c1 r2 c2 1e-5 in
  CC_same result (CCTangentIntersect (V2 0.0 4.0))
  && (true)) = true.
Proof. vm_compute. reflexivity. Qed.

Example CC_two_intersects : (let r1 := 3.0 in
  let c1 := V2 0.0 1.0 in
  let r2 := 4.0 in
  let c2 := V2 5.0 5.0 in
  let result := circle_circle_intr r1 c1 r2 c2 1e-5 in
  let expected_point1 := V2 2.945782625365772 1.567771718292785 in
  let expected_point2 := V2 1.2005588380488623 3.749301452438922 in
  CC_same result (CCTwoIntersects expected_point1 expected_point2)
  && (true)) = true.
Proof. vm_compute. reflexivity. Qed.

Example CC_overlapping : (let r1 := 1.0 in
  let c1 := V2 (-1.0) 1.0 in
  let r2 := r1 in
  let c2 := c1 in
  let result := circle_circle_intr r1 c1 r2 c2 1e-5 in
  CC_same result (CCOverlapping)
  && (true)) = true.
Proof. vm_compute. reflexivity. Qed.

(** ** test_pline_seg_intersect.rs *)
Example SI_arc_line_no_intersect : (let v1 := Vtx 0.0 0.0 1.0 in
  let v2 := Vtx 2.0 0.0 0.0 in
  let u1 := Vtx 0.0 1.0 0.0 in
  let u2 := Vtx 2.0 3.0 0.0 in
  let result := pline_seg_intr v1 v2 u1 u2 1e-5 in
  SI_same result (SINoIntersect)
  && (true)) = true.
Proof. vm_compute. reflexivity. Qed.

Example SI_line_arc_no_intersect : (let v1 := Vtx 0.0 1.0 0.0 in
  let v2 := Vtx 2.0 3.0 0.0 in
  let u1 := Vtx 0.0 0.0 1.0 in
  let u2 := Vtx 2.0 0.0 0.0 in
  let result := pline_seg_intr v1 v2 u1 u2 1e-5 in
  SI_same result (SINoIntersect)
  && (true)) = true.
Proof. vm_compute. reflexivity. Qed.

Example SI_overlapping_lines : (let v1 := Vtx 3.0 3.0 0.0 in
  let v2 := Vtx 1.0 1.0 0.0 in
  let u1 := Vtx 1.0 1.0 0.0 in
  let u2 := Vtx 2.0 2.0 0.0 in
  let result := pline_seg_intr v1 v2 u1 u2 1e-5 in
  SI_same result (SIOverlapLines (V2 1.0 1.0) (V2 2.0 2.0))
  && (true)) = true.
Proof. vm_compute. reflexivity. Qed.

Example SI_overlapping_lines_reverse_dir : (let v1 := Vtx 1.0 1.0 0.0 in
  let v2 := Vtx 3.0 3.0 0.0 in
  let u1 := Vtx 2.0 2.0 0.0 in
  let u2 := Vtx 1.0 1.0 0.0 in
  let result := pline_seg_intr v1 v2 u1 u2 1e-5 in
  SI_same result (SIOverlapLines (V2 2.0 2.0) (V2 1.0 1.0))
  && (true)) = true.
Proof. vm_compute. reflexivity. Qed.

Example SI_overlapping_same_arcs : (let v1 := Vtx 1.0 1.0 1.0 in
  let v2 := Vtx 3.0 3.0 0.0 in
  let u1 := Vtx 1.0 1.0 1.0 in
  let u2 := Vtx 3.0 3.0 0.0 in
  let result := pline_seg_intr v1 v2 u1 u2 1e-5 in
  SI_same result (SIOverlapArcs (V2 1.0 1.0) (V2 3.0 3.0))
  && (true)) = true.
Proof. vm_compute. reflexivity. Qed.

Example SI_overlapping_same_arcs_reverse_dir : (let v1 := Vtx 3.0 3.0 (-1.0) in
  let v2 := Vtx 1.0 1.0 0.0 in
  let u1 := Vtx 1.0 1.0 1.0 in
  let u2 := Vtx 3.0 3.0 0.0 in
  let result := pline_seg_intr v1 v2 u1 u2 1e-5 in
  SI_same result (SIOverlapArcs (V2 1.0 1.0) (V2 3.0 3.0))
  && (true)) = true.
Proof. vm_compute. reflexivity. Qed.

Example SI_arc_arc_end_points_touch : (let v1 := Vtx 3.0 3.0 1.0 in
  let v2 := Vtx 1.0 1.0 0.0 in
  let u1 := Vtx 1.0 1.0 1.0 in
  let u2 := Vtx 3.0 3.0 0.0 in
  let result := pline_seg_intr v1 v2 u1 u2 1e-5 in
  SI_same result (SITwo (V2 1.0 1.0) (V2 3.0 3.0))
  && (true)) = true.
Proof. vm_compute. reflexivity. Qed.

Example SI_arc_arc_end_points_touch_reverse_dir : (let v1 := Vtx 1.0 1.0 (-1.0) in
  let v2 := Vtx 3.0 3.0 0.0 in
  let u1 := Vtx 1.0 1.0 1.0 in
  let u2 := Vtx 3.0 3.0 0.0 in
  let result := pline_seg_intr v1 v2 u1 u2 1e-5 in
  SI_same result (SITwo (V2 1.0 1.0) (V2 3.0 3.0))
  && (true)) = true.
Proof. vm_compute. reflexivity. Qed.

Example SI_arc2_within_arc1_overlapping : (let v1 := Vtx 1.0 1.0 1.0 in
  let v2 := Vtx 3.0 1.0 0.0 in
  let bulge := bulge_from_angle (npi / 2) in
  let u1 := Vtx 2.0 0.0 bulge in
  let u2 := Vtx 3.0 1.0 0.0 in
  let result := pline_seg_intr v1 v2 u1 u2 1e-5 in
  SI_same result (SIOverlapArcs (V2 2.0 0.0) (V2 3.0 1.0))
  && (true)) = true.
Proof. vm_compute. reflexivity. Qed.

Example SI_arc1_within_arc2_overlapping : (let v1 := Vtx 1.0 1.0 1.0 in
  let v2 := Vtx 3.0 1.0 0.0 in
  let bulge := bulge_from_angle (npi / 2) in
  let u1 := Vtx 2.0 0.0 bulge in
  let u2 := Vtx 3.0 1.0 0.0 in
  let result := pline_seg_intr u1 u2 v1 v2 1e-5 in
  SI_same result (SIOverlapArcs (V2 2.0 0.0) (V2 3.0 1.0))
  && (true)) = true.
Proof. vm_compute. reflexivity. Qed.

Example SI_arc2_within_arc1_overlapping_reverse_dir : (let v1 := Vtx 1.0 1.0 1.0 in
  let v2 := Vtx 3.0 1.0 0.0 in
  let bulge := bulge_from_angle (npi / 2) in
  let u1 := Vtx 3.0 1.0 (-bulge) in
  let u2 := Vtx 2.0 0.0 0.0 in
  let result := pline_seg_intr v1 v2 u1 u2 1e-5 in
  SI_same result (SIOverlapArcs (V2 3.0 1.0) (V2 2.0 0.0))
  && (true)) = true.
Proof. vm_compute. reflexivity. Qed.

Example SI_arc1_within_arc2_overlapping_reverse_dir : (let v1 := Vtx 1.0 1.0 1.0 in
  let v2 := Vtx 3.0 1.0 0.0 in
  let bulge := bulge_from_angle (npi / 2) in
  let u1 := Vtx 3.0 1.0 (-bulge) in
  let u2 := Vtx 2.0 0.0 0.0 in
  let result := pline_seg_intr u1 u2 v1 v2 1e-5 in
  SI_same result (SIOverlapArcs (V2 2.0 0.0) (V2 3.0 1.0))
  && (true)) = true.
Proof. vm_compute. reflexivity. Qed.

Example SI_arc_arc_partial_overlap : (let v1 := Vtx 1.0 1.0 1.0 in
  let v2 := Vtx 3.0 1.0 0.0 in
  let u1 := Vtx 2.0 0.0 1.0 in
  let u2 := Vtx 2.0 2.0 0.0 in
  let result := pline_seg_intr v1 v2 u1 u2 1e-5 in
  SI_same result (SIOverlapArcs (V2 2.0 0.0) (V2 3.0 1.0))
  && (true)) = true.
Proof. vm_compute. reflexivity. Qed.

Example SI_arc_arc_partial_overlap_flipped : (let v1 := Vtx 1.0 1.0 1.0 in
  let v2 := Vtx 3.0 1.0 0.0 in
  let u1 := Vtx 2.0 0.0 1.0 in
  let u2 := Vtx 2.0 2.0 0.0 in
  let result := pline_seg_intr u1 u2 v1 v2 1e-5 in
  SI_same result (SIOverlapArcs (V2 2.0 0.0) (V2 3.0 1.0))
  && (true)) = true.
Proof. vm_compute. reflexivity. Qed.

Example SI_arc_arc_partial_overlap_arc2_reverse_dir : (let v1 := Vtx 1.0 1.0 1.0 in
  let v2 := Vtx 3.0 1.0 0.0 in
  let u1 := Vtx 2.0 2.0 (-1.0) in
  let u2 := Vtx 2.0 0.0 0.0 in
  let result := pline_seg_intr v1 v2 u1 u2 1e-5 in
  SI_same result (SIOverlapArcs (V2 3.0 1.0) (V2 2.0 0.0))
  && (true)) = true.
Proof. vm_compute. reflexivity. Qed.

Example SI_arc_arc_partial_overlap_arc2_reverse_dir_flipped : (let v1 := Vtx 1.0 1.0 1.0 in
  let v2 := Vtx 3.0 1.0 0.0 in
  let u1 := Vtx 2.0 2.0 (-1.0) in
  let u2 := Vtx 2.0 0.0 0.0 in
  let result := pline_seg_intr u1 u2 v1 v2 1e-5 in
  SI_same result (SIOverlapArcs (V2 2.0 0.0) (V2 3.0 1.0))
  && (true)) = true.
Proof. vm_compute. reflexivity. Qed.

Example SI_arc_arc_partial_overlap_arc1_reverse_dir : (let v1 := Vtx 3.0 1.0 (-1.0) in
  let v2 := Vtx 1.0 1.0 0.0 in
  let u1 := Vtx 2.0 0.0 1.0 in
  let u2 := Vtx 2.0 2.0 0.0 in
  let result := pline_seg_intr v1 v2 u1 u2 1e-5 in
  SI_same result (SIOverlapArcs (V2 2.0 0.0) (V2 3.0 1.0))
  && (true)) = true.
Proof. vm_compute. reflexivity. Qed.

Example SI_arc_arc_partial_overlap_arc1_reverse_dir_flipped : (let v1 := Vtx 3.0 1.0 (-1.0) in
  let v2 := Vtx 1.0 1.0 0.0 in
  let u1 := Vtx 2.0 0.0 1.0 in
  let u2 := Vtx 2.0 2.0 0.0 in
  let result := pline_seg_intr u1 u2 v1 v2 1e-5 in
  SI_same result (SIOverlapArcs (V2 3.0 1.0) (V2 2.0 0.0))
  && (true)) = true.
Proof. vm_compute. reflexivity. Qed.

(** ** test_pline_winding_number.rs *)
Definition turns (p : pline float) (q : vec2 float) (n : Z) : bool :=
  is_ret_true (let! w := winding_number p q in Ret (Z.eqb w n)) && is_ret_true (let! w := winding_number (inverted p) q in Ret (Z.eqb w (- n))).

Example WN_point_and_circle : (let pl := PL [Vtx 0 0 1; Vtx 1 0 1] true in
  turns pl (V2 0.5 0) 1 && turns pl (V2 2 0) 0) = true.
Proof. vm_compute. reflexivity. Qed.

Example WN_point_and_rectangle : (let pl := PL [Vtx 0 0 0; Vtx 4 0 0; Vtx 4 4 0; Vtx 0 4 0] true in
  turns pl (V2 1 1) 1 && turns pl (V2 (-1) 1) 0) = true.
Proof. vm_compute. reflexivity. Qed.

Example WN_multiple_windings : (let pl := PL [Vtx 0 0 1; Vtx 2 0 1; Vtx 0 0 1; Vtx 2 0 1] true in
  turns pl (V2 0.5 0) 2 && turns pl (V2 2 0) 0) = true.
Proof. vm_compute. reflexivity. Qed.

Example WN_point_outside_aligned_with_direction_vectors1 :
  (let pl := PL [Vtx (-10) 0 1; Vtx 10 0 0; Vtx 20 0 0; Vtx 20 (-10) 0; Vtx (-20) (-10) 0; Vtx (-20) 0 0] true in
  is_ret_true (let! w := winding_number pl (V2 0 0) in Ret (Z.eqb w 0))) = true.
Proof. vm_compute. reflexivity. Qed.

Example WN_point_outside_aligned_with_direction_vectors2 :
  (let pl := PL [Vtx (-5.51073e-15) (-30) 0.269712; Vtx 26.0788 (-14.8288) 0; Vtx 76.0788 73.104 0.12998; Vtx 80 87.9329 0;
                 Vtx 80 130 0; Vtx 50 130 0; Vtx 50 95 (-0.414214); Vtx 40 85 0; Vtx 0 85 0] true in
  is_ret_true (let! w := winding_number pl (V2 (-20) 85) in Ret (Z.eqb w 0))) = true.
Proof. vm_compute. reflexivity. Qed.
