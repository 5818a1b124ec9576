(** C72: winding numbers determine areas, and the areas of boolean results add up. *)
From Coq Require Import Reals ZArith Bool List.
From Verif Require Import Num RNum Res ModelMath ModelSeg ModelPline ModelIndex ModelIntersects ModelBoolean.
From Verif Require Import Spec SpecGeom SpecBox SpecBoolean SpecIndex SpecPrune SpecRegion SpecPolyBool SpecJordan SpecCircle SpecCurve SpecOffset SpecPolyOff SpecTotal.
From Verif Require Import ProofIndex2 ProofJordan6 ProofCurveEx ProofTotal3 ProofTotal4.
Import ListNotations.
Local Open Scope R_scope.

(** If some loops, counted with weights, wind around no point off them more often than some others, they have no larger
    area. *)
Theorem C72_winding (F G : list (Z * pline R)) a b : (forall e, In e (F ++ G) -> valid_loop (snd e) /\ pline_ok (snd e)) ->
  (forall x v w, (forall e, In e (F ++ G) -> ~ on_path (snd e) x) -> weighed_winding F x v -> weighed_winding G x w -> (v <= w)%Z) ->
  weighed_area F a -> weighed_area G b -> a <= b.
Proof. exact (weighed_le F G a b). Qed.
Print Assumptions C72_winding.

(** A loop inside another one has no larger area. *)
Theorem C72_nested (p1 p2 : pline R) A1 A2 : pline_ok p1 -> pline_ok p2 -> valid_loop p1 -> valid_loop p2 -> passes_once p1 -> passes_once p2 ->
  area p1 = Ret A1 -> area p2 = Ret A2 -> (forall x, ~ on_path p1 x -> ~ on_path p2 x -> inside p1 x = true -> inside p2 x = true) -> Rabs A1 <= Rabs A2.
Proof. exact (nested_area p1 p2 A1 A2). Qed.
Print Assumptions C72_nested.

(** Every loop in the result of an operation on two loops of C71 winds at most once around any point, in the direction
    of its orientation, and every point off the two loops is covered once if it is in the region of the operation (the
    loops to subtract taken off) and otherwise not at all. *)
Theorem C72_loops mk (p1 p2 : pline R) eps op idx boxes : 0 < eps -> clear_loops eps p1 p2 -> makes_index mk ->
  index_of boxes idx -> boxes = map (fun s => seg_fast_approx_bounding_box (fst s) (snd s)) (spec_segs (vtx p1) (is_closed p1)) ->
  valid_loop p1 -> valid_loop p2 -> passes_once p1 -> passes_once p2 ->
  exists r, polyline_boolean mk p1 p2 op idx eps = Ret r
  /\ (forall l, In l (br_pos r ++ br_neg r) -> exists o, simple_loop (brp_pline l) o /\ o <> Open)
  /\ forall x, ~ on_path p1 x -> ~ on_path p2 x ->
     (operation op (inside p1 x = true) (inside p2 x = true) -> covers r x = 1%Z)
     /\ (~ operation op (inside p1 x = true) (inside p2 x = true) -> covers r x = 0%Z).
Proof. exact (loops_cover mk p1 p2 eps op idx boxes). Qed.
Print Assumptions C72_loops.

(** The areas of the results of the four operations on two loops of C71 add up to those of the loops. *)
Theorem C72_areas mk (p1 p2 : pline R) eps idx boxes A1 A2 : 0 < eps -> clear_loops eps p1 p2 -> makes_index mk ->
  index_of boxes idx -> boxes = map (fun s => seg_fast_approx_bounding_box (fst s) (snd s)) (spec_segs (vtx p1) (is_closed p1)) ->
  valid_loop p1 -> valid_loop p2 -> passes_once p1 -> passes_once p2 -> area p1 = Ret A1 -> area p2 = Ret A2 ->
  exists m : boolean_op -> R, (forall op, exists r, polyline_boolean mk p1 p2 op idx eps = Ret r /\ net_area r (m op))
  /\ m BOr + m BAnd = Rabs A1 + Rabs A2 /\ m BNot + m BAnd = Rabs A1 /\ m BXor + m BAnd = m BOr /\ 0 <= m BAnd <= Rmin (Rabs A1) (Rabs A2).
Proof. exact (loops_areas mk p1 p2 eps idx boxes A1 A2). Qed.
Print Assumptions C72_areas.

Theorem C72_circle_area c u r b : unit_vec u -> b = 1 \/ b = -1 -> 0 < r -> area (circle c u r b) = Ret (b * (PI * (r * r))).
Proof. exact (disc_area c u b r). Qed.
Print Assumptions C72_circle_area.

Theorem C72_circles mk c1 u1 b1 r1 c2 u2 b2 r2 eps idx boxes : unit_vec u1 -> b1 = 1 \/ b1 = -1 -> unit_vec u2 -> b2 = 1 \/ b2 = -1 ->
  0 < eps -> clear_circles eps c1 u1 r1 c2 u2 r2 -> makes_index mk -> index_of boxes idx ->
  boxes = map (fun s => seg_fast_approx_bounding_box (fst s) (snd s))
            (spec_segs (vtx (circle c1 u1 r1 b1)) (is_closed (circle c1 u1 r1 b1))) ->
  exists m : boolean_op -> R,
    (forall op, exists r, polyline_boolean mk (circle c1 u1 r1 b1) (circle c2 u2 r2 b2) op idx eps = Ret r /\ net_area r (m op))
  /\ m BOr + m BAnd = PI * (r1 * r1) + PI * (r2 * r2) /\ m BNot + m BAnd = PI * (r1 * r1) /\ m BXor + m BAnd = m BOr
  /\ 0 <= m BAnd <= Rmin (PI * (r1 * r1)) (PI * (r2 * r2)).
Proof. exact (discs_areas mk c1 u1 b1 r1 c2 u2 b2 r2 eps idx boxes). Qed.
Print Assumptions C72_circles.

(** The circles about the origin of radius 3 and 1 against twice the circle of radius 4. *)
Example C72_example_winding : let ring r := circle (V2 0 0) (V2 1 0) r 1 in
  let F := [(1%Z, ring 3); (1%Z, ring 1)] in let G := [(2%Z, ring 4)] in
  (forall e, In e (F ++ G) -> valid_loop (snd e) /\ pline_ok (snd e))
  /\ (forall x v w, (forall e, In e (F ++ G) -> ~ on_path (snd e) x) -> weighed_winding F x v -> weighed_winding G x w -> (v <= w)%Z)
  /\ weighed_area F (10 * PI) /\ weighed_area G (32 * PI).
Proof. exact ex_weighed. Qed.

(** The two crossing circles and the half disc and rectangle of C71. *)
Example C72_example_circles : let p1 := circle (V2 0 0) (V2 1 0) 5 1 in let p2 := circle (V2 6 0) (V2 1 0) 5 (-1) in
  exists m : boolean_op -> R,
  (forall op, exists r, polyline_boolean (@list_index R RNum) p1 p2 op (ex_index p1) (1 / 100000) = Ret r /\ net_area r (m op))
  /\ m BOr + m BAnd = 50 * PI /\ m BNot + m BAnd = 25 * PI /\ m BXor + m BAnd = m BOr.
Proof. exact ex_circles_areas. Qed.

Example C72_example_loops :
  let p1 := PL [Vtx (-1) 0 1; Vtx 1 0 0] true in let p2 := polygon [V2 (3 / 5) (-2); V2 2 (-2); V2 2 2; V2 (3 / 5) 2] in
  exists m : boolean_op -> R,
  (forall op, exists r, polyline_boolean (@list_index R RNum) p1 p2 op (ex_index p1) (1 / 100000) = Ret r /\ net_area r (m op))
  /\ m BOr + m BAnd = PI / 2 + 28 / 5 /\ m BNot + m BAnd = PI / 2 /\ m BXor + m BAnd = m BOr /\ 0 <= m BAnd <= PI / 2.
Proof. exact ex_loops_areas. Qed.
