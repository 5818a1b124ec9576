(** C50-C51: where the winding number changes, and the region of a boolean operation. *)
From Coq Require Import Reals ZArith Bool List.
From Verif Require Import Num RNum Res ModelMath ModelSeg ModelPline ModelIndex ModelIntersects ModelBoolean.
From Verif Require Import Spec SpecGeom SpecBox SpecView SpecBoolean SpecIndex SpecPrune SpecRegion.
From Verif Require Import ProofIndex2 ProofWinding6 ProofRegion11 ProofRegion12.
Import ListNotations.
Local Open Scope R_scope.

(** ** C50 *)

(** The winding number is the same around two points if the line between them does not meet the path. *)
Theorem C50_straight (p : pline R) x x' : pline_ok p -> (forall t, 0 <= t <= 1 -> ~ on_path p (line_pt x x' t)) ->
  winding_number p x = winding_number p x'.
Proof. exact (winding_straight p x x'). Qed.
Print Assumptions C50_straight.

(** It is the same around all points near a point not on the path, and they are not on the path. *)
Theorem C50_local (p : pline R) x : pline_ok p -> ~ on_path p x ->
  exists e, 0 < e /\ forall x', dist x x' < e -> ~ on_path p x' /\ winding_number p x' = winding_number p x.
Proof. exact (winding_local p x). Qed.
Print Assumptions C50_local.

(** It is the same at both ends of a continuous curve that does not meet the path. *)
Theorem C50_curve (p : pline R) (x y : R -> R) : pline_ok p -> continuity x -> continuity y ->
  (forall t, 0 <= t <= 1 -> ~ on_path p (V2 (x t) (y t))) -> winding_number p (V2 (x 0) (y 0)) = winding_number p (V2 (x 1) (y 1)).
Proof. exact (winding_curve p x y). Qed.
Print Assumptions C50_curve.

(** Every curve from inside a triangle to a point outside meets it. *)
Example C50_example : let p := PL [Vtx 0 0 0; Vtx 6 0 0; Vtx 0 6 0] true in
  winding_number p (V2 1 1) = Ret 1%Z /\ winding_number p (V2 7 7) = Ret 0%Z
  /\ forall x y, continuity x -> continuity y -> V2 (x 0) (y 0) = V2 1 1 -> V2 (x 1) (y 1) = V2 7 7 ->
     ~ forall t, 0 <= t <= 1 -> ~ on_path p (V2 (x t) (y t)).
Proof. exact tri_way_out. Qed.

(** ** C51 *)

(** The loops of the result lie on the given loops, and around every point on neither the winding numbers of all
    loops of the result add up to one or minus one where the operation says, and to zero elsewhere. *)
Theorem C51_region mk (p1 p2 : pline R) op idx eps boxes bs o1 o2 : makes_index mk ->
  index_of boxes idx -> length boxes = length (spec_segs (vtx p1) (is_closed p1)) ->
  valid_loop p1 -> valid_loop p2 -> 0 < eps -> clear_pline eps p1 -> clear_pline eps p2 -> simple_loop p1 o1 -> simple_loop p2 o2 ->
  find_intersects p1 p2 idx eps = Ret (bs, []) -> bs <> [] -> clean_crossing eps p1 p2 bs ->
  exists r, polyline_boolean mk p1 p2 op idx eps = Ret r
  /\ (forall l, In l (br_pos r ++ br_neg r) -> valid_loop (brp_pline l) /\ pline_ok (brp_pline l)
      /\ forall q, on_path (brp_pline l) q -> on_path p1 q \/ on_path p2 q)
  /\ forall x, ~ on_path p1 x -> ~ on_path p2 x ->
     wind_together (map brp_pline (br_pos r ++ br_neg r)) x (once o2 * times_around op (inside p1 x) (inside p2 x))%Z.
Proof. exact (region_crossing mk p1 p2 op idx eps boxes bs o1 o2). Qed.
Print Assumptions C51_region.

(** The winding numbers are not zero exactly where the operation says. *)
Theorem C51_times op (in1 in2 : bool) : (times_around op in1 in2 <> 0%Z <-> operation op (in1 = true) (in2 = true))
  /\ (-1 <= times_around op in1 in2 <= 1)%Z.
Proof. exact (times_operation op in1 in2). Qed.
Print Assumptions C51_times.

(** Two triangles that cross twice are as assumed. *)
Example C51_example_assumptions :
  let p1 := PL [Vtx 0 0 0; Vtx 6 0 0; Vtx 0 6 0] true in
  let p2 := PL [Vtx (-2) 1 0; Vtx 2 1 0; Vtx (-2) 3 0] true in
  let boxes := map (fun s => seg_fast_approx_bounding_box (fst s) (snd s)) (spec_segs (vtx p1) (is_closed p1)) in
  let bs := [BI 2 0 (V2 0 1); BI 2 1 (V2 0 2)] in
  let eps := 1 / 100000 in
  index_of boxes (list_index boxes) /\ length boxes = length (spec_segs (vtx p1) (is_closed p1))
  /\ valid_loop p1 /\ valid_loop p2 /\ clear_pline eps p1 /\ clear_pline eps p2
  /\ simple_loop p1 CounterClockwise /\ simple_loop p2 CounterClockwise
  /\ find_intersects p1 p2 (list_index boxes) eps = Ret (bs, []) /\ clean_crossing eps p1 p2 bs.
Proof. exact triangles. Qed.

(** The points inside both, counted for each operation: once for a union or intersection, otherwise not. *)
Example C51_example :
  let p1 := PL [Vtx 0 0 0; Vtx 6 0 0; Vtx 0 6 0] true in
  let p2 := PL [Vtx (-2) 1 0; Vtx 2 1 0; Vtx (-2) 3 0] true in
  let boxes := map (fun s => seg_fast_approx_bounding_box (fst s) (snd s)) (spec_segs (vtx p1) (is_closed p1)) in
  forall op, exists r, polyline_boolean (@list_index R RNum) p1 p2 op (list_index boxes) (1 / 100000) = Ret r
  /\ forall x y, 0 < x -> 1 < y -> x + 2 * y < 4 ->
     wind_together (map brp_pline (br_pos r ++ br_neg r)) (V2 x y) (match op with BOr | BAnd => 1 | BNot | BXor => 0 end)%Z.
Proof. exact triangles_op. Qed.
