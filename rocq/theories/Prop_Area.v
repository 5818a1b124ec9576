(** C65-C66, C68: the sign of the area, and boolean operations on loops that do not meet themselves. *)
From Coq Require Import Reals ZArith Bool List.
From Verif Require Import Num RNum Res ModelMath ModelSeg ModelPline ModelIndex ModelIntersects ModelBoolean.
From Verif Require Import Spec SpecGeom SpecBox SpecView SpecIndex SpecBoolean SpecPrune SpecRegion SpecPolyOff SpecPolyBool SpecJordan.
From Verif Require Import ProofIndex2 ProofJordan6 ProofArea5 ProofArea6 ProofOverlap ProofOverlap2.
Import ListNotations.
Local Open Scope R_scope.

(** ** C65 *)

(** If a loop (of lines and arcs) goes around no point clockwise, its area is not negative, and positive if it goes
    around some point; and the other way round. *)
Theorem C65_area_sign (p : pline R) o A : pline_ok p -> valid_loop p -> area p = Ret A ->
  (forall x w, ~ on_path p x -> winding_number p x = Ret w -> (0 <= o * w)%Z) ->
  0 <= IZR o * A /\ ((exists x w, ~ on_path p x /\ winding_number p x = Ret w /\ (0 < o * w)%Z) -> 0 < IZR o * A).
Proof. exact (loop_area_sign p o A). Qed.
Print Assumptions C65_area_sign.

(** A loop that passes no point twice has an area of the sign of the direction in which it goes once around every
    point inside, and that direction is the orientation reported. *)
Theorem C65_orientation (p : pline R) : pline_ok p -> valid_loop p -> passes_once p ->
  exists o A, orientation p = Ret o /\ o <> Open /\ area p = Ret A /\ 0 < IZR (once o) * A
  /\ (forall x w, ~ on_path p x -> winding_number p x = Ret w -> w = 0%Z \/ w = once o)
  /\ exists x, ~ on_path p x /\ winding_number p x = Ret (once o).
Proof. exact (loop_direction p). Qed.
Print Assumptions C65_orientation.

(** A polygon without flat corners, every two sides of which without a common corner are beside each other, passes no
    point twice. *)
Theorem C65_polygon eps (qs : list (vec2 R)) : 0 < eps -> lone_polygon eps qs -> passes_once (polygon qs).
Proof. exact (lone_once eps qs). Qed.
Print Assumptions C65_polygon.

(** A half disc, counterclockwise, and an angle, clockwise. *)
Example C65_example :
  (pline_ok ex_half /\ valid_loop ex_half /\ passes_once ex_half /\ orientation ex_half = Ret CounterClockwise)
  /\ let p := polygon [V2 0 0; V2 0 4; V2 2 4; V2 2 2; V2 4 2; V2 4 0] in
     pline_ok p /\ valid_loop p /\ passes_once p /\ orientation p = Ret Clockwise.
Proof. exact direction_examples. Qed.
Print Assumptions C65_example.

(** ** C66 *)

(** An operation on two loops each of which passes no point twice and which cross cleanly gives loops along them, and
    around every point on neither the winding numbers of all loops of the result add up to [w], which is one or minus
    one, where the operation says, and to zero elsewhere (with [- w] where only the points of the first are wanted). *)
Theorem C66_region mk (p1 p2 : pline R) op idx eps boxes bs : makes_index mk ->
  index_of boxes idx -> length boxes = length (spec_segs (vtx p1) (is_closed p1)) ->
  valid_loop p1 -> valid_loop p2 -> 0 < eps -> clear_pline eps p1 -> clear_pline eps p2 -> passes_once p1 -> passes_once p2 ->
  find_intersects p1 p2 idx eps = Ret (bs, []) -> bs <> [] -> clean_crossing eps p1 p2 bs ->
  exists r w, polyline_boolean mk p1 p2 op idx eps = Ret r /\ (w = 1%Z \/ w = (-1)%Z)
  /\ (forall l, In l (br_pos r ++ br_neg r) -> valid_loop (brp_pline l) /\ pline_ok (brp_pline l)
      /\ forall q, on_path (brp_pline l) q -> on_path p1 q \/ on_path p2 q)
  /\ forall x, ~ on_path p1 x -> ~ on_path p2 x ->
     wind_together (map brp_pline (br_pos r ++ br_neg r)) x (w * times_around op (inside p1 x) (inside p2 x))%Z.
Proof. exact (region_once mk p1 p2 op idx eps boxes bs). Qed.
Print Assumptions C66_region.

(** The same for polygons whose sides clearly cross or are clearly beside each other, whether they cross or not. *)
Theorem C66_polygons mk (p1 p2 : pline R) eps op idx boxes : 0 < eps -> clear_pair eps p1 p2 -> makes_index mk ->
  index_of boxes idx -> boxes = map (fun s => seg_fast_approx_bounding_box (fst s) (snd s)) (spec_segs (vtx p1) (is_closed p1)) ->
  valid_loop p1 -> valid_loop p2 -> passes_once p1 -> passes_once p2 ->
  exists r w, polyline_boolean mk p1 p2 op idx eps = Ret r /\ (w = 1%Z \/ w = (-1)%Z)
  /\ (forall l, In l (br_pos r ++ br_neg r) -> valid_loop (brp_pline l) /\ pline_ok (brp_pline l)
      /\ forall q, on_path (brp_pline l) q -> on_path p1 q \/ on_path p2 q)
  /\ ((exists q, on_path p1 q /\ on_path p2 q) -> forall x, ~ on_path p1 x -> ~ on_path p2 x ->
      wind_together (map brp_pline (br_pos r ++ br_neg r)) x (w * times_around op (inside p1 x) (inside p2 x))%Z)
  /\ ((forall q, ~ (on_path p1 q /\ on_path p2 q)) -> forall x, ~ on_path p1 x -> ~ on_path p2 x ->
      (region (fun p y => inside p y = true) r x <-> operation op (inside p1 x = true) (inside p2 x = true))).
Proof. exact (polygons_once mk p1 p2 eps op idx boxes). Qed.
Print Assumptions C66_polygons.

(** The intersection of an angle, clockwise, and a square over its inner corner, counterclockwise: a point in both is
    gone around once, a point of the square beyond the angle not. *)
Example C66_example :
  let p1 := polygon [V2 0 0; V2 0 4; V2 2 4; V2 2 2; V2 4 2; V2 4 0] in let p2 := polygon [V2 1 1; V2 3 1; V2 3 3; V2 1 3] in
  let idx := list_index (map (fun s => seg_fast_approx_bounding_box (fst s) (snd s)) (spec_segs (vtx p1) true)) in
  exists r w, polyline_boolean (@list_index R RNum) p1 p2 BAnd idx (1 / 100000) = Ret r /\ (w = 1%Z \/ w = (-1)%Z)
  /\ wind_together (map brp_pline (br_pos r ++ br_neg r)) (V2 (3 / 2) (3 / 2)) w
  /\ wind_together (map brp_pline (br_pos r ++ br_neg r)) (V2 (5 / 2) (5 / 2)) 0.
Proof. exact ex_both. Qed.
Print Assumptions C66_example.

(** ** C68 *)

(** An operation on two loops (of lines and arcs) each of which passes no point twice, which cross cleanly and overlap:
    a point on neither loop is in the region of the result (inside a positive loop and inside no negative one) exactly
    if the operation says so. *)
Theorem C68_region mk (p1 p2 : pline R) op idx eps boxes bs : makes_index mk ->
  index_of boxes idx -> length boxes = length (spec_segs (vtx p1) (is_closed p1)) ->
  valid_loop p1 -> valid_loop p2 -> 0 < eps -> clear_pline eps p1 -> clear_pline eps p2 -> passes_once p1 -> passes_once p2 ->
  find_intersects p1 p2 idx eps = Ret (bs, []) -> bs <> [] -> clean_crossing eps p1 p2 bs -> overlap p1 p2 ->
  exists r, polyline_boolean mk p1 p2 op idx eps = Ret r
  /\ forall x, ~ on_path p1 x -> ~ on_path p2 x ->
     (region (fun p y => inside p y = true) r x <-> operation op (inside p1 x = true) (inside p2 x = true)).
Proof. exact (overlap_region mk p1 p2 op idx eps boxes bs). Qed.
Print Assumptions C68_region.

(** For polygons whose sides clearly cross or are clearly beside each other nothing need be known of the crossings:
    the region is right whether or not they meet. *)
Theorem C68_polygons mk (p1 p2 : pline R) eps op idx boxes : 0 < eps -> clear_pair eps p1 p2 -> makes_index mk ->
  index_of boxes idx -> boxes = map (fun s => seg_fast_approx_bounding_box (fst s) (snd s)) (spec_segs (vtx p1) (is_closed p1)) ->
  valid_loop p1 -> valid_loop p2 -> passes_once p1 -> passes_once p2 ->
  exists r, polyline_boolean mk p1 p2 op idx eps = Ret r
  /\ forall x, ~ on_path p1 x -> ~ on_path p2 x ->
     (region (fun p y => inside p y = true) r x <-> operation op (inside p1 x = true) (inside p2 x = true)).
Proof. exact (polygons_region_all mk p1 p2 eps op idx boxes). Qed.
Print Assumptions C68_polygons.

(** Such polygons overlap if they have a common point. *)
Theorem C68_overlap eps (p1 p2 : pline R) q : 0 < eps -> clear_pair eps p1 p2 -> valid_loop p1 -> valid_loop p2 ->
  passes_once p1 -> passes_once p2 -> on_path p1 q -> on_path p2 q -> overlap p1 p2.
Proof. exact (polygons_overlap eps p1 p2 q). Qed.
Print Assumptions C68_overlap.

(** All operations on the angle and the square of C66, at a point inside both and at a point inside the square only. *)
Example C68_example op :
  let p1 := polygon [V2 0 0; V2 0 4; V2 2 4; V2 2 2; V2 4 2; V2 4 0] in let p2 := polygon [V2 1 1; V2 3 1; V2 3 3; V2 1 3] in
  let idx := list_index (map (fun s => seg_fast_approx_bounding_box (fst s) (snd s)) (spec_segs (vtx p1) true)) in
  exists r, polyline_boolean (@list_index R RNum) p1 p2 op idx (1 / 100000) = Ret r
  /\ (region (fun p y => inside p y = true) r (V2 (3 / 2) (3 / 2)) <-> op = BOr \/ op = BAnd)
  /\ (region (fun p y => inside p y = true) r (V2 (5 / 2) (5 / 2)) <-> op = BOr \/ op = BXor).
Proof. exact (ex_all op). Qed.
Print Assumptions C68_example.
