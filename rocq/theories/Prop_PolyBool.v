(** C63: boolean operations on loops that do not meet, and on polygons that clearly cross or do not. *)
From Coq Require Import Reals ZArith Bool List.
From Verif Require Import Num RNum Res ModelMath ModelSeg ModelPline ModelIndex ModelIntersects ModelBoolean.
From Verif Require Import Spec SpecGeom SpecBox SpecView SpecBoolean SpecIndex SpecPrune SpecRegion SpecPolyBool.
From Verif Require Import ProofIndex2 ProofWinding6 ProofNest ProofPolyBool ProofPolyBool2.
Import ListNotations.
Local Open Scope R_scope.

(** Two loops without a common point are one inside the other or apart, as the winding numbers of each around the
    first vertex of the other say. *)
Theorem C63_relation (p1 p2 : pline R) a b w12 w21 : pline_ok p1 -> pline_ok p2 -> valid_loop p1 -> valid_loop p2 ->
  (forall q, ~ (on_path p1 q /\ on_path p2 q)) -> nth_error (vtx p1) 0 = Some a -> nth_error (vtx p2) 0 = Some b ->
  winding_number p2 (pos a) = Ret w12 -> winding_number p1 (pos b) = Ret w21 ->
  related (fun p x => ~ on_path p1 x /\ ~ on_path p2 x /\ inside p x = true) (relation w12 w21) p1 p2.
Proof. exact (relation_winding p1 p2 a b w12 w21). Qed.
Print Assumptions C63_relation.

(** An operation on loops (of lines and arcs) without a common point, and none reported, gives some of the loops, and
    of the points on neither exactly those that the operation says are in their region. *)
Theorem C63_apart mk (p1 p2 : pline R) op idx eps boxes :
  index_of boxes idx -> length boxes = length (spec_segs (vtx p1) (is_closed p1)) ->
  valid_loop p1 -> valid_loop p2 -> pline_ok p1 -> pline_ok p2 -> (forall q, ~ (on_path p1 q /\ on_path p2 q)) ->
  find_intersects p1 p2 idx eps = Ret ([], []) ->
  exists r, polyline_boolean mk p1 p2 op idx eps = Ret r
  /\ (forall l, In l (br_pos r ++ br_neg r) -> brp_pline l = p1 \/ brp_pline l = p2)
  /\ forall x, ~ on_path p1 x -> ~ on_path p2 x ->
     (region (fun p y => inside p y = true) r x <-> operation op (inside p1 x = true) (inside p2 x = true)).
Proof. exact (region_apart mk p1 p2 op idx eps boxes). Qed.
Print Assumptions C63_apart.

(** For polygons whose sides clearly cross or are clearly beside each other exactly the common points are reported,
    each once for every pair of sides that it is on. *)
Theorem C63_search (p1 p2 : pline R) eps boxes idx : 0 < eps -> clear_pair eps p1 p2 -> index_of boxes idx ->
  boxes = map (fun s => seg_fast_approx_bounding_box (fst s) (snd s)) (spec_segs (vtx p1) (is_closed p1)) ->
  exists bs, find_intersects p1 p2 idx eps = Ret (bs, []) /\ NoDup bs /\ forall b, In b bs <-> common_point p1 p2 b.
Proof. exact (fun E C => found_common p1 p2 eps E C boxes idx). Qed.
Print Assumptions C63_search.

(** An operation on two such polygons, each of which goes around a point at most once, gives loops along them. If they
    cross, the winding numbers of all loops around a point on neither add up to one or minus one where the operation
    says and to zero elsewhere; if not, the loops to add without those to subtract are the region of the operation. *)
Theorem C63_region mk (p1 p2 : pline R) eps op idx boxes o1 o2 : 0 < eps -> clear_pair eps p1 p2 -> makes_index mk ->
  index_of boxes idx -> boxes = map (fun s => seg_fast_approx_bounding_box (fst s) (snd s)) (spec_segs (vtx p1) (is_closed p1)) ->
  valid_loop p1 -> valid_loop p2 -> simple_loop p1 o1 -> simple_loop p2 o2 ->
  exists r, polyline_boolean mk p1 p2 op idx eps = Ret r
  /\ (forall l, In l (br_pos r ++ br_neg r) -> valid_loop (brp_pline l) /\ pline_ok (brp_pline l)
      /\ forall q, on_path (brp_pline l) q -> on_path p1 q \/ on_path p2 q)
  /\ ((exists q, on_path p1 q /\ on_path p2 q) -> forall x, ~ on_path p1 x -> ~ on_path p2 x ->
      wind_together (map brp_pline (br_pos r ++ br_neg r)) x (once o2 * times_around op (inside p1 x) (inside p2 x))%Z)
  /\ ((forall q, ~ (on_path p1 q /\ on_path p2 q)) -> forall x, ~ on_path p1 x -> ~ on_path p2 x ->
      (region (fun p y => inside p y = true) r x <-> operation op (inside p1 x = true) (inside p2 x = true))).
Proof. exact (fun E C => polygons_region p1 p2 eps E C mk op idx boxes o1 o2). Qed.
Print Assumptions C63_region.

(** Two triangles that cross and two squares, one inside the other and running the other way, are as assumed. *)
Example C63_example_assumptions :
  (let p1 := PL [Vtx 0 0 0; Vtx 6 0 0; Vtx 0 6 0] true in let p2 := PL [Vtx (-2) 1 0; Vtx 2 1 0; Vtx (-2) 3 0] true in
   clear_pair (1 / 100000) p1 p2 /\ simple_loop p1 CounterClockwise /\ simple_loop p2 CounterClockwise /\ common_point p1 p2 (BI 2 0 (V2 0 1)))
  /\ (let p1 := PL [Vtx 0 0 0; Vtx 4 0 0; Vtx 4 4 0; Vtx 0 4 0] true in let p2 := PL [Vtx 1 1 0; Vtx 1 3 0; Vtx 3 3 0; Vtx 3 1 0] true in
   clear_pair (1 / 100000) p1 p2 /\ simple_loop p1 CounterClockwise /\ simple_loop p2 Clockwise /\ forall q, ~ (on_path p1 q /\ on_path p2 q)).
Proof. exact pair_examples. Qed.

(** The difference of the squares is the frame between them. *)
Example C63_example :
  let p1 := PL [Vtx 0 0 0; Vtx 4 0 0; Vtx 4 4 0; Vtx 0 4 0] true in let p2 := PL [Vtx 1 1 0; Vtx 1 3 0; Vtx 3 3 0; Vtx 3 1 0] true in
  exists r, polyline_boolean (@list_index R RNum) p1 p2 BNot
    (list_index (map (fun s => seg_fast_approx_bounding_box (fst s) (snd s)) (spec_segs (vtx p1) true))) (1 / 100000) = Ret r
  /\ region (fun p y => inside p y = true) r (V2 (1 / 2) 2) /\ ~ region (fun p y => inside p y = true) r (V2 2 2).
Proof. exact squares_not. Qed.
