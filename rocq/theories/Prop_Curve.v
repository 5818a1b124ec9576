(** C71: boolean operations on loops of lines and arcs that clearly cross or clearly do not meet, and on circles. *)
From Coq Require Import Reals ZArith Bool List.
From Verif Require Import Num RNum Res ModelMath ModelSeg ModelPline ModelIndex ModelSegIntr ModelIntersects ModelBoolean.
From Verif Require Import Spec SpecGeom SpecBox SpecView SpecBoolean SpecIndex SpecSegIntr SpecPrune SpecRegion SpecPolyOff SpecPolyBool SpecJordan SpecCircle SpecCurve.
From Verif Require Import ProofIndex2 ProofCurve1 ProofCurve2 ProofCurve3 ProofDisc ProofDisc2 ProofJordan6 ProofCurveEx.
Import ListNotations.
Local Open Scope R_scope.

(** Of two segments that clearly cross or clearly miss each other exactly the common points are reported, each once,
    and no overlap. *)
Theorem C71_segments eps (v1 v2 u1 u2 : vertex R) : 0 < eps -> seg_ok v1 v2 -> seg_ok u1 u2 -> sides_clear eps v1 v2 u1 u2 ->
  let i := pline_seg_intr v1 v2 u1 u2 eps in
  no_overlap i /\ (forall q, reported i q <-> on_seg v1 v2 q /\ on_seg u1 u2 q) /\ (forall p q, i = SITwo p q -> p <> q).
Proof. exact (sides_exact eps v1 v2 u1 u2). Qed.
Print Assumptions C71_segments.

(** For two loops every pair of segments of which is of that kind the search reports exactly the common points, each
    once for the pair of segments that it is on. *)
Theorem C71_search (p1 p2 : pline R) eps boxes idx : 0 < eps -> clear_loops eps p1 p2 -> index_of boxes idx ->
  boxes = map (fun s => seg_fast_approx_bounding_box (fst s) (snd s)) (spec_segs (vtx p1) (is_closed p1)) ->
  exists bs, find_intersects p1 p2 idx eps = Ret (bs, []) /\ NoDup bs /\ forall b, In b bs <-> common_point p1 p2 b.
Proof. exact (fun E C => loops_found p1 p2 eps E C boxes idx). Qed.
Print Assumptions C71_search.

(** If two such loops, which pass no point twice, have a common point, their insides overlap. *)
Theorem C71_overlap eps (p1 p2 : pline R) q : 0 < eps -> clear_loops eps p1 p2 -> valid_loop p1 -> valid_loop p2 ->
  passes_once p1 -> passes_once p2 -> on_path p1 q -> on_path p2 q -> overlap p1 p2.
Proof. exact (loops_overlap eps p1 p2 q). Qed.
Print Assumptions C71_overlap.

(** An operation on two such loops gives valid loops along them; of the points on neither exactly those are inside a
    loop to add and inside no loop to subtract that the operation says. *)
Theorem C71_region mk (p1 p2 : pline R) eps op idx boxes : 0 < eps -> clear_loops eps p1 p2 -> makes_index mk ->
  index_of boxes idx -> boxes = map (fun s => seg_fast_approx_bounding_box (fst s) (snd s)) (spec_segs (vtx p1) (is_closed p1)) ->
  valid_loop p1 -> valid_loop p2 -> passes_once p1 -> passes_once p2 ->
  exists r, polyline_boolean mk p1 p2 op idx eps = Ret r
  /\ (forall l, In l (br_pos r ++ br_neg r) -> valid_loop (brp_pline l) /\ pline_ok (brp_pline l)
      /\ forall q, on_path (brp_pline l) q -> on_path p1 q \/ on_path p2 q)
  /\ forall x, ~ on_path p1 x -> ~ on_path p2 x ->
     (region (fun p y => inside p y = true) r x <-> operation op (inside p1 x = true) (inside p2 x = true)).
Proof. exact (loops_region mk p1 p2 eps op idx boxes). Qed.
Print Assumptions C71_region.

(** The points inside a circle drawn as two half circles are those nearer to the centre than the radius. *)
Theorem C71_disc c u r b x : unit_vec u -> b = 1 \/ b = -1 -> 0 < r -> dist x c <> r -> inside (circle c u r b) x = true <-> dist x c < r.
Proof. exact (fun U B H => disc_inside c u b U B r H x). Qed.
Print Assumptions C71_disc.

(** An operation on two circles of either sense that clearly cross or clearly do not meet gives the operation on the discs. *)
Theorem C71_circles mk c1 u1 b1 r1 c2 u2 b2 r2 eps op idx boxes : unit_vec u1 -> b1 = 1 \/ b1 = -1 -> unit_vec u2 -> b2 = 1 \/ b2 = -1 ->
  0 < eps -> clear_circles eps c1 u1 r1 c2 u2 r2 -> makes_index mk -> index_of boxes idx ->
  boxes = map (fun s => seg_fast_approx_bounding_box (fst s) (snd s))
            (spec_segs (vtx (circle c1 u1 r1 b1)) (is_closed (circle c1 u1 r1 b1))) ->
  exists r, polyline_boolean mk (circle c1 u1 r1 b1) (circle c2 u2 r2 b2) op idx eps = Ret r
  /\ forall x, dist x c1 <> r1 -> dist x c2 <> r2 ->
     (region (fun p y => inside p y = true) r x <-> operation op (dist x c1 < r1) (dist x c2 < r2)).
Proof. exact (fun U1 B1 U2 B2 E C => discs_region c1 u1 b1 r1 c2 u2 b2 r2 eps U1 B1 U2 B2 E C mk op idx boxes). Qed.
Print Assumptions C71_circles.

(** Two circles of radius 5 about (0,0) and (6,0), which cross in (3,4) and (3,-4), the second clockwise. *)
Example C71_example_circles :
  clear_circles (1 / 100000) (V2 0 0) (V2 1 0) 5 (V2 6 0) (V2 1 0) 5
  /\ forall op, let p1 := circle (V2 0 0) (V2 1 0) 5 1 in let p2 := circle (V2 6 0) (V2 1 0) 5 (-1) in
  exists r, polyline_boolean (@list_index R RNum) p1 p2 op (ex_index p1) (1 / 100000) = Ret r
  /\ (region (fun p y => inside p y = true) r (V2 3 0) <-> op = BOr \/ op = BAnd)
  /\ (region (fun p y => inside p y = true) r (V2 0 0) <-> op <> BAnd)
  /\ (region (fun p y => inside p y = true) r (V2 6 0) <-> op = BOr \/ op = BXor)
  /\ ~ region (fun p y => inside p y = true) r (V2 3 5).
Proof. exact (conj (proj2 ex_circles) ex_circles_run). Qed.

(** The lower half of the unit disc and a rectangle whose left side crosses the arc and the diameter. *)
Example C71_example_loops :
  let p1 := PL [Vtx (-1) 0 1; Vtx 1 0 0] true in let p2 := polygon [V2 (3 / 5) (-2); V2 2 (-2); V2 2 2; V2 (3 / 5) 2] in
  clear_loops (1 / 100000) p1 p2 /\ valid_loop p1 /\ valid_loop p2 /\ passes_once p1 /\ passes_once p2
  /\ (forall b, common_point p1 p2 b <-> b = BI 0 3 (V2 (3 / 5) (-4 / 5)) \/ b = BI 1 3 (V2 (3 / 5) 0))
  /\ forall op, exists r, polyline_boolean (@list_index R RNum) p1 p2 op (ex_index p1) (1 / 100000) = Ret r
     /\ (region (fun p y => inside p y = true) r (V2 0 (-1 / 2)) <-> op <> BAnd)
     /\ (region (fun p y => inside p y = true) r (V2 (4 / 5) (-1 / 4)) <-> op = BOr \/ op = BAnd).
Proof. exact (conj ex_loops (conj ex_half_loop (conj slab_loop (conj ex_half_once (conj slab_once (conj ex_found ex_loops_run)))))). Qed.
