(** C77: the loops that a boolean operation gives pass no point twice and share no point with each other. *)
From Coq Require Import Reals ZArith Bool List.
From Verif Require Import Num RNum Res ModelMath ModelSeg ModelPline ModelIndex ModelIntersects ModelBoolean.
From Verif Require Import Spec SpecGeom SpecBox SpecView SpecBoolean SpecIndex SpecPrune SpecRegion SpecPolyOff SpecPolyBool SpecJordan SpecCircle SpecCurve.
From Verif Require Import ProofIndex2 ProofJordan6 ProofCurveEx ProofPass3 ProofPassEx.
Import ListNotations.
Local Open Scope R_scope.

(** Of two loops that pass no point twice and whose segments clearly cross or clearly miss each other, every operation
    gives loops that pass no point twice; two different ones have a point in common only for xor, a point where the
    given loops cross. *)
Theorem C77_loops mk (p1 p2 : pline R) eps op idx boxes : 0 < eps -> clear_loops eps p1 p2 -> makes_index mk ->
  index_of boxes idx -> boxes = map (fun s => seg_fast_approx_bounding_box (fst s) (snd s)) (spec_segs (vtx p1) (is_closed p1)) ->
  valid_loop p1 -> valid_loop p2 -> passes_once p1 -> passes_once p2 ->
  exists r, polyline_boolean mk p1 p2 op idx eps = Ret r
  /\ (forall l, In l (br_pos r ++ br_neg r) -> valid_loop (brp_pline l) /\ pline_ok (brp_pline l) /\ passes_once (brp_pline l)
        /\ forall q, on_path (brp_pline l) q -> on_path p1 q \/ on_path p2 q)
  /\ (forall i j a b q, nth_error (br_pos r ++ br_neg r) i = Some a -> nth_error (br_pos r ++ br_neg r) j = Some b -> i <> j ->
        on_path (brp_pline a) q -> on_path (brp_pline b) q -> op = BXor /\ on_path p1 q /\ on_path p2 q).
Proof. exact (loops_passing mk p1 p2 eps op idx boxes). Qed.
Print Assumptions C77_loops.

(** The same for two circles of either sense that clearly cross or clearly do not meet. *)
Theorem C77_circles mk c1 u1 b1 r1 c2 u2 b2 r2 eps op idx boxes : unit_vec u1 -> b1 = 1 \/ b1 = -1 -> unit_vec u2 -> b2 = 1 \/ b2 = -1 ->
  0 < eps -> clear_circles eps c1 u1 r1 c2 u2 r2 -> makes_index mk -> index_of boxes idx ->
  boxes = map (fun s => seg_fast_approx_bounding_box (fst s) (snd s)) (spec_segs (vtx (circle c1 u1 r1 b1)) (is_closed (circle c1 u1 r1 b1))) ->
  exists r, polyline_boolean mk (circle c1 u1 r1 b1) (circle c2 u2 r2 b2) op idx eps = Ret r
  /\ (forall l, In l (br_pos r ++ br_neg r) -> passes_once (brp_pline l)
        /\ forall q, on_path (brp_pline l) q -> dist q c1 = r1 \/ dist q c2 = r2)
  /\ (forall i j a b q, nth_error (br_pos r ++ br_neg r) i = Some a -> nth_error (br_pos r ++ br_neg r) j = Some b -> i <> j ->
        on_path (brp_pline a) q -> on_path (brp_pline b) q -> op = BXor /\ dist q c1 = r1 /\ dist q c2 = r2).
Proof. exact (discs_passing mk c1 u1 b1 r1 c2 u2 b2 r2 eps op idx boxes). Qed.
Print Assumptions C77_circles.

(** The lower half of the unit disc and a rectangle whose left side crosses the arc and the diameter. *)
Example C77_example op :
  let p1 := PL [Vtx (-1) 0 1; Vtx 1 0 0] true in let p2 := polygon [V2 (3 / 5) (-2); V2 2 (-2); V2 2 2; V2 (3 / 5) 2] in
  exists r, polyline_boolean (@list_index R RNum) p1 p2 op (ex_index p1) (1 / 100000) = Ret r /\ br_pos r <> []
  /\ (forall l, In l (br_pos r ++ br_neg r) -> passes_once (brp_pline l))
  /\ (forall i j a b q, nth_error (br_pos r ++ br_neg r) i = Some a -> nth_error (br_pos r ++ br_neg r) j = Some b -> i <> j ->
        on_path (brp_pline a) q -> on_path (brp_pline b) q -> op = BXor /\ (q = V2 (3 / 5) (-4 / 5) \/ q = V2 (3 / 5) 0)).
Proof. exact (ex_passing op). Qed.
