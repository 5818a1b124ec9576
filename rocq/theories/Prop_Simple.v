(** Property C78: offsets of any polygon that passes no point twice, when the raw offset path keeps the distance. *)
From Coq Require Import Reals List.
From Verif Require Import Num RNum Res ModelMath ModelSeg ModelPline ModelIndex ModelOffset.
From Verif Require Import Spec SpecGeom SpecIntr SpecBox SpecBoolean SpecView SpecPrune SpecIndex SpecCuts SpecOffset SpecOffNear SpecPolyOff SpecOffsetJoin SpecJordan SpecConvex SpecRound SpecSegIntr SpecCurve SpecSimple.
From Verif Require Import ProofOff7 ProofOff9 ProofOffEx ProofOffEx2.
Import ListNotations.
Local Open Scope R_scope.

(** The polygon need not be convex, and [d] may be to either side. With the corners made as for C70, a raw path that
    clearly does not meet itself and stays at [|d|] or more from the polygon is the whole result. It passes no point
    twice. To the inner side it encloses exactly the points inside the polygon farther than [|d|] from it, to the outer
    side exactly those inside the polygon or within [|d|] of it. *)
Theorem C78_offset mk ps idx d o vss A : let p := polygon ps in let raw := PL (going_round vss) true in
  makes_index mk -> pline_index p idx -> 0 < oo_pos_equal_eps o -> oo_handle_self_intersects o = false ->
  0 < oo_slice_join_eps o -> 0 < oo_offset_dist_eps o < 2 * Rabs d ->
  passes_once p -> area p = Ret A -> made_corners p d (oo_pos_equal_eps o) vss -> lone_path (oo_pos_equal_eps o) raw ->
  (forall q y, on_path raw q -> on_path p y -> Rabs d <= dist q y) ->
  parallel_offset mk p idx d o = Ret [raw]
  /\ passes_once raw
  /\ (0 < d * A -> forall x, ~ on_path raw x ->
      (inside raw x = true <-> ~ on_path p x /\ inside p x = true /\ forall y, on_path p y -> Rabs d < dist x y))
  /\ (d * A < 0 -> forall x, ~ on_path raw x ->
      (inside raw x = true <-> on_path p x \/ inside p x = true \/ exists y, on_path p y /\ dist x y <= Rabs d)).
Proof. exact (simple_offset mk ps idx d o vss A). Qed.
Print Assumptions C78_offset.

(** An L of six sides by 1/2 to its inner side: its inner corner is rounded, the other five are moved. *)
Example C78_example : let p := polygon [V2 0 0; V2 0 4; V2 2 4; V2 2 2; V2 4 2; V2 4 0] in
  let r := PL [Vtx (1 / 2) (1 / 2) 0; Vtx (1 / 2) (7 / 2) 0; Vtx (3 / 2) (7 / 2) 0; Vtx (3 / 2) 2 (tan (PI / 8));
               Vtx 2 (3 / 2) 0; Vtx (7 / 2) (3 / 2) 0; Vtx (7 / 2) (1 / 2) 0] true in
  parallel_offset_constructed (@list_index R _) p (-1 / 2) (OO (1 / 100000) (1 / 10000) (1 / 10000) false) = Ret [r]
  /\ passes_once r
  /\ (forall x, ~ on_path r x ->
      (inside r x = true <-> ~ on_path p x /\ inside p x = true /\ forall y, on_path p y -> 1 / 2 < dist x y)).
Proof. exact angle_example. Qed.
Print Assumptions C78_example.

(** The points of the path are exactly those on its side at the distance [|d|] from the polygon, it goes round the same
    way, and its area is no larger to the inner side and no smaller to the outer side. *)
Theorem C78_path ps d o vss A : let p := polygon ps in let raw := PL (going_round vss) true in
  0 < oo_pos_equal_eps o -> d <> 0 -> passes_once p -> area p = Ret A ->
  made_corners p d (oo_pos_equal_eps o) vss -> lone_path (oo_pos_equal_eps o) raw ->
  (forall q y, on_path raw q -> on_path p y -> Rabs d <= dist q y) ->
  (forall x, on_path raw x <-> (inside p x = true <-> 0 < d * A) /\ (forall y, on_path p y -> Rabs d <= dist x y)
                               /\ exists y, on_path p y /\ dist x y = Rabs d)
  /\ orientation raw = orientation p
  /\ exists B, area raw = Ret B /\ 0 < A * B /\ (0 < d * A -> Rabs B <= Rabs A) /\ (d * A < 0 -> Rabs A <= Rabs B).
Proof. exact (simple_path ps d o vss A). Qed.
Print Assumptions C78_path.

(** With self-intersection handling the raw offset to the other side is made too. If the two clearly miss each other
    the result is the same. *)
Theorem C78_handled mk ps idx d o vss wss : let p := polygon ps in let raw := PL (going_round vss) true in let dual := PL (going_round wss) true in
  makes_index mk -> pline_index p idx -> 0 < oo_pos_equal_eps o -> 0 < oo_slice_join_eps o -> 0 < oo_offset_dist_eps o < 2 * Rabs d ->
  passes_once p -> made_corners p d (oo_pos_equal_eps o) vss -> lone_path (oo_pos_equal_eps o) raw ->
  (forall q y, on_path raw q -> on_path p y -> Rabs d <= dist q y) ->
  made_corners p (- d) (oo_pos_equal_eps o) wss -> clear_pline (oo_pos_equal_eps o) dual -> clearly_miss (oo_pos_equal_eps o) raw dual ->
  parallel_offset mk p idx d o = Ret [raw].
Proof. exact (simple_handled mk ps idx d o vss wss). Qed.
Print Assumptions C78_handled.

(** The path of [C78_example]. *)
Example C78_path_example : let p := polygon [V2 0 0; V2 0 4; V2 2 4; V2 2 2; V2 4 2; V2 4 0] in
  let r := PL [Vtx (1 / 2) (1 / 2) 0; Vtx (1 / 2) (7 / 2) 0; Vtx (3 / 2) (7 / 2) 0; Vtx (3 / 2) 2 (tan (PI / 8));
               Vtx 2 (3 / 2) 0; Vtx (7 / 2) (3 / 2) 0; Vtx (7 / 2) (1 / 2) 0] true in
  (forall x, on_path r x <-> inside p x = true /\ (forall y, on_path p y -> 1 / 2 <= dist x y) /\ exists y, on_path p y /\ dist x y = 1 / 2)
  /\ orientation r = Ret Clockwise /\ exists B, area r = Ret B /\ -12 <= B < 0.
Proof. exact angle_path. Qed.
Print Assumptions C78_path_example.

(** A square to its inner side with self-intersection handling. To the outer side its corners are rounded, and the lines
    of the inner path touch the circles of these arcs. *)
Example C78_handled_example :
  parallel_offset_constructed (@list_index R _) (polygon [V2 0 0; V2 4 0; V2 4 4; V2 0 4]) (1 / 2) (OO (1 / 100000) (1 / 10000) (1 / 10000) true)
  = Ret [PL [Vtx (1 / 2) (1 / 2) 0; Vtx (7 / 2) (1 / 2) 0; Vtx (7 / 2) (7 / 2) 0; Vtx (1 / 2) (7 / 2) 0] true].
Proof. exact box_handled. Qed.
Print Assumptions C78_handled_example.
