(** Property C47: joins of raw offset segments. *)
From Coq Require Import Reals List PrimFloat.
From Verif Require Import Num RNum FNum Res ModelMath ModelSeg ModelPline ModelIndex ModelOffset.
From Verif Require Import Spec SpecGeom SpecIntr SpecOffset SpecSegIntr SpecOffsetJoin ProofOffsetJoin ProofOffsetJoin2 ProofOffsetJoin3 ProofOffsetJoin4 ProofOffsetJoin5 ProofOffsetJoinF ProofTouchEx.
Import ListNotations.
Local Open Scope R_scope.

(** The corner of two lines that are not parallel. *)
Theorem C47_line_corner s1 s2 p q r n1 n2 d ccw eps pl : 0 < eps -> d <> 0 -> (ccw = true <-> d < 0) ->
  eps <= Rabs (cross (vec p q) (vec q r)) -> line_raw s1 p q n1 d -> line_raw s2 q r n2 d ->
  exists x pl', join_seg_pair ccw eps pl (s1, s2) = Ret pl' /\ is_closed pl' = is_closed pl
  /\ mitre p q r n1 n2 d x /\ corner_join p q r n1 n2 d eps x (vtx pl) (vtx pl').
Proof. exact (line_corner s1 s2 p q r n1 n2 d ccw eps pl). Qed.
Print Assumptions C47_line_corner.

(** A line that goes straight on. *)
Theorem C47_line_straight s1 s2 p q r n1 n2 d ccw eps pl : 0 < eps -> 4 * eps < dist p q -> ~ is_point q r eps -> ~ is_point p q eps ->
  ahead p q r -> line_raw s1 p q n1 d -> line_raw s2 q r n2 d ->
  n2 = n1 /\ exists pl', join_seg_pair ccw eps pl (s1, s2) = Ret pl' /\ is_closed pl' = is_closed pl
  /\ put eps (vtx pl) (vertex_at (moved q n1 d) 0) (vtx pl').
Proof. exact (line_straight s1 s2 p q r n1 n2 d ccw eps pl). Qed.
Print Assumptions C47_line_straight.

(** A line that goes straight back: half a circle about the corner, ahead of it. *)
Theorem C47_line_back s1 s2 p q r n1 n2 d ccw eps pl : 0 < eps -> d <> 0 -> (ccw = true <-> d < 0) ->
  eps <= 2 * Rabs d * Rmax (dist p q) (dist q r) ->
  back p q r -> line_raw s1 p q n1 d -> line_raw s2 q r n2 d ->
  exists b a pl', join_seg_pair ccw eps pl (s1, s2) = Ret pl' /\ is_closed pl' = is_closed pl
  /\ is_arc (moved q n1 d) (moved q n2 d) b q (Rabs d) a
  /\ Rabs b = 1 /\ circle_pt q (Rabs d) (a + sweep b / 2) = V2 (vx q + Rabs d * vy n1) (vy q - Rabs d * vx n1)
  /\ put2 eps (vtx pl) (vertex_at (moved q n1 d) b) (vertex_at (moved q n2 d) 0) (vtx pl').
Proof. exact (line_back s1 s2 p q r n1 n2 d ccw eps pl). Qed.
Print Assumptions C47_line_back.

(** Next to an arc that has collapsed the ends are connected by an arc about the corner. *)
Theorem C47_collapsed s1 s2 ccw eps p : pbulge (rs_v1 s1) = 0 -> pbulge (rs_v1 s2) = 0 -> rs_collapsed_arc s1 = true \/ rs_collapsed_arc s2 = true ->
  pos (rs_v2 s1) <> rs_orig_v2_pos s1 -> dist (pos (rs_v1 s2)) (rs_orig_v2_pos s1) = dist (pos (rs_v2 s1)) (rs_orig_v2_pos s1) ->
  exists p', join_seg_pair ccw eps p (s1, s2) = Ret p' /\ connected s1 s2 ccw eps (vtx p) (vtx p').
Proof. exact (collapsed_corner s1 s2 ccw eps p). Qed.
Print Assumptions C47_collapsed.

(** A line that meets an arc, an arc that meets a line and two arcs that meet: the path changes from the
    one to the other where they meet, if that is the crossing of line and circle, or of the circles, that
    is nearest to the original vertex. *)
Theorem C47_line_arc s1 s2 ccw eps pre w cl tw tx ty x c r :
  let v1 := rs_v1 s1 in let v2 := rs_v2 s1 in let u1 := rs_v1 s2 in let u2 := rs_v2 s2 in
  0 < eps -> pbulge v1 = 0 -> ~ is_point (pos v1) (pos v2) eps -> clear_direction (pos v1) (pos v2) ->
  seg_ok u1 u2 -> pbulge u1 <> 0 -> arc_circle u1 u2 c r ->
  0 <= tw -> tw < tx -> tx <= 1 -> drawn v1 v2 tw 1 w v2 -> seg_at v1 v2 tx x ->
  0 <= ty -> ty < 1 -> seg_at u1 u2 ty x -> ~ is_point (pos w) x eps ->
  passes_inside (pos v1) (pos v2) c r eps ->
  (forall k, dist (line_pt (pos v1) (pos v2) k) c = r -> line_pt (pos v1) (pos v2) k <> x ->
     dist x (rs_orig_v2_pos s1) < dist (line_pt (pos v1) (pos v2) k) (rs_orig_v2_pos s1)) ->
  exists vs, join_seg_pair ccw eps (PL (pre ++ [w]) cl) (s1, s2) = Ret (PL vs cl) /\ joined_at s1 s2 tw tx ty pre w x vs.
Proof. exact (line_arc_meets s1 s2 ccw eps pre w cl tw tx ty x c r). Qed.
Print Assumptions C47_line_arc.

Theorem C47_arc_line s1 s2 ccw eps pre w cl tw tx ty x c r :
  let v1 := rs_v1 s1 in let v2 := rs_v2 s1 in let u1 := rs_v1 s2 in let u2 := rs_v2 s2 in
  let near := if rs_collapsed_arc s2 then pos u1 else rs_orig_v2_pos s1 in
  0 < eps -> pbulge u1 = 0 -> ~ is_point (pos u1) (pos u2) eps -> clear_direction (pos u1) (pos u2) ->
  seg_ok v1 v2 -> pbulge v1 <> 0 -> arc_circle v1 v2 c r ->
  0 <= tw -> tw < tx -> tx <= 1 -> drawn v1 v2 tw 1 w v2 -> seg_at v1 v2 tx x ->
  0 <= ty -> ty < 1 -> seg_at u1 u2 ty x -> ~ is_point (pos w) x eps ->
  1 / 100000000 <= Rabs (pbulge w) -> ~ is_point (pos w) (pos v2) eps ->
  passes_inside (pos u1) (pos u2) c r eps ->
  (forall k, dist (line_pt (pos u1) (pos u2) k) c = r -> line_pt (pos u1) (pos u2) k <> x ->
     dist x near < dist (line_pt (pos u1) (pos u2) k) near) ->
  exists vs, join_seg_pair ccw eps (PL (pre ++ [w]) cl) (s1, s2) = Ret (PL vs cl) /\ joined_at s1 s2 tw tx ty pre w x vs.
Proof. exact (arc_line_meets s1 s2 ccw eps pre w cl tw tx ty x c r). Qed.
Print Assumptions C47_arc_line.

Theorem C47_arcs s1 s2 ccw eps pre w cl tw tx ty x y c1 r1 c2 r2 :
  let v1 := rs_v1 s1 in let v2 := rs_v2 s1 in let u1 := rs_v1 s2 in let u2 := rs_v2 s2 in
  let near := rs_orig_v2_pos s1 in
  0 < eps -> seg_ok v1 v2 -> pbulge v1 <> 0 -> arc_circle v1 v2 c1 r1 -> seg_ok u1 u2 -> pbulge u1 <> 0 -> arc_circle u1 u2 c2 r2 ->
  0 <= tw -> tw < tx -> tx <= 1 -> drawn v1 v2 tw 1 w v2 -> seg_at v1 v2 tx x ->
  0 <= ty -> ty < 1 -> seg_at u1 u2 ty x -> ~ is_point (pos w) x eps ->
  1 / 100000000 <= Rabs (pbulge w) -> ~ is_point (pos w) (pos v2) eps ->
  eps <= dist c1 c2 -> dist y c1 = r1 -> dist y c2 = r2 -> ~ is_point x y eps ->
  dist x near * dist x near + eps <= dist y near * dist y near ->
  exists vs, join_seg_pair ccw eps (PL (pre ++ [w]) cl) (s1, s2) = Ret (PL vs cl) /\ joined_at s1 s2 tw tx ty pre w x vs.
Proof. exact (arcs_meet s1 s2 ccw eps pre w cl tw tx ty x y c1 r1 c2 r2). Qed.
Print Assumptions C47_arcs.

(** The same where a line touches the circle of the arc, and where the two circles touch. *)
Theorem C47_line_arc_touch s1 s2 ccw eps pre w cl tw tx ty x c r :
  let v1 := rs_v1 s1 in let v2 := rs_v2 s1 in let u1 := rs_v1 s2 in let u2 := rs_v2 s2 in
  0 < eps -> pbulge v1 = 0 -> ~ is_point (pos v1) (pos v2) eps -> clear_direction (pos v1) (pos v2) ->
  seg_ok u1 u2 -> pbulge u1 <> 0 -> arc_circle u1 u2 c r ->
  0 <= tw -> tw < tx -> tx <= 1 -> drawn v1 v2 tw 1 w v2 -> seg_at v1 v2 tx x ->
  0 <= ty -> ty < 1 -> seg_at u1 u2 ty x -> ~ is_point (pos w) x eps ->
  (forall k, line_pt (pos v1) (pos v2) k <> x -> r < dist (line_pt (pos v1) (pos v2) k) c) ->
  exists vs, join_seg_pair ccw eps (PL (pre ++ [w]) cl) (s1, s2) = Ret (PL vs cl) /\ joined_at s1 s2 tw tx ty pre w x vs.
Proof. exact (line_arc_touch s1 s2 ccw eps pre w cl tw tx ty x c r). Qed.
Print Assumptions C47_line_arc_touch.

Theorem C47_arc_line_touch s1 s2 ccw eps pre w cl tw tx ty x c r :
  let v1 := rs_v1 s1 in let v2 := rs_v2 s1 in let u1 := rs_v1 s2 in let u2 := rs_v2 s2 in
  0 < eps -> pbulge u1 = 0 -> ~ is_point (pos u1) (pos u2) eps -> clear_direction (pos u1) (pos u2) ->
  seg_ok v1 v2 -> pbulge v1 <> 0 -> arc_circle v1 v2 c r ->
  0 <= tw -> tw < tx -> tx <= 1 -> drawn v1 v2 tw 1 w v2 -> seg_at v1 v2 tx x ->
  0 <= ty -> ty < 1 -> seg_at u1 u2 ty x -> ~ is_point (pos w) x eps ->
  1 / 100000000 <= Rabs (pbulge w) -> ~ is_point (pos w) (pos v2) eps ->
  (forall k, line_pt (pos u1) (pos u2) k <> x -> r < dist (line_pt (pos u1) (pos u2) k) c) ->
  exists vs, join_seg_pair ccw eps (PL (pre ++ [w]) cl) (s1, s2) = Ret (PL vs cl) /\ joined_at s1 s2 tw tx ty pre w x vs.
Proof. exact (arc_line_touch s1 s2 ccw eps pre w cl tw tx ty x c r). Qed.
Print Assumptions C47_arc_line_touch.

Theorem C47_arcs_touch s1 s2 ccw eps pre w cl tw tx ty x c1 r1 c2 r2 :
  let v1 := rs_v1 s1 in let v2 := rs_v2 s1 in let u1 := rs_v1 s2 in let u2 := rs_v2 s2 in
  0 < eps -> seg_ok v1 v2 -> pbulge v1 <> 0 -> arc_circle v1 v2 c1 r1 -> seg_ok u1 u2 -> pbulge u1 <> 0 -> arc_circle u1 u2 c2 r2 ->
  0 <= tw -> tw < tx -> tx <= 1 -> drawn v1 v2 tw 1 w v2 -> seg_at v1 v2 tx x ->
  0 <= ty -> ty < 1 -> seg_at u1 u2 ty x -> ~ is_point (pos w) x eps ->
  1 / 100000000 <= Rabs (pbulge w) -> ~ is_point (pos w) (pos v2) eps ->
  eps <= dist c1 c2 -> (forall y, dist y c1 = r1 -> dist y c2 = r2 -> y = x) ->
  exists vs, join_seg_pair ccw eps (PL (pre ++ [w]) cl) (s1, s2) = Ret (PL vs cl) /\ joined_at s1 s2 tw tx ty pre w x vs.
Proof. exact (arcs_touch s1 s2 ccw eps pre w cl tw tx ty x c1 r1 c2 r2). Qed.
Print Assumptions C47_arcs_touch.

(** Two crossings of the circles that are about equally near to the original vertex: the one that is on
    both arcs is used. *)
Theorem C47_arcs_even s1 s2 ccw eps pre w cl tw tx ty x y c1 r1 c2 r2 :
  let v1 := rs_v1 s1 in let v2 := rs_v2 s1 in let u1 := rs_v1 s2 in let u2 := rs_v2 s2 in
  let near := rs_orig_v2_pos s1 in
  0 < eps -> seg_ok v1 v2 -> pbulge v1 <> 0 -> arc_circle v1 v2 c1 r1 -> seg_ok u1 u2 -> pbulge u1 <> 0 -> arc_circle u1 u2 c2 r2 ->
  0 <= tw -> tw < tx -> tx <= 1 -> drawn v1 v2 tw 1 w v2 -> seg_at v1 v2 tx x ->
  0 <= ty -> ty < 1 -> seg_at u1 u2 ty x -> ~ is_point (pos w) x eps ->
  1 / 100000000 <= Rabs (pbulge w) -> ~ is_point (pos w) (pos v2) eps ->
  eps <= dist c1 c2 -> dist y c1 = r1 -> dist y c2 = r2 -> ~ is_point x y eps ->
  Rabs (dist x near * dist x near - dist y near * dist y near) < eps -> wide v1 v2 eps -> wide u1 u2 eps ->
  ~ near_seg v1 v2 eps y \/ ~ near_seg u1 u2 eps y ->
  exists vs, join_seg_pair ccw eps (PL (pre ++ [w]) cl) (s1, s2) = Ret (PL vs cl) /\ joined_at s1 s2 tw tx ty pre w x vs.
Proof. exact (arcs_even s1 s2 ccw eps pre w cl tw tx ty x y c1 r1 c2 r2). Qed.
Print Assumptions C47_arcs_even.

(** Every point of what is drawn of a segment is a point of that segment. *)
Theorem C47_drawn v1 v2 t u w x s y : seg_ok v1 v2 -> 0 <= t -> t < u -> u <= 1 -> drawn v1 v2 t u w x ->
  seg_at w x s y -> seg_at v1 v2 (t + s * (u - t)) y.
Proof. exact (drawn_within v1 v2 t u w x s y). Qed.
Print Assumptions C47_drawn.

(** Segments whose line and circle, or circles, do not meet are connected by an arc about the corner. *)
Theorem C47_missed s1 s2 ccw eps p :
  let v1 := rs_v1 s1 in let v2 := rs_v2 s1 in let u1 := rs_v1 s2 in let u2 := rs_v2 s2 in
  0 < eps -> pos v2 <> rs_orig_v2_pos s1 -> dist (pos u1) (rs_orig_v2_pos s1) = dist (pos v2) (rs_orig_v2_pos s1) ->
  (forall c r D, pbulge v1 = 0 -> ~ is_point (pos v1) (pos v2) eps -> clear_direction (pos v1) (pos v2) ->
     seg_ok u1 u2 -> pbulge u1 <> 0 -> arc_circle u1 u2 c r -> r + eps < D -> (forall k, D <= dist (line_pt (pos v1) (pos v2) k) c) ->
     exists p', join_seg_pair ccw eps p (s1, s2) = Ret p' /\ connected s1 s2 ccw eps (vtx p) (vtx p'))
  /\ (forall c r D, pbulge u1 = 0 -> ~ is_point (pos u1) (pos u2) eps -> clear_direction (pos u1) (pos u2) ->
     seg_ok v1 v2 -> pbulge v1 <> 0 -> arc_circle v1 v2 c r -> r + eps < D -> (forall k, D <= dist (line_pt (pos u1) (pos u2) k) c) ->
     exists p', join_seg_pair ccw eps p (s1, s2) = Ret p' /\ connected s1 s2 ccw eps (vtx p) (vtx p'))
  /\ (forall c1 r1 c2 r2, seg_ok v1 v2 -> pbulge v1 <> 0 -> arc_circle v1 v2 c1 r1 -> seg_ok u1 u2 -> pbulge u1 <> 0 -> arc_circle u1 u2 c2 r2 ->
     r1 + r2 + eps <= dist c1 c2 \/ dist c1 c2 + eps <= Rabs (r1 - r2) ->
     exists p', join_seg_pair ccw eps p (s1, s2) = Ret p' /\ connected s1 s2 ccw eps (vtx p) (vtx p')).
Proof. exact (segs_missed s1 s2 ccw eps p). Qed.
Print Assumptions C47_missed.

(** Two arcs of one circle: the second follows on the first. *)
Theorem C47_same_circle s1 s2 ccw eps p c1 r1 c2 r2 :
  let v1 := rs_v1 s1 in let v2 := rs_v2 s1 in let u1 := rs_v1 s2 in let u2 := rs_v2 s2 in
  seg_ok v1 v2 -> pbulge v1 <> 0 -> arc_circle v1 v2 c1 r1 -> seg_ok u1 u2 -> pbulge u1 <> 0 -> arc_circle u1 u2 c2 r2 ->
  dist c1 c2 < eps -> Rabs (r1 - r2) < eps ->
  exists p', join_seg_pair ccw eps p (s1, s2) = Ret p' /\ put eps (vtx p) u1 (vtx p').
Proof. exact (same_circle s1 s2 ccw eps p c1 r1 c2 r2). Qed.
Print Assumptions C47_same_circle.

(** Segments that do not reach the crossing of their line and circle, or circles, nearest to the corner:
    mostly they are connected by an arc about the corner. *)
Theorem C47_line_arc_apart s1 s2 ccw eps p k x c r :
  let v1 := rs_v1 s1 in let v2 := rs_v2 s1 in let u1 := rs_v1 s2 in let u2 := rs_v2 s2 in
  0 < eps -> pos v2 <> rs_orig_v2_pos s1 -> dist (pos u1) (rs_orig_v2_pos s1) = dist (pos v2) (rs_orig_v2_pos s1) ->
  pbulge v1 = 0 -> ~ is_point (pos v1) (pos v2) eps -> clear_direction (pos v1) (pos v2) ->
  seg_ok u1 u2 -> pbulge u1 <> 0 -> arc_circle u1 u2 c r -> wide u1 u2 eps -> rs_collapsed_arc s1 = false ->
  x = line_pt (pos v1) (pos v2) k -> dist x c = r -> passes_inside (pos v1) (pos v2) c r eps ->
  (forall k, dist (line_pt (pos v1) (pos v2) k) c = r -> line_pt (pos v1) (pos v2) k <> x ->
     dist x (rs_orig_v2_pos s1) < dist (line_pt (pos v1) (pos v2) k) (rs_orig_v2_pos s1)) ->
  (1 < k -> ~ near_seg u1 u2 eps x -> exists p', join_seg_pair ccw eps p (s1, s2) = Ret p' /\ connected s1 s2 ccw eps (vtx p) (vtx p'))
  /\ ((k < 0 \/ 1 < k) /\ on_seg u1 u2 x \/ k <= 1 /\ ~ near_seg u1 u2 eps x ->
      exists p', join_seg_pair ccw eps p (s1, s2) = Ret p' /\ put2 eps (vtx p) (vertex_at (pos v2) 0) u1 (vtx p')).
Proof. exact (line_arc_apart' s1 s2 ccw eps p k x c r). Qed.
Print Assumptions C47_line_arc_apart.

Theorem C47_arc_line_apart s1 s2 ccw eps p k x c r :
  let v1 := rs_v1 s1 in let v2 := rs_v2 s1 in let u1 := rs_v1 s2 in let u2 := rs_v2 s2 in
  let near := if rs_collapsed_arc s2 then pos u1 else rs_orig_v2_pos s1 in
  0 < eps -> pos v2 <> rs_orig_v2_pos s1 -> dist (pos u1) (rs_orig_v2_pos s1) = dist (pos v2) (rs_orig_v2_pos s1) ->
  pbulge u1 = 0 -> ~ is_point (pos u1) (pos u2) eps -> clear_direction (pos u1) (pos u2) ->
  seg_ok v1 v2 -> pbulge v1 <> 0 -> arc_circle v1 v2 c r -> wide v1 v2 eps ->
  x = line_pt (pos u1) (pos u2) k -> dist x c = r -> passes_inside (pos u1) (pos u2) c r eps ->
  (forall k, dist (line_pt (pos u1) (pos u2) k) c = r -> line_pt (pos u1) (pos u2) k <> x ->
     dist x near < dist (line_pt (pos u1) (pos u2) k) near) ->
  (k < 0 \/ 1 < k \/ ~ near_seg v1 v2 eps x) ->
  exists p', join_seg_pair ccw eps p (s1, s2) = Ret p' /\ connected s1 s2 ccw eps (vtx p) (vtx p').
Proof. exact (arc_line_apart' s1 s2 ccw eps p k x c r). Qed.
Print Assumptions C47_arc_line_apart.

Theorem C47_arcs_apart s1 s2 ccw eps p x y c1 r1 c2 r2 :
  let v1 := rs_v1 s1 in let v2 := rs_v2 s1 in let u1 := rs_v1 s2 in let u2 := rs_v2 s2 in
  let near := rs_orig_v2_pos s1 in
  0 < eps -> pos v2 <> rs_orig_v2_pos s1 -> dist (pos u1) (rs_orig_v2_pos s1) = dist (pos v2) (rs_orig_v2_pos s1) ->
  seg_ok v1 v2 -> pbulge v1 <> 0 -> arc_circle v1 v2 c1 r1 -> wide v1 v2 eps -> seg_ok u1 u2 -> pbulge u1 <> 0 -> arc_circle u1 u2 c2 r2 -> wide u1 u2 eps ->
  eps <= dist c1 c2 -> dist x c1 = r1 -> dist x c2 = r2 -> dist y c1 = r1 -> dist y c2 = r2 -> ~ is_point x y eps ->
  dist x near * dist x near + eps <= dist y near * dist y near ->
  ~ near_seg v1 v2 eps x \/ ~ near_seg u1 u2 eps x ->
  exists p', join_seg_pair ccw eps p (s1, s2) = Ret p' /\ connected s1 s2 ccw eps (vtx p) (vtx p').
Proof. exact (arcs_apart' s1 s2 ccw eps p x y c1 r1 c2 r2). Qed.
Print Assumptions C47_arcs_apart.

(** When a closed polyline is closed the first vertex moves along its segment to where the last one meets it. *)
Theorem C47_first (s1 s2 : vertex R) (v0 w : vertex R) rest cl u t x : seg_ok s1 s2 ->
  drawn s1 s2 0 u v0 w -> pbulge v0 = 0 \/ 1 / 100000000 <= Rabs (pbulge v0) -> 0 <= t -> t < u -> u <= 1 -> seg_at s1 s2 t x ->
  exists x', update_first_vertex (PL (v0 :: w :: rest) cl) x = Ret (PL (x' :: w :: rest) cl) /\ pos x' = x /\ drawn s1 s2 t u x' w.
Proof. exact (first_moved s1 s2 v0 w rest cl u t x). Qed.
Print Assumptions C47_first.

(** Two short lines at a right angle are taken to be parallel and joined by half a circle: with an offset
    of 1 a result has a point more than the square root of 1.9 away from the whole polyline. *)
Theorem C47_short_refuted : exists (p : pline float) rs r v1 v2,
  (parallel_offset_constructed (@list_index float _) p (-1) (OO 1e-5 1e-4 1e-4 false) = Ret rs)%float
  /\ forallb (fun s => (0.0009 * 0.0009 <? dist_squared (pos (fst s)) (pos (snd s)))%float) (spec_segs (vtx p) (is_closed p)) = true
  /\ In r rs /\ In (v1, v2) (spec_segs (vtx r) (is_closed r))
  /\ forall u1 u2, In (u1, u2) (spec_segs (vtx p) (is_closed p)) ->
     (1.9 <? dist_squared (seg_closest_point u1 u2 (seg_midpoint v1 v2) 1e-5) (seg_midpoint v1 v2))%float = true.
Proof. exact jog_far. Qed.
Print Assumptions C47_short_refuted.

(** A corner cut where the lines meet, and a line and an arc that touch, in reals; runs in double precision in which all the segments of a
    polyline with lines and arcs meet, and in which none do. *)
Example C47_example_corner : exists pl',
  join_seg_pair false (1 / 1000) (PL [Vtx 0 1 0] false)
    (RS (Vtx 0 1 0) (Vtx 10 1 0) (V2 10 0) false, RS (Vtx 9 0 0) (Vtx 9 10 0) (V2 10 10) false) = Ret pl'
  /\ vtx pl' = [Vtx 0 1 0; Vtx 9 1 0].
Proof. exact corner_case. Qed.

Example C47_example_touch :
  (exists b, join_seg_pair false (1 / 1000) (PL [Vtx (-2) 1 0] false)
     (RS (Vtx (-2) 1 0) (Vtx 2 1 0) (V2 2 0) false, RS (Vtx 1 0 1) (Vtx (-1) 0 0) (V2 (-2) 0) false)
   = Ret (PL [Vtx (-2) 1 0; Vtx 0 1 b] false) /\ sweep b = PI / 2)
  /\ (exists b, join_seg_pair false (1 / 1000) (PL [Vtx 1 0 1] false)
     (RS (Vtx 1 0 1) (Vtx (-1) 0 0) (V2 (-2) 0) false, RS (Vtx 2 1 0) (Vtx (-4) 1 0) (V2 (-4) 0) false)
   = Ret (PL [Vtx 1 0 b; Vtx 0 1 0] false) /\ sweep b = PI / 2).
Proof. exact (conj touch_case_line touch_case_arc). Qed.

Example C47_example_meet :
  (let! r := create_raw_offset_polyline mixed 1%float 1e-5%float in
   Ret (near_list (vtx r) [Vtx 0 1 0; Vtx 7.703306688 1 (-0.3008266721); Vtx 7.703306688 9 0; Vtx 0.094649177 9 0.4856553383;
     Vtx (-3.160427447) 2.560798214 (-0.2460055725); Vtx (-1.0298575) (-6.242535625) 0]%float)) = Ret true.
Proof. exact mixed_inner. Qed.

Example C47_example_apart :
  (let! r := create_raw_offset_polyline mixed (-1)%float 1e-5%float in
   Ret (near_list (vtx r) [Vtx 0 (-1) 0; Vtx 10 (-1) 0.7207592201; Vtx 10.6 0.8 (-0.5); Vtx 10.6 9.2 0.7207592201; Vtx 10 11 0; Vtx 0 11 0.0449937004;
     Vtx (-0.178885438) 10.98386991 0.5; Vtx (-4.894427191) 1.552786404 0.067926277; Vtx (-4.741873677) 1.329460331 (-0.25); Vtx (-2.9701425) (-5.757464375) 0]%float)) = Ret true.
Proof. exact mixed_outer. Qed.
