(** Joining raw offset segments (C47). *)
From Coq Require Import Reals List.
From Verif Require Import ModelMath ModelSeg ModelPline ModelOffset Spec SpecGeom SpecIntr SpecOffset.
Import ListNotations.
Local Open Scope R_scope.

(** [vs'] is [vs] with the vertex [v] put at its end; if the last vertex of [vs] is in the same place up
    to [eps] it only gets the bulge of [v]. *)
Definition put (eps : R) (vs : list (vertex R)) (v : vertex R) (vs' : list (vertex R)) : Prop :=
  (exists pre w, vs = pre ++ [w] /\ is_point (pos w) (pos v) eps /\ vs' = pre ++ [Vtx (px w) (py w) (pbulge v)])
  \/ ((forall pre w, vs = pre ++ [w] -> ~ is_point (pos w) (pos v) eps) /\ vs' = vs ++ [v]).

(** [vs'] is [vs] with [v] and then [u] put at its end. *)
Definition put2 (eps : R) (vs : list (vertex R)) (v u : vertex R) (vs' : list (vertex R)) : Prop :=
  exists m, put eps vs v m /\ put eps m u vs'.

Definition vertex_at (p : vec2 R) (b : R) : vertex R := Vtx (vx p) (vy p) b.

(** The segment drawn from [w] to [x] is the part of the segment from [v1] to [v2] between the
    parameters [t] and [u]: it has the same ends and turns by the same angle. *)
Definition drawn (v1 v2 : vertex R) (t u : R) (w x : vertex R) : Prop :=
  seg_at v1 v2 t (pos w) /\ seg_at v1 v2 u (pos x) /\ sweep (pbulge w) = (u - t) * sweep (pbulge v1).

(** The bulge [b] takes [p] to [q], at the same distance from [c], by an arc about [c], if that turns to
    the given side, and else by its mirror image. *)
Definition corner_bulge (c : vec2 R) (left : bool) (p q : vec2 R) (b : R) : Prop :=
  exists r a th, 0 < r /\ p = circle_pt c r a /\ q = circle_pt c r (a + th) /\ - PI < th <= PI
  /\ sweep b = if left then Rabs th else - Rabs th.

(** The circle of an arc and the line through the ends of another segment. *)
Definition arc_circle (v1 v2 : vertex R) (c : vec2 R) (r : R) : Prop :=
  exists a, is_arc (pos v1) (pos v2) (pbulge v1) c r a.

(** The join of the raw offset segments [s1] and [s2] at their common point [x]: the last vertex [w],
    from which the rest of [s1] would be drawn, is left for [x] along [s1], and [x] is left along [s2]. *)
Definition joined_at (s1 s2 : raw_seg R) (tw tx ty : R) (pre : list (vertex R)) (w : vertex R) (x : vec2 R)
    (vs : list (vertex R)) : Prop :=
  exists w' x', vs = pre ++ [w'; x'] /\ pos w' = pos w /\ pos x' = x
  /\ drawn (rs_v1 s1) (rs_v2 s1) tw tx w' x' /\ drawn (rs_v1 s2) (rs_v2 s2) ty 1 x' (rs_v2 s2).

(** The line through [p0] and [p1] is well inside the circle somewhere. *)
Definition passes_inside (p0 p1 c : vec2 R) (r eps : R) : Prop := exists t, dist (line_pt p0 p1 t) c <= r - eps.

(** The code treats a line as vertical if its ends differ in [x] by less than a fixed tolerance. *)
Definition clear_direction (p0 p1 : vec2 R) : Prop := vx p1 - vx p0 = 0 \/ 1 / 100000000 <= Rabs (vx p1 - vx p0).

(** The end of [s1] and the start of [s2], at the same distance from the original vertex, put at the end
    of [vs] and connected by the arc about that vertex. *)
Definition connected (s1 s2 : raw_seg R) (left : bool) (eps : R) (vs vs' : list (vertex R)) : Prop :=
  exists b, corner_bulge (rs_orig_v2_pos s1) left (pos (rs_v2 s1)) (pos (rs_v1 s2)) b
  /\ put2 eps vs (vertex_at (pos (rs_v2 s1)) b) (rs_v1 s2) vs'.

(** The raw offset segment [s] is the line from [p] to [q] moved by [d] along its left normal [n]. *)
Definition line_raw (s : raw_seg R) (p q n : vec2 R) (d : R) : Prop :=
  left_normal p q n /\ rs_v1 s = vertex_at (moved p n d) 0 /\ rs_v2 s = vertex_at (moved q n d) 0
  /\ rs_orig_v2_pos s = q /\ rs_collapsed_arc s = false.

(** The corner at [q] of the lines from [p] to [q] and from [q] to [r], offset by [d], and the point [x]
    where the offset lines meet. A corner turned away from the offset is mitred if that adds less than
    [eps], and else rounded about [q]; a corner turned toward the offset is cut at [x] if that is on both
    offset lines, and else its ends are connected by a line. *)
Definition corner_join (p q r n1 n2 : vec2 R) (d eps : R) (x : vec2 R) (vs vs' : list (vertex R)) : Prop :=
  (d * cross (vec p q) (vec q r) < 0 ->
     (dist (moved q n1 d) x < eps /\ put eps vs (vertex_at x 0) vs')
     \/ (eps <= dist (moved q n1 d) x
         /\ exists b a, is_arc (moved q n1 d) (moved q n2 d) b q (Rabs d) a /\ Rabs b <= 1
            /\ put2 eps vs (vertex_at (moved q n1 d) b) (vertex_at (moved q n2 d) 0) vs'))
  /\ (0 < d * cross (vec p q) (vec q r) ->
     (dist (moved q n1 d) x < dist p q + eps /\ dist (moved q n2 d) x < dist q r + eps /\ put eps vs (vertex_at x 0) vs')
     \/ (~ (dist (moved q n1 d) x < dist p q + eps /\ dist (moved q n2 d) x < dist q r + eps)
         /\ put2 eps vs (vertex_at (moved q n1 d) 0) (vertex_at (moved q n2 d) 0) vs')).

(** The point [x] is on both offset lines, on their supports. *)
Definition mitre (p q r n1 n2 : vec2 R) (d : R) (x : vec2 R) : Prop :=
  (exists s, x = line_pt (moved p n1 d) (moved q n1 d) s) /\ (exists t, x = line_pt (moved q n2 d) (moved r n2 d) t).

(** [r] is straight ahead of, or straight behind, [q] for one who comes from [p]. *)
Definition ahead (p q r : vec2 R) : Prop := cross (vec p q) (vec q r) = 0 /\ 0 < vx (vec p q) * vx (vec q r) + vy (vec p q) * vy (vec q r).
Definition back (p q r : vec2 R) : Prop := cross (vec p q) (vec q r) = 0 /\ vx (vec p q) * vx (vec q r) + vy (vec p q) * vy (vec q r) < 0.
