(** Loops along the same segments (C75). *)
From Coq Require Import Reals List.
From Verif Require Import Num RNum Res ModelMath ModelSeg ModelPline.
From Verif Require Import Spec SpecGeom SpecIntr SpecPolyOff.
Import ListNotations.
Local Open Scope R_scope.

(** The segment from [u1] to [u2] is the one from [v1] to [v2], or that backwards. *)
Definition same_seg (v1 v2 u1 u2 : vertex R) : Prop :=
  (pos u1 = pos v1 /\ pos u2 = pos v2 /\ pbulge u1 = pbulge v1) \/ (pos u1 = pos v2 /\ pos u2 = pos v1 /\ pbulge u1 = - pbulge v1).

(** Every segment of each is a segment of the other, forwards or backwards. *)
Definition follows (p1 p2 : pline R) : Prop :=
  forall u1 u2, In (u1, u2) (spec_segs (vtx p2) (is_closed p2)) ->
    exists v1 v2, In (v1, v2) (spec_segs (vtx p1) (is_closed p1)) /\ same_seg v1 v2 u1 u2.
Definition same_outline (p1 p2 : pline R) : Prop := follows p1 p2 /\ follows p2 p1.

(** The arc from [v1] to [v2] covers the angles from [a] to [a + s] of the circle of radius [r] around [c]. *)
Definition arc_span (v1 v2 : vertex R) (c : vec2 R) (r a s : R) : Prop :=
  0 < s /\ ((s = sweep (pbulge v1) /\ is_arc (pos v1) (pos v2) (pbulge v1) c r a)
            \/ (s = - sweep (pbulge v1) /\ is_arc (pos v1) (pos v2) (pbulge v1) c r (a + s))).

(** An angle between two arcs of a circle of radius [r]: none or a clear one. *)
Definition clear_gap (eps r g : R) : Prop := g = 0 \/ (eps <= r * g /\ 1 / 100000000 <= g).

(** Two segments that clearly have no part in common: lines that are clearly not parallel or beside each other, a line
    and an arc, arcs of clearly different circles or arcs of one circle that follow each other or are clearly apart. *)
Definition parted (eps : R) (v1 v2 u1 u2 : vertex R) : Prop :=
  (pbulge v1 = 0 -> pbulge u1 = 0 ->
     eps <= Rabs (cross (vec (pos v1) (pos v2)) (vec (pos u1) (pos u2)))
     \/ beside eps (pos v1) (pos v2) (pos u1) (pos u2) \/ beside eps (pos u1) (pos u2) (pos v1) (pos v2))
  /\ (pbulge v1 <> 0 -> pbulge u1 <> 0 ->
     (exists c1 r1 a1 c2 r2 a2, is_arc (pos v1) (pos v2) (pbulge v1) c1 r1 a1 /\ is_arc (pos u1) (pos u2) (pbulge u1) c2 r2 a2
        /\ (eps <= dist c1 c2 \/ eps <= Rabs (r1 - r2)))
     \/ (exists c r a1 s1 a2 s2 g h, arc_span v1 v2 c r a1 s1 /\ arc_span u1 u2 c r a2 s2
        /\ clear_gap eps r g /\ clear_gap eps r h /\ a2 = a1 + s1 + g /\ a1 + 2 * PI = a2 + s2 + h)).

(** No segment of the polyline is as short as [eps], and different segments clearly have no part in common. *)
Definition parted_pline (eps : R) (p : pline R) : Prop :=
  let segs := spec_segs (vtx p) (is_closed p) in
  (forall v1 v2, In (v1, v2) segs -> ~ is_point (pos v1) (pos v2) eps)
  /\ forall i j v1 v2 u1 u2, nth_error segs i = Some (v1, v2) -> nth_error segs j = Some (u1, u2) -> i <> j -> parted eps v1 v2 u1 u2.
