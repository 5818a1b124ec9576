(** Loops of lines and arcs that clearly cross or clearly do not meet (C71).

    Sides beside each other, polylines that are clear, crossing lines and points away from vertexes are those of C60, C28 and C63. *)
From Coq Require Import Reals List.
From Verif Require Import Num RNum Res ModelMath ModelSeg ModelPline ModelIntersects.
From Verif Require Import Spec SpecGeom SpecIntr SpecBox SpecView SpecSegIntr SpecOffset SpecOffsetJoin SpecPolyOff SpecPolyBool.
Import ListNotations.
Local Open Scope R_scope.

(** [x] is on the line or circle that the segment is a part of. *)
Definition on_support (v1 v2 : vertex R) (x : vec2 R) : Prop :=
  (pbulge v1 = 0 /\ exists t, x = line_pt (pos v1) (pos v2) t)
  \/ (pbulge v1 <> 0 /\ exists c r, arc_circle v1 v2 c r /\ dist x c = r).

(** No end of one segment is next to the other segment, and a point where their lines or circles meet is on both
    segments or not next to one of them. *)
Definition decided (eps : R) (v1 v2 u1 u2 : vertex R) : Prop :=
  (forall e, e = pos v1 \/ e = pos v2 -> ~ near_seg u1 u2 eps e)
  /\ (forall e, e = pos u1 \/ e = pos u2 -> ~ near_seg v1 v2 eps e)
  /\ forall x, on_support v1 v2 x -> on_support u1 u2 x ->
     (on_seg v1 v2 x /\ on_seg u1 u2 x) \/ ~ near_seg v1 v2 eps x \/ ~ near_seg u1 u2 eps x.

(** The line from [v1] to [v2] misses the circle of the arc from [u1] to [u2] or goes into it, by more than [eps]. *)
Definition line_arc_clear (eps : R) (v1 v2 u1 u2 : vertex R) : Prop :=
  ~ is_point (pos v1) (pos v2) eps /\ clear_direction (pos v1) (pos v2)
  /\ forall c r, arc_circle u1 u2 c r ->
     (exists d, r + eps < d /\ forall k, d <= dist (line_pt (pos v1) (pos v2) k) c)
     \/ (passes_inside (pos v1) (pos v2) c r eps /\ wide u1 u2 eps /\ decided eps v1 v2 u1 u2).

(** The circles of two arcs miss each other by [eps] or cross in two points that are not next to each other. *)
Definition arcs_clear (eps : R) (v1 v2 u1 u2 : vertex R) : Prop :=
  forall c1 r1 c2 r2, arc_circle v1 v2 c1 r1 -> arc_circle u1 u2 c2 r2 ->
    r1 + r2 + eps <= dist c1 c2 \/ dist c1 c2 + eps <= Rabs (r1 - r2)
    \/ (eps <= dist c1 c2
        /\ (exists x y, dist x c1 = r1 /\ dist x c2 = r2 /\ dist y c1 = r1 /\ dist y c2 = r2 /\ ~ is_point x y eps)
        /\ wide v1 v2 eps /\ wide u1 u2 eps /\ decided eps v1 v2 u1 u2).

Definition lines_clear (eps : R) (v1 v2 u1 u2 : vertex R) : Prop :=
  beside eps (pos v1) (pos v2) (pos u1) (pos u2) \/ beside eps (pos u1) (pos u2) (pos v1) (pos v2)
  \/ exists q, cross_in eps (pos v1) (pos v2) (pos u1) (pos u2) q.

Definition sides_clear (eps : R) (v1 v2 u1 u2 : vertex R) : Prop :=
  (pbulge v1 = 0 -> pbulge u1 = 0 -> lines_clear eps v1 v2 u1 u2)
  /\ (pbulge v1 = 0 -> pbulge u1 <> 0 -> line_arc_clear eps v1 v2 u1 u2)
  /\ (pbulge v1 <> 0 -> pbulge u1 = 0 -> line_arc_clear eps u1 u2 v1 v2)
  /\ (pbulge v1 <> 0 -> pbulge u1 <> 0 -> arcs_clear eps v1 v2 u1 u2).

(** No radius is so large that a part of the arc with a chord of [eps] counts as straight. *)
Definition moderate (eps : R) (p : pline R) : Prop :=
  forall v1 v2 c r, In (v1, v2) (spec_segs (vtx p) (is_closed p)) -> pbulge v1 <> 0 -> arc_circle v1 v2 c r -> r <= 25000000 * eps.

(** Of two segments of two loops either both clearly miss each other or they clearly cross, away from all vertexes; and
    different common points differ by more than [eps] in a coordinate. *)
Definition clear_loops (eps : R) (p1 p2 : pline R) : Prop :=
  is_closed p1 = true /\ is_closed p2 = true /\ clear_pline eps p1 /\ clear_pline eps p2 /\ moderate eps p1 /\ moderate eps p2
  /\ (forall v1 v2 u1 u2, In (v1, v2) (spec_segs (vtx p1) true) -> In (u1, u2) (spec_segs (vtx p2) true) -> sides_clear eps v1 v2 u1 u2)
  /\ (forall q, on_path p1 q -> on_path p2 q -> off_vertexes eps p1 q /\ off_vertexes eps p2 q)
  /\ (forall q q', on_path p1 q -> on_path p2 q -> on_path p1 q' -> on_path p2 q' ->
        q = q' \/ eps < Rabs (vx q - vx q') \/ eps < Rabs (vy q - vy q')).

(** Two circles (each drawn as two half circles from directions [u1] and [u2]) that clearly cross or clearly do not meet:
    if they cross then in two points that are not next to each other or to the diameters, and the ends of the half
    circles are not next to the other circle. *)
Definition margin (eps r : R) : R := 2 * eps * (1 + 1 / r).
Definition of_size (eps r : R) : Prop := 2 * eps <= r /\ 2 * eps <= r * r /\ r <= 25000000 * eps.
Definition clear_circles (eps : R) (c1 u1 : vec2 R) (r1 : R) (c2 u2 : vec2 R) (r2 : R) : Prop :=
  of_size eps r1 /\ of_size eps r2
  /\ (r1 + r2 + eps <= dist c1 c2 \/ dist c1 c2 + eps <= Rabs (r1 - r2)
      \/ (eps <= dist c1 c2
          /\ (exists x y, dist x c1 = r1 /\ dist x c2 = r2 /\ dist y c1 = r1 /\ dist y c2 = r2
              /\ (eps < Rabs (vx x - vx y) \/ eps < Rabs (vy x - vy y)))
          /\ (forall x, dist x c1 = r1 -> dist x c2 = r2 ->
              margin eps r1 < Rabs (cross u1 (vec c1 x)) /\ margin eps r2 < Rabs (cross u2 (vec c2 x)))
          /\ (forall k, k = r1 \/ k = - r1 -> margin eps r2 < Rabs (dist (moved c1 u1 k) c2 - r2))
          /\ (forall k, k = r2 \/ k = - r2 -> margin eps r1 < Rabs (dist (moved c2 u2 k) c1 - r1)))).
