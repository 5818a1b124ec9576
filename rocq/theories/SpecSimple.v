(** Paths of lines and arcs that clearly do not meet themselves (C78).

    Segments that clearly miss each other are those of C71, paths without short segments those of C28. *)
From Coq Require Import Reals List Arith.
From Verif Require Import Num RNum Res ModelMath ModelSeg ModelPline.
From Verif Require Import Spec SpecGeom SpecIntr SpecBox SpecView SpecSegIntr SpecOffset SpecOffsetJoin SpecPolyOff SpecCurve.
Import ListNotations.
Local Open Scope R_scope.

(** The line from [a] to [b] is at right angles to the radius from [k] to [b]. *)
Definition at_right_angles (a b k : vec2 R) : Prop := vx (vec a b) * vx (vec k b) + vy (vec a b) * vy (vec k b) = 0.

(** Two segments clearly have only their common vertex [v2] in common: two lines with an angle between them, or a line
    that touches the circle of the arc. *)
Definition joined_clear (eps : R) (v1 v2 v3 : vertex R) : Prop :=
  (pbulge v1 = 0 /\ pbulge v2 = 0 /\ eps <= Rabs (cross (vec (pos v1) (pos v2)) (vec (pos v2) (pos v3))))
  \/ (pbulge v1 = 0 /\ pbulge v2 <> 0 /\ clear_direction (pos v1) (pos v2)
      /\ exists c r, arc_circle v2 v3 c r /\ at_right_angles (pos v1) (pos v2) c /\ r + eps <= dist (pos v1) c)
  \/ (pbulge v1 <> 0 /\ pbulge v2 = 0 /\ clear_direction (pos v2) (pos v3)
      /\ exists c r, arc_circle v1 v2 c r /\ at_right_angles (pos v3) (pos v2) c).

(** Neighbouring segments are joined like that, and any others clearly miss each other. *)
Definition lone_path (eps : R) (p : pline R) : Prop :=
  let segs := spec_segs (vtx p) true in
  let n := length (vtx p) in
  is_closed p = true /\ (3 <= n)%nat /\ clear_pline eps p
  /\ (forall i v1 v2 v3, nth_error segs i = Some (v1, v2) -> nth_error segs ((i + 1) mod n) = Some (v2, v3) -> joined_clear eps v1 v2 v3)
  /\ (forall i j v1 v2 u1 u2, nth_error segs i = Some (v1, v2) -> nth_error segs j = Some (u1, u2) ->
        i <> j -> i <> ((j + 1) mod n)%nat -> ((i + 1) mod n)%nat <> j ->
        sides_clear eps v1 v2 u1 u2 /\ forall q, on_seg v1 v2 q -> on_seg u1 u2 q -> False).

(** The line from [v1] to [v2] touches the circle of the arc from [u1] to [u2], but in a point that is not next to both,
    and its ends are not next to the arc. *)
Definition touches_elsewhere (eps : R) (v1 v2 u1 u2 : vertex R) : Prop :=
  pbulge v1 = 0 /\ pbulge u1 <> 0 /\ ~ is_point (pos v1) (pos v2) eps /\ clear_direction (pos v1) (pos v2) /\ wide u1 u2 eps
  /\ ~ near_seg u1 u2 eps (pos v1) /\ ~ near_seg u1 u2 eps (pos v2)
  /\ exists c r t, arc_circle u1 u2 c r /\ dist (line_pt (pos v1) (pos v2) t) c = r /\ (forall k, r <= dist (line_pt (pos v1) (pos v2) k) c)
     /\ (~ near_seg v1 v2 eps (line_pt (pos v1) (pos v2) t) \/ ~ near_seg u1 u2 eps (line_pt (pos v1) (pos v2) t)).

(** Every segment of one path clearly misses every segment of the other. *)
Definition clearly_miss (eps : R) (p1 p2 : pline R) : Prop :=
  forall v1 v2 u1 u2, In (v1, v2) (spec_segs (vtx p1) (is_closed p1)) -> In (u1, u2) (spec_segs (vtx p2) (is_closed p2)) ->
    (sides_clear eps v1 v2 u1 u2 /\ forall q, on_seg v1 v2 q -> on_seg u1 u2 q -> False)
    \/ touches_elsewhere eps v1 v2 u1 u2 \/ touches_elsewhere eps u1 u2 v1 v2.
