(** What a polyline segment denotes, over the reals and independently of the modelled functions. *)
From Coq Require Import Reals List.
From Verif Require Import ModelMath ModelSeg ModelPline Spec.
Import ListNotations.
Local Open Scope R_scope.

Definition dist (p q : vec2 R) : R :=
  sqrt ((vx p - vx q) * (vx p - vx q) + (vy p - vy q) * (vy p - vy q)).

(** Point of the line from [p] to [q] at parameter [t]. *)
Definition line_pt (p q : vec2 R) (t : R) : vec2 R :=
  V2 (vx p + t * (vx q - vx p)) (vy p + t * (vy q - vy p)).

(** Point of the circle with centre [c] and radius [r] in direction [a]. *)
Definition circle_pt (c : vec2 R) (r a : R) : vec2 R :=
  V2 (vx c + r * cos a) (vy c + r * sin a).

(** The angle swept by an arc with bulge [b] (bulge is the tangent of a quarter of it). *)
Definition sweep (b : R) : R := 4 * atan b.

(** Going around centre [c] at radius [r] from direction [a] by the sweep of [b] leads from [p1]
    to [p2]. *)
Definition is_arc (p1 p2 : vec2 R) (b : R) (c : vec2 R) (r a : R) : Prop :=
  0 <= r /\ p1 = circle_pt c r a /\ p2 = circle_pt c r (a + sweep b).

(** [q] is the point at parameter [t] (0 at the start, 1 at the end) of the segment from [v1] to
    [v2]: a straight line if the bulge of [v1] is zero and an arc otherwise. *)
Definition seg_at (v1 v2 : vertex R) (t : R) (q : vec2 R) : Prop :=
  (pbulge v1 = 0 /\ q = line_pt (pos v1) (pos v2) t)
  \/ (pbulge v1 <> 0 /\ exists c r a, is_arc (pos v1) (pos v2) (pbulge v1) c r a
                                     /\ q = circle_pt c r (a + t * sweep (pbulge v1))).

Definition on_seg (v1 v2 : vertex R) (q : vec2 R) : Prop :=
  exists t, 0 <= t <= 1 /\ seg_at v1 v2 t q.

(** Bulges the library documents: at most a half circle, and not so small that the code treats the
    segment as a line. *)
Definition bulge_ok (b : R) : Prop := b = 0 \/ (1 / 100000000 <= Rabs b /\ Rabs b <= 1).

(** A segment with such a bulge whose ends differ if it is an arc. *)
Definition seg_ok (v1 v2 : vertex R) : Prop :=
  bulge_ok (pbulge v1) /\ (pbulge v1 <> 0 -> pos v1 <> pos v2).

(** [x], [y] with derivatives [x'], [y'] parametrise the segment over [0,1]. *)
Definition seg_param (v1 v2 : vertex R) (x y x' y' : R -> R) : Prop :=
  (forall t, seg_at v1 v2 t (V2 (x t) (y t)))
  /\ (forall t, derivable_pt_lim x t (x' t)) /\ (forall t, derivable_pt_lim y t (y' t)).

(** The segment is travelled in unit time at constant speed [L]: its length is [L]. *)
Definition seg_has_length (v1 v2 : vertex R) (L : R) : Prop :=
  exists x y x' y', seg_param v1 v2 x y x' y'
    /\ forall t, sqrt (x' t * x' t + y' t * y' t) = L.

(** The integral of x dy - y dx along the segment is [I] (Newton integral: [F] is an
    antiderivative). *)
Definition seg_has_integral (v1 v2 : vertex R) (I : R) : Prop :=
  exists x y x' y' F, seg_param v1 v2 x y x' y'
    /\ (forall t, derivable_pt_lim F t (x t * y' t - y t * x' t))
    /\ I = F 1 - F 0.

Definition rsum (l : list R) : R := fold_right Rplus 0 l.

(** All segments of a polyline are as documented. *)
Definition pline_ok (p : pline R) : Prop :=
  forall v1 v2, In (v1, v2) (spec_segs (vtx p) (is_closed p)) -> seg_ok v1 v2.

(** No segment has end vertexes that agree in all three numbers up to the code's tolerance. *)
Definition tiny_seg (v1 v2 : vertex R) : Prop :=
  Rabs (px v1 - px v2) < 1 / 100000000 /\ Rabs (py v1 - py v2) < 1 / 100000000
  /\ Rabs (pbulge v1 - pbulge v2) < 1 / 100000000.
Definition no_tiny (p : pline R) : Prop :=
  forall v1 v2, In (v1, v2) (spec_segs (vtx p) (is_closed p)) -> ~ tiny_seg v1 v2.

(** The lengths of the segments of [p] add up to [L]. *)
Definition path_has_length (p : pline R) (L : R) : Prop :=
  exists Ls, Forall2 (fun s L => seg_has_length (fst s) (snd s) L) (spec_segs (vtx p) (is_closed p)) Ls
    /\ L = rsum Ls.

(** The integral of x dy - y dx along the drawn path. *)
Definition path_has_integral (p : pline R) (I : R) : Prop :=
  exists Is, Forall2 (fun s I => seg_has_integral (fst s) (snd s) I) (spec_segs (vtx p) (is_closed p)) Is
    /\ I = rsum Is.

(** Every bulge that starts a segment is zero or not below the tolerance. *)
Definition bulges_area_ok (p : pline R) : Prop :=
  forall v1 v2, In (v1, v2) (spec_segs (vtx p) (is_closed p)) -> pbulge v1 = 0 \/ 1 / 100000000 <= Rabs (pbulge v1).
