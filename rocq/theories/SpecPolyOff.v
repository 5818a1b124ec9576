(** Polygons whose offset lines meet their neighbours (C60). *)
From Coq Require Import Reals List.
From Verif Require Import Num RNum Res ModelMath ModelSeg ModelPline.
From Verif Require Import Spec SpecGeom SpecIntr SpecOffset SpecOffsetJoin.
Import ListNotations.
Local Open Scope R_scope.

(** Every element with the one before it, going round. *)
Definition with_previous {A} (l : list A) : list (A * A) :=
  match l with [] => [] | x :: t => (last t x, x) :: combine l t end.

(** [q] is where the line from [a] to [b] and the line from [b] to [c], both moved to the left by [d], meet; the
    corner is not so flat that the lines count as parallel. *)
Definition corner_met (d eps : R) (a b c q : vec2 R) : Prop :=
  exists n n' t u, left_normal a b n /\ left_normal b c n' /\ 0 <= t <= 1 /\ 0 <= u <= 1
  /\ q = line_pt (moved a n d) (moved b n d) t /\ q = line_pt (moved b n' d) (moved c n' d) u
  /\ eps <= Rabs (cross (vec a b) (vec b c)).

(** [qs] are these points at all corners of the closed polygon [p]; they differ from their neighbours, and the
    second from where the first line begins. *)
Definition inner_corners (p : pline R) (d eps : R) (qs : list (vec2 R)) : Prop :=
  Forall2 (fun ss q => corner_met d eps (pos (fst (fst ss))) (pos (snd (fst ss))) (pos (snd (snd ss))) q)
          (with_previous (spec_segs (vtx p) true)) qs
  /\ Forall (fun ab => ~ is_point (fst ab) (snd ab) eps) (with_previous qs)
  /\ (forall a b n q, hd_error (spec_segs (vtx p) true) = Some (a, b) -> left_normal (pos a) (pos b) n -> nth_error qs 1 = Some q ->
        ~ is_point (moved (pos a) n d) q eps).

(** The polygon with these corners. *)
Definition polygon (qs : list (vec2 R)) : pline R := PL (map (fun q => vertex_at q 0) qs) true.
Definition is_polygon (p : pline R) : Prop := is_closed p = true /\ forall v, In v (vtx p) -> pbulge v = 0.

(** [c] and [e] are clearly on the same side of the line through [a] and [b]. *)
Definition beside (eps : R) (a b c e : vec2 R) : Prop :=
  exists s, (s = 1 \/ s = -1) /\ forall w, w = c \/ w = e ->
    eps <= s * cross (vec a b) (vec a w) /\ eps * dist a b <= s * cross (vec a b) (vec a w).

(** The polygon with these corners clearly does not meet itself: no corner is flat, and of two sides without a common
    corner one is beside the other. *)
Definition lone_polygon (eps : R) (qs : list (vec2 R)) : Prop :=
  let segs := spec_segs qs true in
  let n := length qs in
  (3 <= n)%nat
  /\ (forall i a b c, nth_error segs i = Some (a, b) -> nth_error segs ((i + 1) mod n) = Some (b, c) -> eps <= Rabs (cross (vec a b) (vec b c)))
  /\ (forall i j a b c e, nth_error segs i = Some (a, b) -> nth_error segs j = Some (c, e) ->
        i <> j -> i <> ((j + 1) mod n)%nat -> ((i + 1) mod n)%nat <> j -> beside eps a b c e \/ beside eps c e a b).

(** Every point of [p] is farther than [x] from [pt]. *)
Definition lies_clear (p : pline R) (x : R) (pt : vec2 R) : Prop :=
  forall v1 v2 q, In (v1, v2) (spec_segs (vtx p) (is_closed p)) -> on_seg v1 v2 q -> x < dist pt q.

(** [u] turned by a right angle, to the left if [s] is [1] and to the right if it is [-1]. *)
Definition turned (s : R) (u : vec2 R) : vec2 R := V2 (- s * vy u) (s * vx u).

(** The rectangle that starts at [c], goes [w] along [u] and then [h] along [u] turned. *)
Definition rect_corners (s : R) (c u : vec2 R) (w h : R) : list (vec2 R) :=
  let n := turned s u in [c; moved c u w; moved (moved c u w) n h; moved c n h].
