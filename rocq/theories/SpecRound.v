(** Polygons moved so that some corners are rounded (C70). *)
From Coq Require Import Reals List.
From Verif Require Import Num RNum Res ModelMath ModelSeg ModelPline.
From Verif Require Import Spec SpecGeom SpecIntr SpecOffset SpecOffsetJoin SpecPolyOff.
Import ListNotations.
Local Open Scope R_scope.

(** The corner at [b] is turned away from the offset, and not so little that it counts as flat or that the lines are
    extended until they meet: the end [v] of the first moved line and the start [w] of the second one are joined
    by an arc about [b]. *)
Definition corner_round (d eps : R) (a b c : vec2 R) (v w : vertex R) : Prop :=
  exists n n' al, left_normal a b n /\ left_normal b c n'
  /\ d * cross (vec a b) (vec b c) < 0 /\ eps <= Rabs (cross (vec a b) (vec b c))
  /\ (forall x, mitre a b c n n' d x -> eps <= dist (moved b n d) x)
  /\ pos v = moved b n d /\ w = vertex_at (moved b n' d) 0
  /\ is_arc (pos v) (pos w) (pbulge v) b (Rabs d) al /\ Rabs (pbulge v) <= 1.

(** What a corner becomes: one vertex where the moved lines meet, or two joined by an arc. *)
Definition corner_made (d eps : R) (a b c : vec2 R) (vs : list (vertex R)) : Prop :=
  (exists q, corner_met d eps a b c q /\ vs = [vertex_at q 0])
  \/ exists v w, corner_round d eps a b c v w /\ vs = [v; w].

(** The vertexes of all corners, from the last one of the first corner round to the others of the first corner. *)
Definition going_round (l : list (list (vertex R))) : list (vertex R) :=
  match l with [] => [] | vs :: t => skipn (length vs - 1) vs ++ concat t ++ firstn (length vs - 1) vs end.

(** [vss] are the vertexes at all corners of the closed polygon [p]; neighbours differ, and the first one after the
    first corner from where the first line begins. *)
Definition made_corners (p : pline R) (d eps : R) (vss : list (list (vertex R))) : Prop :=
  Forall2 (fun ss vs => corner_made d eps (pos (fst (fst ss))) (pos (snd (fst ss))) (pos (snd (snd ss))) vs)
          (with_previous (spec_segs (vtx p) true)) vss
  /\ Forall (fun ab => ~ is_point (pos (fst ab)) (pos (snd ab)) eps) (with_previous (going_round vss))
  /\ (forall a b n v, hd_error (spec_segs (vtx p) true) = Some (a, b) -> left_normal (pos a) (pos b) n -> nth_error (going_round vss) 1 = Some v ->
        ~ is_point (moved (pos a) n d) (pos v) eps).

(** ** All corners rounded *)

(** The two ends of the arcs at all corners of the polygon with the corners [ps]. *)
Definition rounded_corners (ps : list (vec2 R)) (d eps : R) (vws : list (vertex R * vertex R)) : Prop :=
  Forall2 (fun ss vw => corner_round d eps (fst (fst ss)) (snd (fst ss)) (snd (snd ss)) (fst vw) (snd vw))
          (with_previous (spec_segs ps true)) vws.
Definition round_path (vws : list (vertex R * vertex R)) : pline R := PL (going_round (map (fun vw => [fst vw; snd vw]) vws)) true.

(** All corners but the two of a side are at least [m] to the inner side of its line (the left one if [s] is [1], the
    right one if it is [-1]), and of two sides moved out by [e] one is at least [m] behind the line of the other. *)
Definition roomy (s e m : R) (ps : list (vec2 R)) : Prop :=
  (3 <= length ps)%nat /\ NoDup ps
  /\ (forall a b c, In (a, b) (spec_segs ps true) -> In c ps -> c <> a -> c <> b -> m * dist a b <= s * cross (vec a b) (vec a c))
  /\ (forall i j a b c f, nth_error (spec_segs ps true) i = Some (a, b) -> nth_error (spec_segs ps true) j = Some (c, f) -> i <> j ->
        m * (dist a b * dist c f) <= e * (dist a b * dist c f - (vx (vec a b) * vx (vec c f) + vy (vec a b) * vy (vec c f)))).

(** The tolerance is small compared with this room and the offset. *)
Definition coarse (eps e m : R) : Prop :=
  0 < eps /\ 0 < e /\ 0 < m /\ 4 * (e + 2) * eps <= e * m /\ 8 * (e + 2) * eps <= m * m /\ 4 * e <= 100000000 * m.
