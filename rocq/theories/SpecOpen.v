(** Open polylines of lines and the paths beside them (C80).

    What a corner becomes is that of C70, segments that clearly miss each other those of C71, joined segments those of
    C78. *)
From Coq Require Import Reals List Arith.
From Verif Require Import Num RNum Res ModelMath ModelSeg ModelPline.
From Verif Require Import Spec SpecGeom SpecIntr SpecBox SpecView SpecSegIntr SpecOffset SpecOffsetJoin SpecPolyOff SpecRound SpecCurve SpecSimple.
Import ListNotations.
Local Open Scope R_scope.

Definition open_lines (p : pline R) : Prop := is_closed p = false /\ forall v, In v (vtx p) -> pbulge v = 0.

(** [raw] is the path beside the open polyline [p]: from its start moved to the left by [d], along what becomes of its
    inner vertexes, to its end moved to the left; neighbours differ. *)
Definition path_beside (p : pline R) (d eps : R) (raw : pline R) : Prop :=
  let segs := spec_segs (vtx p) false in
  is_closed raw = false
  /\ Forall (fun ab => ~ is_point (pos (fst ab)) (pos (snd ab)) eps) (spec_segs (vtx raw) false)
  /\ exists vss a b y z n m,
     Forall2 (fun ss vs => corner_made d eps (pos (fst (fst ss))) (pos (snd (fst ss))) (pos (snd (snd ss))) vs) (combine segs (tl segs)) vss
     /\ hd_error segs = Some (a, b) /\ hd_error (rev segs) = Some (y, z) /\ left_normal (pos a) (pos b) n /\ left_normal (pos y) (pos z) m
     /\ vtx raw = vertex_at (moved (pos a) n d) 0 :: concat vss ++ [vertex_at (moved (pos z) m d) 0].

(** Neighbouring segments have only their common vertex in common, any others clearly miss each other. *)
Definition lone_open (eps : R) (p : pline R) : Prop :=
  let segs := spec_segs (vtx p) false in
  is_closed p = false /\ clear_pline eps p
  /\ (forall i v1 v2 v3, nth_error segs i = Some (v1, v2) -> nth_error segs (i + 1) = Some (v2, v3) -> joined_clear eps v1 v2 v3)
  /\ (forall i j v1 v2 u1 u2, nth_error segs i = Some (v1, v2) -> nth_error segs j = Some (u1, u2) -> i <> j -> i <> (j + 1)%nat -> (i + 1)%nat <> j ->
        sides_clear eps v1 v2 u1 u2 /\ forall q, on_seg v1 v2 q -> on_seg u1 u2 q -> False).

(** The segment clearly stays off the circle: the line misses it, or goes into it beyond the ends of the segment; the
    circle of the arc misses it, or crosses it away from the arc. *)
Definition off_circle (eps : R) (c : vec2 R) (r : R) (v1 v2 : vertex R) : Prop :=
  (pbulge v1 = 0 -> clear_direction (pos v1) (pos v2)
     /\ ((exists D, r + eps < D /\ forall k, D <= dist (line_pt (pos v1) (pos v2) k) c)
         \/ ((exists k, dist (line_pt (pos v1) (pos v2) k) c < r + eps) /\ forall k, 0 <= k <= 1 -> r + eps <= dist (line_pt (pos v1) (pos v2) k) c)))
  /\ (pbulge v1 <> 0 -> forall k rk, arc_circle v1 v2 k rk ->
     rk + r + eps <= dist k c
     \/ (wide v1 v2 eps /\ eps <= dist k c
         /\ (exists x y, dist x k = rk /\ dist x c = r /\ dist y k = rk /\ dist y c = r /\ ~ is_point x y eps)
         /\ forall x, dist x k = rk -> dist x c = r -> ~ near_seg v1 v2 eps x)).

(** All segments of the path but the first stay off the circle about the start of [p], all but the last off the circle
    about its end. *)
Definition off_ends (eps d : R) (p raw : pline R) : Prop :=
  let segs := spec_segs (vtx raw) false in
  forall i v1 v2, nth_error segs i = Some (v1, v2) ->
    (i = 0%nat \/ (i + 1)%nat = length segs -> clear_direction (pos v1) (pos v2))
    /\ (i <> 0%nat -> forall a, hd_error (vtx p) = Some a -> off_circle eps (pos a) (Rabs d) v1 v2)
    /\ ((i + 1)%nat <> length segs -> forall z, hd_error (rev (vtx p)) = Some z -> off_circle eps (pos z) (Rabs d) v1 v2).
