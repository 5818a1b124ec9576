(** Property C38: removal of redundant vertexes. The refutations of the end point of an open polyline with a
    repeated start and of the absence of panics are in [Prop_Basic]. *)
From Coq Require Import List Arith Bool Floats Reals.
From Verif Require Import Num RNum FNum Res ModelMath ModelSeg ModelPline ModelRedundant Spec SpecPline SpecGeom
  SpecRedundant ProofRedundant ProofRedundantR ProofRedundantSmall.
Import ListNotations.

(** C38: an open polyline whose first two vertexes are at different places. Nothing is returned only when no
    vertex may be dropped. Otherwise the result is the polyline with vertexes dropped one after another, each
    because it repeats the next place, or is inside a straight run, or two arcs on the same circle become one.
    The first position is kept, and so is the last vertex, which only gives its bulge when it repeats the kept
    one before it. *)
Theorem C38_open :
  forall (T : Type) (N : Num T) (eps : T) (p : pline T) (a b : vertex T) (L : list (vertex T)),
  is_closed p = false -> vtx p = a :: b :: L -> same_place eps b a = false ->
  remove_redundant p eps = Ret None /\ needed eps (map marked (vtx p))
  \/ exists K q, remove_redundant p eps = Ret (Some q) /\ is_closed q = false
     /\ dropped eps (map marked (vtx p)) (K ++ [marked (last L b)])
     /\ S (length K) < vertex_count p
     /\ (exists m, hd_error K = Some m /\ position (mk_v m) = position a)
     /\ ends_with eps (map mk_v K) (last L b) (vtx q).
Proof. exact @redundant_open. Qed.
Print Assumptions C38_open.

Example C38_example_open :
  remove_redundant (PL [Vtx 0 0 0; Vtx 1 0 0; Vtx 2 0 0; Vtx 2 1 0; Vtx 2 1 0; Vtx 0 1 0; Vtx 0 1 0] false)%float
    0.00001%float
  = Ret (Some (PL [Vtx 0 0 0; Vtx 2 0 0; Vtx 2 1 0; Vtx 0 1 0] false))%float
  /\ remove_redundant (PL [Vtx 0 0 0; Vtx 1 0 1; Vtx 2 0 0; Vtx 2 1 0] false)%float 0.00001%float = Ret None.
Proof. split; vm_compute; reflexivity. Qed.

(** C38: a closed polyline starting with one or more vertexes at the first place and having at least two more.
    The vertexes are dropped in the same way from the loop written out once around to its start. What is left
    is [K]; when its ends are at different places, either that is the result (nothing is returned when it is
    the whole polyline), and the start vertex itself may be dropped only as a repeat of the next, or the start
    vertex is dropped as well. *)
Theorem C38_closed :
  forall (T : Type) (N : Num T) (eps : T) (p : pline T) (a : vertex T) (run : list (vertex T)) (c : vertex T)
    (rest : list (vertex T)),
  is_closed p = true -> vtx p = (a :: run) ++ c :: rest -> rest <> [] ->
  (forall w, In w run -> same_place eps w a = true) -> same_place eps c a = false ->
  let z := last run a in
  let W := Vtx (px a) (py a) (pbulge z) :: c :: rest ++ a :: run in
  exists K, dropped eps (map marked W) (K ++ [marked z])
  /\ (exists m, hd_error K = Some m /\ position (mk_v m) = position a)
  /\ forall x0 mid m1 x1, K = x0 :: mid ++ [m1] -> hd_error (mid ++ [m1]) = Some x1 ->
     same_place eps (mk_v x0) (mk_v m1) = false ->
     ((run = [] /\ K = map marked (vtx p) /\ needed eps (map marked W) /\ remove_redundant p eps = Ret None
       \/ (run <> [] \/ length K < vertex_count p)
          /\ remove_redundant p eps = Ret (Some (PL (map mk_v K) true)))
      /\ (forall m, drops eps m1 (marked z) (mk_v x1) m -> same_place eps (mk_v x1) z = true))
     \/ exists m, drops eps m1 (marked z) (mk_v x1) m
        /\ remove_redundant p eps = Ret (Some (PL (mk_v m :: map mk_v mid) true)).
Proof. exact @redundant_closed. Qed.
Print Assumptions C38_closed.

Example C38_example_closed :
  remove_redundant (PL [Vtx 1 0 0; Vtx 2 0 0; Vtx 2 1 0; Vtx 2 2 0; Vtx 0 2 0; Vtx 0 0 0] true)%float
    0.00001%float
  = Ret (Some (PL [Vtx 0 0 0; Vtx 2 0 0; Vtx 2 2 0; Vtx 0 2 0] true))%float
  /\ remove_redundant (PL [Vtx 0 0 0; Vtx 0 0 0; Vtx 2 0 0; Vtx 2 1 0] true)%float 0.00001%float
     = Ret (Some (PL [Vtx 0 0 0; Vtx 2 0 0; Vtx 2 1 0] true))%float
  /\ remove_redundant (PL [Vtx 0 0 0; Vtx 2 0 0; Vtx 2 1 0] true)%float 0.00001%float = Ret None.
Proof. repeat split; vm_compute; reflexivity. Qed.

(** C38: fewer than two vertexes; two vertexes; all vertexes at one place; a repeated start followed by only
    one more vertex, which is lost. *)
Theorem C38_few :
  forall (T : Type) (N : Num T) (eps : T) (p : pline T), vertex_count p < 2 -> remove_redundant p eps = Ret None.
Proof. exact @redundant_few. Qed.
Print Assumptions C38_few.

Theorem C38_two :
  forall (T : Type) (N : Num T) (eps : T) (p : pline T) (a b : vertex T), vtx p = [a; b] ->
  remove_redundant p eps = Ret (if same_place eps b a then Some (PL [b] (is_closed p)) else None).
Proof. exact @redundant_two. Qed.
Print Assumptions C38_two.

Theorem C38_one_place :
  forall (T : Type) (N : Num T) (eps : T) (p : pline T) (a : vertex T) (run : list (vertex T)),
  vtx p = a :: run -> 2 <= length run -> (forall w, In w run -> same_place eps w a = true) ->
  remove_redundant p eps = Ret (Some (PL [Vtx (px a) (py a) (pbulge (last run a))] (is_closed p))).
Proof. exact @redundant_one_place. Qed.
Print Assumptions C38_one_place.

Theorem C38_one_more :
  forall (T : Type) (N : Num T) (eps : T) (p : pline T) (a : vertex T) (run : list (vertex T)) (c : vertex T),
  vtx p = a :: run ++ [c] -> run <> [] -> (forall w, In w run -> same_place eps w a = true) ->
  same_place eps c a = false ->
  remove_redundant p eps = Ret (Some (PL [Vtx (px a) (py a) (pbulge (last run a))] (is_closed p))).
Proof. exact @redundant_one_more. Qed.
Print Assumptions C38_one_more.

Example C38_example_few :
  remove_redundant (PL [Vtx 1 2 3; Vtx 1 2 4; Vtx 1 2 5] true)%float 0.00001%float
  = Ret (Some (PL [Vtx 1 2 5] true))%float
  /\ remove_redundant (PL [Vtx 1 2 3; Vtx 1 2 4; Vtx 5 2 5] false)%float 0.00001%float
  = Ret (Some (PL [Vtx 1 2 4] false))%float
  /\ remove_redundant (PL [Vtx 1 2 3; Vtx 1 2 4] true)%float 0.00001%float
  = Ret (Some (PL [Vtx 1 2 4] true))%float.
Proof. repeat split; vm_compute; reflexivity. Qed.

(** C38: over the reals, a drop whose tests hold exactly changes none of the drawn points. *)
Theorem C38_exact_drop :
  forall (eps : R) (m1 m2 : mark R) (v3 : vertex R) (m : mark R),
  drops eps m1 m2 v3 m -> seg_ok (mk_v m1) (mk_v m2) -> seg_ok (mk_v m2) v3 -> exact_drop eps m1 m2 v3 ->
  forall q, on_seg (mk_v m) v3 q <-> on_seg (mk_v m1) (mk_v m2) q \/ on_seg (mk_v m2) v3 q.
Proof. exact exact_drop_path. Qed.
Print Assumptions C38_exact_drop.

(** C38: what is exactly redundant is dropped: the middle of three points in order on a line ... *)
Theorem C38_straight :
  forall (eps : R) (v1 v2 v3 : vertex R), (0 < eps)%R -> same_place eps v3 v2 = false ->
  pbulge v1 = 0%R -> pbulge v2 = 0%R ->
  ((px v3 - px v2) * (py v2 - py v1) = (py v3 - py v2) * (px v2 - px v1))%R ->
  (0 <= (px v3 - px v2) * (px v2 - px v1) + (py v3 - py v2) * (py v2 - py v1))%R ->
  drops eps (marked v1) (marked v2) v3 (marked v1)
  /\ forall q, on_seg v1 v3 q <-> on_seg v1 v2 q \/ on_seg v2 v3 q.
Proof. exact straight_dropped. Qed.
Print Assumptions C38_straight.

(** ... and the place where two arcs of one circle meet, turning the same way and at most half around. *)
Theorem C38_arcs :
  forall (eps : R) (v1 v2 v3 : vertex R) (c : vec2 R) (r a : R), (0 < eps)%R -> same_place eps v3 v2 = false ->
  seg_ok v1 v2 -> seg_ok v2 v3 -> (0 < pbulge v1 * pbulge v2)%R ->
  is_arc (pos v1) (pos v2) (pbulge v1) c r a ->
  is_arc (pos v2) (pos v3) (pbulge v2) c r (a + sweep (pbulge v1)) ->
  (Rabs (sweep (pbulge v1)) + Rabs (sweep (pbulge v2)) <= PI)%R ->
  exists b m, sweep b = (sweep (pbulge v1) + sweep (pbulge v2))%R /\ mk_v m = Vtx (px v1) (py v1) b
  /\ drops eps (marked v1) (marked v2) v3 m
  /\ forall q, on_seg (mk_v m) v3 q <-> on_seg v1 v2 q \/ on_seg v2 v3 q.
Proof. exact arcs_dropped. Qed.
Print Assumptions C38_arcs.

Example C38_example_arcs :
  match remove_redundant (PL [Vtx 1 0 0.4142135623730951; Vtx 0 1 0.4142135623730951; Vtx (-1) 0 0; Vtx (-1) (-1) 0]
                           false)%float 0.00001%float with
  | Ret (Some q) => vertex_count q = 3
      /\ exists v, nth_error (vtx q) 0 = Some v /\ (abs (pbulge v - 1) <? 0.000001)%float = true
  | _ => False
  end.
Proof. vm_compute. split; [reflexivity|]. eexists. split; reflexivity. Qed.

(** C38: "only drops vertexes inside a straight run" is false for a loop with a repeated corner next to its
    end: a corner of a square is lost, and half of its area with it. *)
Theorem C38_corner_kept_refuted :
  exists (p q : pline float) (v : vertex float),
    remove_redundant p 0.00001%float = Ret (Some q) /\ is_closed p = true /\ In v (vtx p)
    /\ forallb (fun w => (10 <=? abs (px w - px v)) || (10 <=? abs (py w - py v)))%float (vtx q) = true
    /\ exists a b, area p = Ret a /\ area q = Ret b /\ (90 <=? a)%float = true /\ (b <=? 60)%float = true.
Proof. exact redundant_lost_corner. Qed.
Print Assumptions C38_corner_kept_refuted.

(** C38: and it is false for short segments: a right angle is dropped although its sides are over a hundred
    times the epsilon, because an area is compared with it. *)
Theorem C38_right_angle_refuted :
  exists (p : pline float) (v1 v2 v3 v4 : vertex float),
    vtx p = [v1; v2; v3; v4] /\ is_closed p = false
    /\ py v1 = py v2 /\ px v2 = px v3
    /\ (100 * 0.00001 <=? px v2 - px v1)%float = true /\ (100 * 0.00001 <=? py v3 - py v2)%float = true
    /\ remove_redundant p 0.00001%float = Ret (Some (PL [v1; v3; v4] false)).
Proof. exact redundant_right_angle. Qed.
Print Assumptions C38_right_angle_refuted.
