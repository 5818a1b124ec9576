(** C14: the closest point on a polyline. *)
From Coq Require Import Reals List.
From Verif Require Import Num RNum Res ModelMath ModelSeg ModelPline Spec SpecGeom SpecIntr SpecBox SpecClosest.
From Verif Require Import ProofMeasure ProofClosest ProofClosest2.
Import ListNotations.
Local Open Scope R_scope.

(** There is no answer exactly for the empty polyline; a single vertex is its own answer. *)
Theorem C14_small (p : pline R) pt eps :
  (vtx p = [] -> closest_point p pt eps = Ret None)
  /\ (forall v, vtx p = [v] -> closest_point p pt eps = Ret (Some (CPR 0%nat (pos v) (dist pt (pos v)))))
  /\ (closest_point p pt eps = Ret None -> vtx p = []).
Proof. exact (closest_point_small p pt eps). Qed.
Print Assumptions C14_small.

(** With segments, the answer names a segment, a point (on that segment unless the query point grazes
    its sector) and the distance to that point; no path point is nearer by more than the tolerances;
    and when no tolerance matters the distance is the true minimum and the segment is the first one
    that attains it. *)
Theorem C14_closest_point (p : pline R) pt eps : pline_ok p -> 0 < eps -> (2 <= vertex_count p)%nat ->
  (exists q, on_path p q /\ dist pt q + 3 * eps < 10 ^ 100) ->
  exists i q d v1 v2, closest_point p pt eps = Ret (Some (CPR i q d))
    /\ nth_error (spec_segs (vtx p) (is_closed p)) i = Some (v1, v2)
    /\ d = dist pt q
    /\ (~ grazing v1 v2 pt eps -> on_seg v1 v2 q)
    /\ (forall q', on_path p q' -> not_much_further d (dist pt q') eps)
    /\ ((forall w1 w2, In (w1, w2) (spec_segs (vtx p) (is_closed p)) -> plain w1 w2 pt eps) ->
        (forall q', on_path p q' -> d <= dist pt q')
        /\ (forall j w1 w2 q', (j < i)%nat -> nth_error (spec_segs (vtx p) (is_closed p)) j = Some (w1, w2) ->
              on_seg w1 w2 q' -> d < dist pt q')).
Proof. exact (closest_point_spec p pt eps). Qed.
Print Assumptions C14_closest_point.

(** The grazing case is real: from across a small circle the code answers with a point of the circle
    that is not on the arc, at a distance a thousand times too small. *)
Theorem C14_opposite_refuted : exists p pt q d i, pline_ok p
  /\ (forall q', on_path p q' -> 19 / 1000 <= dist pt q')
  /\ closest_point p pt (1 / 100000) = Ret (Some (CPR i q d)) /\ d <= 1 / 100000 /\ ~ on_path p q.
Proof. exact closest_opposite. Qed.
Print Assumptions C14_opposite_refuted.

Example C14_example : exists q,
  closest_point ex_circle (V2 0 (-2)) (1 / 100000) = Ret (Some (CPR 0%nat q (dist (V2 0 (-2)) q)))
  /\ dist (V2 0 (-2)) q <= 1.
Proof. exact ex_circle_closest. Qed.

Example C14_example_plain : forall w1 w2,
  In (w1, w2) (spec_segs (vtx ex_circle) (is_closed ex_circle)) -> plain w1 w2 (V2 0 (-2)) (1 / 100000).
Proof. exact ex_circle_plain. Qed.
