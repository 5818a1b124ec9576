(** C06, C07, C08: length, area and orientation. *)
From Coq Require Import Reals List.
From Verif Require Import Num RNum Res ModelMath ModelSeg ModelPline Spec SpecGeom ProofMeasure.
Local Open Scope R_scope.

(** path_length is the sum of the lengths of the drawn segments. *)
Theorem C06_path_length p : pline_ok p -> no_tiny p ->
  exists L, path_length p = Ret L /\ path_has_length p L /\ 0 <= L
    /\ (forall L', path_has_length p L' -> L' = L).
Proof. exact (path_length_correct p). Qed.
Print Assumptions C06_path_length.

(** Segments shorter than the tolerance cost at most 1e-7 each. *)
Theorem C06_path_length_tolerance p : pline_ok p ->
  exists L L', path_length p = Ret L /\ path_has_length p L'
    /\ Rabs (L - L') <= INR (segment_count p) * (1 / 10000000).
Proof. exact (path_length_approx p). Qed.
Print Assumptions C06_path_length_tolerance.

Theorem C06_path_length_invariant p p' L k :
  pline_ok p -> no_tiny p -> pline_ok p' -> no_tiny p' -> path_length p = Ret L ->
  (invert_direction_mut p = Ret p' /\ k = 1
   \/ (exists x y, translate_mut p x y = Ret p') /\ k = 1
   \/ (exists i, (i <= vertex_count p)%nat /\ is_closed p = true
                 /\ p' = PL (spec_rotate i (vtx p)) true) /\ k = 1
   \/ (exists s, scale_mut p s = Ret p' /\ k = Rabs s)) ->
  path_length p' = Ret (k * L).
Proof. exact (path_length_invariant p p' L k). Qed.
Print Assumptions C06_path_length_invariant.

Example C06_example : pline_ok ex_path /\ no_tiny ex_path /\ path_length ex_path = Ret (5 + PI).
Proof. exact (conj (proj1 ex_path_ok) (conj (proj2 ex_path_ok) ex_path_length)). Qed.

Theorem C07_area p : is_closed p = true -> pline_ok p ->
  exists I, path_has_integral p I /\ area p = Ret (I / 2).
Proof. exact (area_is_integral p). Qed.
Print Assumptions C07_area.

Theorem C07_integral_unique p I J :
  pline_ok p -> path_has_integral p I -> path_has_integral p J -> I = J.
Proof. exact (path_has_integral_unique p I J). Qed.
Print Assumptions C07_integral_unique.

Theorem C07_area_open p : is_closed p = false -> area p = Ret 0.
Proof. exact (area_open p). Qed.
Print Assumptions C07_area_open.

Theorem C07_area_invariant p A : is_closed p = true -> bulges_area_ok p -> area p = Ret A ->
  (forall p', invert_direction_mut p = Ret p' -> area p' = Ret (- A))
  /\ (forall x y p', translate_mut p x y = Ret p' -> area p' = Ret A)
  /\ (forall s p', scale_mut p s = Ret p' -> area p' = Ret (s * s * A))
  /\ (forall k, (k <= vertex_count p)%nat -> area (PL (spec_rotate k (vtx p)) true) = Ret A).
Proof. exact (area_invariant p A). Qed.
Print Assumptions C07_area_invariant.

Example C07_example : pline_ok ex_circle /\ area ex_circle = Ret PI.
Proof. exact (conj ex_circle_ok ex_circle_area). Qed.

Theorem C08_orientation p A : area p = Ret A ->
  orientation p = Ret (if is_closed p then if Rlt_dec A 0 then Clockwise else CounterClockwise else Open).
Proof. exact (orientation_spec p A). Qed.
Print Assumptions C08_orientation.

Theorem C08_orientation_flip p p' A : area p = Ret A -> A <> 0 -> bulges_area_ok p -> is_closed p = true ->
  invert_direction_mut p = Ret p' ->
  (orientation p = Ret Clockwise /\ orientation p' = Ret CounterClockwise)
  \/ (orientation p = Ret CounterClockwise /\ orientation p' = Ret Clockwise).
Proof. exact (orientation_flip p p' A). Qed.
Print Assumptions C08_orientation_flip.

Example C08_example : orientation ex_circle = Ret CounterClockwise.
Proof. exact ex_circle_orientation. Qed.
