(** C18, C19: angles. *)
From Coq Require Import Reals.
From Verif Require Import Num RNum ModelMath SpecGeom ProofR ProofArc ProofArc2.
Local Open Scope R_scope.

Theorem C18_normalize a :
  (exists k : Z, normalize_radians a = a + IZR k * (2 * PI))
  /\ 0 <= normalize_radians a <= 2 * PI
  /\ (normalize_radians a = 2 * PI -> a = 2 * PI).
Proof. exact (normalize_radians_spec a). Qed.
Print Assumptions C18_normalize.

Theorem C18_delta_angle a b :
  (exists k : Z, delta_angle a b = b - a + IZR k * (2 * PI)) /\ - PI < delta_angle a b <= PI.
Proof. exact (delta_angle_spec a b). Qed.
Print Assumptions C18_delta_angle.

Theorem C18_delta_angle_signed a b (neg : bool) :
  Rabs (delta_angle_signed a b neg) = Rabs (delta_angle a b)
  /\ (if neg then delta_angle_signed a b neg <= 0 else 0 <= delta_angle_signed a b neg).
Proof. exact (delta_angle_signed_spec a b neg). Qed.
Print Assumptions C18_delta_angle_signed.

(** [m] and [w] are the counter-clockwise turns from the start to the test and to the end angle. *)
Theorem C18_angle_is_between test start end_ eps m w :
  (exists k : Z, m = test - start + IZR k * (2 * PI)) -> 0 <= m < 2 * PI -> test - start <> 2 * PI ->
  (exists k : Z, w = end_ - start + IZR k * (2 * PI)) -> 0 <= w < 2 * PI -> end_ - start <> 2 * PI ->
  (angle_is_between_eps test start end_ eps = true <-> m < w + eps).
Proof. exact (angle_is_between_spec test start end_ eps m w). Qed.
Print Assumptions C18_angle_is_between.

(** [m] is the counter-clockwise turn from the lower end of the sweep to the test angle. *)
Theorem C18_angle_is_within_sweep test start s eps m lo :
  Rabs s < 2 * PI -> lo = Rmin start (start + s) ->
  (exists k : Z, m = test - lo + IZR k * (2 * PI)) -> 0 <= m < 2 * PI -> test - lo <> 2 * PI ->
  (angle_is_within_sweep_eps test start s eps = true <-> m < Rabs s + eps).
Proof. exact (angle_is_within_sweep_spec test start s eps m lo). Qed.
Print Assumptions C18_angle_is_within_sweep.

Example C18_example_within :
  angle_is_within_sweep_eps 0 (PI / 2) (- PI) (1 / 100000) = true
  /\ angle_is_within_sweep_eps PI (PI / 2) (- PI) (1 / 100000) = false.
Proof. exact within_example. Qed.

Example C18_example : normalize_radians (5 * PI) = PI /\ delta_angle (PI / 2) (2 * PI) = - (PI / 2).
Proof. exact normalize_radians_example. Qed.
Example C18_example_between :
  angle_is_between_eps 0 (- (PI / 2)) (PI / 2) (1 / 100000) = true
  /\ angle_is_between_eps PI (- (PI / 2)) (PI / 2) (1 / 100000) = false.
Proof. exact between_example. Qed.

Theorem C19_angle_of_bulge_of_angle t :
  - (2 * PI) < t < 2 * PI -> angle_from_bulge (bulge_from_angle t) = t.
Proof. exact (angle_from_bulge_from_angle t). Qed.
Print Assumptions C19_angle_of_bulge_of_angle.

Theorem C19_bulge_of_angle_of_bulge b : bulge_from_angle (angle_from_bulge b) = b.
Proof. exact (bulge_from_angle_from_bulge b). Qed.
Print Assumptions C19_bulge_of_angle_of_bulge.

Example C19_example : angle_from_bulge 1 = PI /\ bulge_from_angle PI = 1.
Proof. exact bulge_example. Qed.
