(** C53: fuzzy comparisons. *)
From Coq Require Import Bool List Arith Reals Floats.
From Verif Require Import Num RNum FNum ModelMath ModelSeg ModelPline ProofFuzzy.
Import ListNotations.
Open Scope R_scope.

Theorem C53_numbers :
  forall a b mn mx eps : R,
  (fuzzy_eq_eps a b eps = true <-> Rabs (a - b) < eps)
  /\ (fuzzy_eq_zero_eps a eps = true <-> Rabs a < eps)
  /\ (fuzzy_gt_eps a b eps = true <-> b - eps < a)
  /\ (fuzzy_lt_eps a b eps = true <-> a < b + eps)
  /\ (fuzzy_in_range_eps a mn mx eps = true <-> mn - eps < a < mx + eps).
Proof. exact scalar_compare. Qed.
Print Assumptions C53_numbers.

Theorem C53_default :
  forall a b mn mx : R,
  (fuzzy_eq a b = true <-> Rabs (a - b) < 1 / 100000000)
  /\ (fuzzy_eq_zero a = true <-> Rabs a < 1 / 100000000)
  /\ (fuzzy_gt a b = true <-> b - 1 / 100000000 < a)
  /\ (fuzzy_lt a b = true <-> a < b + 1 / 100000000)
  /\ (fuzzy_in_range a mn mx = true <-> mn - 1 / 100000000 < a < mx + 1 / 100000000).
Proof. exact default_compare. Qed.
Print Assumptions C53_default.

Theorem C53_vectors :
  forall (a b : vec2 R) eps,
  v2fuzzy_eq_eps a b eps = true <-> Rabs (vx a - vx b) < eps /\ Rabs (vy a - vy b) < eps.
Proof. exact vector_compare. Qed.
Print Assumptions C53_vectors.

Theorem C53_polylines :
  forall (p q : pline R) eps, pline_fuzzy_eq_eps p q eps = true <->
  is_closed p = is_closed q /\ length (vtx p) = length (vtx q)
  /\ forall i a b, nth_error (vtx p) i = Some a -> nth_error (vtx q) i = Some b ->
       Rabs (px a - px b) < eps /\ Rabs (py a - py b) < eps /\ Rabs (pbulge a - pbulge b) < eps.
Proof. exact pline_compare. Qed.
Print Assumptions C53_polylines.

Example C53_example :
  let p := PL [Vtx 0 0 1; Vtx 2 0 0]%float true in
  let q := PL [Vtx 0 0 1; Vtx 2.125 0 0]%float true in
  (pline_fuzzy_eq_eps p q 0.25%float, pline_fuzzy_eq_eps p q 0.125%float,
   pline_fuzzy_eq_eps p (PL (vtx q) false) 0.25%float, pline_fuzzy_eq_eps p (PL [Vtx 0 0 1]%float true) 0.25%float)
  = (true, false, false, false).
Proof. vm_compute. reflexivity. Qed.
