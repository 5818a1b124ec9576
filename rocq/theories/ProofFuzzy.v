(** Fuzzy comparisons. *)
From Coq Require Import Bool List Arith Lia Reals Lra.
From Verif Require Import Num RNum ProofR ModelMath ModelSeg ModelPline.
Import ListNotations.
Open Scope R_scope.

Lemma fuzzy_eq_eps_iff (a b eps : R) : fuzzy_eq_eps a b eps = true <-> Rabs (a - b) < eps.
Proof. unfold fuzzy_eq_eps. cbn. destruct (rltb_spec (Rabs (a - b)) eps); split; intros; try lra; try discriminate; auto. Qed.

Theorem scalar_compare (a b mn mx eps : R) :
  (fuzzy_eq_eps a b eps = true <-> Rabs (a - b) < eps)
  /\ (fuzzy_eq_zero_eps a eps = true <-> Rabs a < eps)
  /\ (fuzzy_gt_eps a b eps = true <-> b - eps < a)
  /\ (fuzzy_lt_eps a b eps = true <-> a < b + eps)
  /\ (fuzzy_in_range_eps a mn mx eps = true <-> mn - eps < a < mx + eps).
Proof.
  split; [apply fuzzy_eq_eps_iff|].
  unfold fuzzy_in_range_eps, fuzzy_eq_zero_eps, fuzzy_gt_eps, fuzzy_lt_eps. cbn. rewrite andb_true_iff.
  repeat match goal with |- context [rltb ?x ?y] => destruct (rltb_spec x y) end; repeat split; intros; try lra; try tauto; try discriminate;
    repeat match goal with H : _ /\ _ |- _ => destruct H end; try lra; try discriminate.
Qed.

Theorem default_compare (a b mn mx : R) :
  (fuzzy_eq a b = true <-> Rabs (a - b) < 1 / 100000000)
  /\ (fuzzy_eq_zero a = true <-> Rabs a < 1 / 100000000)
  /\ (fuzzy_gt a b = true <-> b - 1 / 100000000 < a)
  /\ (fuzzy_lt a b = true <-> a < b + 1 / 100000000)
  /\ (fuzzy_in_range a mn mx = true <-> mn - 1 / 100000000 < a < mx + 1 / 100000000).
Proof.
  assert (E : nfuzzy_epsilon = 1 / 100000000) by (cbn; lra).
  unfold fuzzy_eq, fuzzy_eq_zero, fuzzy_gt, fuzzy_lt, fuzzy_in_range. rewrite E. apply scalar_compare.
Qed.

Theorem vector_compare (a b : vec2 R) eps :
  v2fuzzy_eq_eps a b eps = true <-> Rabs (vx a - vx b) < eps /\ Rabs (vy a - vy b) < eps.
Proof. unfold v2fuzzy_eq_eps. now rewrite andb_true_iff, !fuzzy_eq_eps_iff. Qed.

Lemma vertex_compare (a b : vertex R) eps : vfuzzy_eq_eps a b eps = true <->
  Rabs (px a - px b) < eps /\ Rabs (py a - py b) < eps /\ Rabs (pbulge a - pbulge b) < eps.
Proof. unfold vfuzzy_eq_eps. rewrite !andb_true_iff, !fuzzy_eq_eps_iff. tauto. Qed.

Lemma combine_nth_iff (P : vertex R -> vertex R -> bool) : forall l r, length l = length r ->
  forallb (fun vw => P (fst vw) (snd vw)) (combine l r) = true <->
  forall i a b, nth_error l i = Some a -> nth_error r i = Some b -> P a b = true.
Proof.
  induction l as [|a l IH]; destruct r as [|b r]; cbn [length combine forallb]; intros L; try discriminate.
  - split; [intros _ [|i]; discriminate|auto].
  - rewrite andb_true_iff, (IH r) by (injection L; auto). cbn [fst snd]. split.
    + intros [H1 H2] [|i] x y; [intros [= <-] [= <-]; exact H1|apply H2].
    + intros H. split; [now apply (H 0%nat)|]. intros i. apply (H (S i)).
Qed.

Theorem pline_compare (p q : pline R) eps : pline_fuzzy_eq_eps p q eps = true <->
  is_closed p = is_closed q /\ length (vtx p) = length (vtx q)
  /\ forall i a b, nth_error (vtx p) i = Some a -> nth_error (vtx q) i = Some b ->
       Rabs (px a - px b) < eps /\ Rabs (py a - py b) < eps /\ Rabs (pbulge a - pbulge b) < eps.
Proof.
  unfold pline_fuzzy_eq_eps, vertex_count. rewrite !andb_true_iff, Bool.eqb_true_iff, Nat.eqb_eq.
  setoid_rewrite <- vertex_compare. split.
  - intros [[C L] F]. split; [exact C|]. split; [exact L|]. now apply (combine_nth_iff (fun a b => vfuzzy_eq_eps a b eps)).
  - intros (C & L & F). split; [now split|]. now apply (combine_nth_iff (fun a b => vfuzzy_eq_eps a b eps)).
Qed.
