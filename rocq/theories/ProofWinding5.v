(** The start of a loop does not matter for the winding number (C15). *)
From Coq Require Import Reals ZArith Bool List Arith Lra Lia.
From Verif Require Import Num RNum Res ModelMath ModelSeg ModelPline Spec SpecGeom SpecIntr SpecBox SpecWinding.
From Verif Require Import ProofR ProofIntr ProofWinding4.
Local Open Scope R_scope.

Lemma winding_start (p p' : pline R) i q eps pt a b : pline_ok p -> pline_ok p' -> ~ on_path p pt -> 0 < eps ->
  nth_error (spec_segs (vtx p) (is_closed p)) i = Some (a, b) -> on_seg a b q ->
  (pbulge a <> 0 -> ~ is_point (pos a) (pos b) eps) ->
  rotate_start p i q eps = Ret (Some p') ->
  winding_number p' pt = winding_number p pt.
Proof.
  intros A B C D E F G H. apply (winding_rotate_start p p' i q eps pt a b); auto.
  intros Hb. apply not_true_is_false. intros Q. apply v2fuzzy_R in Q. apply (G Hb). unfold is_point.
  rewrite (Rabs_minus_sym (vx (pos b))), (Rabs_minus_sym (vy (pos b))). exact Q.
Qed.
