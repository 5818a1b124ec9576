(** Moving the polyline moves the results of the editing functions: an example. *)
From Coq Require Import Reals List Lra Lia Bool ZArith Arith.
From Verif Require Import Num RNum Res ModelMath ModelSeg ModelPline SpecPolyOff SpecTranslate ProofR ProofMeasure ProofWalkEx ProofTranslate6 ProofTranslate11.
Import ListNotations.
Local Open Scope R_scope.

Lemma edit_repeat : remove_repeat_pos (PL [Vtx 0 0 0; Vtx 4 0 0; Vtx 4 0 1; Vtx 4 3 0] false) (1 / 8)
  = Ret (Some (PL [Vtx 0 0 0; Vtx 4 0 1; Vtx 4 3 0] false)).
Proof.
  unfold remove_repeat_pos. cbn. unfold v2fuzzy_eq_eps, fuzzy_eq_eps. cbn. rnum. unfold Rabs. repeat (destruct (Rcase_abs _); try lra).
  rcases; cbn; try lra; reflexivity.
Qed.
Lemma edit_moved :
  remove_repeat_pos (PL [Vtx 10 (-20) 0; Vtx 14 (-20) 0; Vtx 14 (-20) 1; Vtx 14 (-17) 0] false) (1 / 8)
    = Ret (Some (PL [Vtx 10 (-20) 0; Vtx 14 (-20) 1; Vtx 14 (-17) 0] false))
  /\ find_point_at_path_length (PL [Vtx 10 (-20) 0; Vtx 13 (-16) 1; Vtx 13 (-14) 0] false) (5 + PI / 2) = Ret (inl (1%nat, V2 14 (-15))).
Proof.
  split.
  - replace (PL [Vtx 10 (-20) 0; Vtx 14 (-20) 0; _; _] false) with (moved 10 (-20) (PL [Vtx 0 0 0; Vtx 4 0 0; Vtx 4 0 1; Vtx 4 3 0] false)) by pl_eq.
    rewrite t_repeat, edit_repeat. cbn [rmap option_map]. do 2 apply f_equal. pl_eq.
  - replace (PL [Vtx 10 (-20) 0; Vtx 13 (-16) 1; _] false) with (moved 10 (-20) ex_path) by (unfold ex_path; pl_eq).
    rewrite t_find_point, ex_find. cbn [rmap fst snd]. unfold moved_point. cbn [vx vy]. do 3 apply f_equal. f_equal; lra.
Qed.
