(** Concrete case beside C16. *)
From Coq Require Import Reals List Lra Lia.
From Verif Require Import Num RNum Res ModelMath ModelSeg ModelPline Spec SpecGeom SpecWalk.
From Verif Require Import ProofR ProofArc ProofArc2 ProofMeasure ProofWalk.
Import ListNotations.
Local Open Scope R_scope.

Lemma ex_walk : walk ex_path (5 + PI / 2) 1 (V2 4 5).
Proof.
  pose proof PI_pos as HPI.
  exists (Vtx 3 4 1), (Vtx 3 6 0), [5], PI. split; [reflexivity|]. split.
  { cbn. constructor; [|constructor]. cbn [fst snd].
    replace 5 with (seg_len_R (Vtx 0 0 0) (Vtx 3 4 1)).
    - apply seg_len_R_spec. apply seg_ok_line0.
    - unfold seg_len_R. cbn [pbulge]. destruct (Req_EM_T 0 0) as [_|N]; [|exfalso; now apply N].
      unfold dist, pos. cbn [px py vx vy]. apply sqrt_of_sqr; lra. }
  split.
  { replace PI with (seg_len_R (Vtx 3 4 1) (Vtx 3 6 0)).
    - apply seg_len_R_spec. apply seg_ok_half; [now left|right; lra].
    - unfold seg_len_R. cbn [pbulge]. destruct (Req_EM_T 1 0) as [E|_]; [lra|].
      rewrite atan_1_val, (Rabs_pos_eq PI) by lra.
      unfold radius_of, chord2, pos. cbn [vx vy px py]. rewrite (Rabs_pos_eq 1) by lra.
      rewrite (sqrt_of_sqr 2) by lra. field. }
  split; [cbn; lra|].
  right. cbn [pbulge]. split; [lra|]. exists (V2 3 5), 1, (- (PI / 2)).
  unfold is_arc, circle_pt, pos. cbn [vx vy px py rsum fold_right]. rewrite atan_1_val.
  rewrite !cos_neg, !sin_neg, cos_PI2, sin_PI2.
  replace (- (PI / 2) + PI) with (PI / 2) by field.
  replace (- (PI / 2) + (5 + PI / 2 - (5 + 0)) / PI * PI) with 0 by (field; lra).
  rewrite cos_PI2, sin_PI2, cos_0, sin_0.
  repeat split; try lra; apply vec2_eq; cbn [vx vy]; ring.
Qed.

Lemma ex_find : find_point_at_path_length ex_path (5 + PI / 2) = Ret (inl (1%nat, V2 4 5)).
Proof.
  destruct ex_path_ok as [O T]. pose proof PI_pos.
  destruct (find_point_exact ex_path (5 + PI / 2) O T ltac:(lra)) as (x & E & H1). rewrite E.
  destruct x as [[i q]|L].
  - destruct (walk_unique _ _ _ _ _ _ O H1 ex_walk) as [-> ->]. reflexivity.
  - destruct H1 as [H1 H2]. pose proof (walk_not_long _ _ _ _ _ O ex_walk H1). lra.
Qed.

Lemma ex_find_past : find_point_at_path_length ex_path 10 = Ret (inr (5 + PI)).
Proof.
  destruct ex_path_ok as [O T].
  destruct (find_point_exact ex_path 10 O T ltac:(lra)) as (x & E & H1). rewrite E.
  assert (EL : true_length ex_path = 5 + PI).
  { pose proof (path_length_true _ O T) as H2. rewrite ex_path_length in H2. congruence. }
  destruct x as [[i q]|L].
  - pose proof (walk_not_long _ _ _ _ _ O H1 (true_length_spec _ O)). rewrite EL in H. pose proof PI_4. lra.
  - destruct H1 as [H1 _]. rewrite (path_has_length_unique _ _ O H1), EL. reflexivity.
Qed.

(** A half circle, scaled by -2 and moved. *)
Lemma ex_image :
  scale_mut ex_path (-2) = Ret (PL [Vtx 0 0 0; Vtx (-6) (-8) 1; Vtx (-6) (-12) 0] false)
  /\ translate_mut ex_path 1 (-1) = Ret (PL [Vtx 1 (-1) 0; Vtx 4 3 1; Vtx 4 5 0] false).
Proof.
  rewrite ProofInvert.scale_mut_spec, ProofInvert.translate_mut_spec. unfold ex_path. cbn [vtx is_closed map px py pbulge]. rnum.
  split; repeat f_equal; lra.
Qed.
