(** Moving the polylines of a shape moves its offset: the statements, and an example. *)
From Coq Require Import Reals List Lra Lia Bool ZArith Arith FunctionalExtensionality.
From Verif Require Import Num RNum Res ModelMath ModelSeg ModelPline ModelIndex ModelShape
  SpecGeom SpecPolyOff SpecTranslate SpecTranslateShape ProofR ProofTranslate ProofTranslate2
  ProofTranslate4 ProofTranslate6 ProofTranslate9 ProofPiecesEx2.
Import ListNotations.
Local Open Scope R_scope.

Lemma index_eq x y i i' : moved_index x y i i' -> i' = t_ix x y i.
Proof.
  intros (A & B & C). destruct i' as [b o q]. cbn [ix_boxes ix_order ix_query] in *. unfold t_ix. subst. f_equal.
  apply functional_extensionality. intros z. rewrite <- C, box_forth. reflexivity.
Qed.
Lemma loops_eq x y l l' : Forall2 (moved_loop x y) l l' -> l' = map (t_ip x y) l.
Proof.
  intros F. induction F as [| [p i] [p' i'] l l' (A & B) F IH]; [reflexivity |]. cbn [map]. rewrite IH. f_equal.
  cbn [ip_pline ip_index] in *. apply index_eq in B. subst. reflexivity.
Qed.
Lemma loops_moved x y l : Forall2 (moved_loop x y) l (map (t_ip x y) l).
Proof. induction l as [| a t IH]; constructor; [| exact IH]. split; [reflexivity | apply t_ix_ok]. Qed.
Lemma shape_eq x y s s' : moved_shape x y s s' -> s' = t_sh x y s.
Proof.
  intros (A & B & C). apply loops_eq in A, B. apply index_eq in C. destruct s' as [a b c]. cbn [sh_ccw sh_cw sh_index] in *. subst. reflexivity.
Qed.
Lemma shape_moved x y s : moved_shape x y s (t_sh x y s).
Proof. split; [apply loops_moved | split; [apply loops_moved | apply t_ix_ok]]. Qed.
Lemma outcome_moved x y r : moved_outcome x y r (rmap (t_sh x y) r).
Proof. destruct r as [s | k]; cbn; [apply shape_moved | reflexivity]. Qed.

Lemma from_outcome mk x y l : (forall l, moved_index x y (mk l) (mk (map (moved_box x y) l))) ->
  moved_outcome x y (shape_from_plines mk l) (shape_from_plines mk (map (moved x y) l)).
Proof. intros M. rewrite (t_from x y mk M). apply outcome_moved. Qed.
Lemma offset_outcome mk x y s s' d o : (forall l, moved_index x y (mk l) (mk (map (moved_box x y) l))) -> moved_shape x y s s' ->
  moved_outcome x y (shape_parallel_offset mk s d o) (shape_parallel_offset mk s' d o).
Proof. intros M H. apply shape_eq in H. subst. rewrite (t_shape x y mk M). apply outcome_moved. Qed.

Lemma list_shape x y l d o :
  rmap loops_of (rbind (shape_from_plines (@list_index R _) (map (moved x y) l)) (fun s => shape_parallel_offset list_index s d o))
  = rmap (fun r => (map (moved x y) (fst r), map (moved x y) (snd r)))
      (rmap loops_of (rbind (shape_from_plines (@list_index R _) l) (fun s => shape_parallel_offset list_index s d o))).
Proof.
  rewrite (t_shape_plines x y list_index (t_list_index x y)). destruct (rbind _ _) as [s |]; [| reflexivity].
  cbn [rmap]. unfold loops_of. cbn [fst snd t_sh sh_ccw sh_cw]. rewrite !map_map. reflexivity.
Qed.

Lemma slate_moved : let b := tan (PI / 8) in
  rmap loops_of (rbind (shape_from_plines (@list_index R _)
      [polygon [V2 96 (-54); V2 108 (-54); V2 108 (-42); V2 96 (-42)]; polygon [V2 100 (-50); V2 100 (-46); V2 102 (-46); V2 102 (-48); V2 104 (-48); V2 104 (-50)]])
    (fun s => shape_parallel_offset list_index s (-1 / 2) (SO (1 / 100000) (1 / 10000) (1 / 10000))))
  = Ret ([PL [Vtx 96 (-109 / 2) 0; Vtx 108 (-109 / 2) b; Vtx (217 / 2) (-54) 0; Vtx (217 / 2) (-42) b; Vtx 108 (-83 / 2) 0; Vtx 96 (-83 / 2) b;
              Vtx (191 / 2) (-42) 0; Vtx (191 / 2) (-54) b] true],
         [PL [Vtx (201 / 2) (-99 / 2) 0; Vtx (201 / 2) (-93 / 2) 0; Vtx (203 / 2) (-93 / 2) 0; Vtx (203 / 2) (-48) b; Vtx 102 (-97 / 2) 0;
              Vtx (207 / 2) (-97 / 2) 0; Vtx (207 / 2) (-99 / 2) 0] true]).
Proof.
  cbv zeta. destruct slate_example as (s & r & A & B & C & D & _).
  set (l := [polygon [V2 (-4) (-4); V2 8 (-4); V2 8 8; V2 (-4) 8]; polygon [V2 0 0; V2 0 4; V2 2 4; V2 2 2; V2 4 2; V2 4 0]]).
  replace [polygon [V2 96 (-54); _; _; _]; _] with (map (moved 100 (-50)) l)
    by (unfold l; cbn [map]; apply cons_eq; [pl_eq | apply cons_eq; [pl_eq | reflexivity]]).
  rewrite list_shape. change (shape_from_plines (@list_index R _) l = Ret s) in A. unfold SpecRing.ex_ring_opts in B. rewrite A. cbn [rbind]. rewrite B. cbn [rmap]. unfold loops_of. cbn [fst snd].
  rewrite C, D. unfold ProofPiecesEx.slate_raw, ProofOffEx.angle_raw. cbn [map]. apply f_equal. apply f_equal2; (apply cons_eq; [| reflexivity]); pl_eq.
Qed.
