(** The statements about moved polylines, and the triangle of C82 moved. *)
From Coq Require Import Reals List Lra Lia Bool ZArith Arith.
From Verif Require Import Num RNum Res ModelMath ModelIntr ModelSeg ModelSegIntr ModelPline ModelView ModelIndex
  ModelIntersects ModelBoolean ModelOffset Spec SpecGeom SpecIndex SpecPolyOff SpecTranslate ProofR ProofInvert ProofPolyOff3 ProofCompose ProofTranslate
  ProofTranslate2 ProofTranslate3 ProofTranslate4 ProofTranslate5.
Import ListNotations.
Local Open Scope R_scope.

Lemma moved_is p x y : translate_mut p x y = Ret (moved x y p).
Proof. rewrite translate_mut_spec. reflexivity. Qed.

Lemma list_offset x y p d o :
  parallel_offset_constructed (@list_index R _) (moved x y p) d o
  = rmap (map (moved x y)) (parallel_offset_constructed (@list_index R _) p d o).
Proof. apply t_offset_constructed. apply t_list_index. Qed.

Lemma PL_eq (a b : list (vertex R)) c : a = b -> PL a c = PL b c.
Proof. congruence. Qed.
Lemma cons_eq {A} (a b : A) l m : a = b -> l = m -> a :: l = b :: m.
Proof. congruence. Qed.
Lemma Vtx_eq3 (a b c d e f : R) : a = d -> b = e -> c = f -> Vtx a b c = Vtx d e f.
Proof. congruence. Qed.

Ltac pl_eq := unfold moved, polygon, moved_vertex, SpecOffsetJoin.vertex_at; cbn [map vtx is_closed vx vy px py pbulge];
  apply PL_eq; repeat (apply cons_eq; [apply Vtx_eq3; lra |]); reflexivity.

Lemma tri_moved : let p := PL [Vtx 10 (-20) 0; Vtx 18 (-20) 0; Vtx 10 (-14) 0] true in
  translate_mut (polygon [V2 0 0; V2 8 0; V2 0 6]) 10 (-20) = Ret p
  /\ parallel_offset_constructed (@list_index R _) p 1 (OO (1 / 100000) (1 / 10000) (1 / 10000) false)
     = Ret [PL [Vtx 11 (-19) 0; Vtx 15 (-19) 0; Vtx 11 (-16) 0] true].
Proof.
  cbv zeta. assert (E : moved 10 (-20) (polygon [V2 0 0; V2 8 0; V2 0 6]) = PL [Vtx 10 (-20) 0; Vtx 18 (-20) 0; Vtx 10 (-14) 0] true) by pl_eq.
  split; [rewrite moved_is, E; reflexivity |].
  rewrite <- E, list_offset. destruct tri_compose as (H & _). cbv zeta in H.
  unfold ProofConvexEx.tri, rect_ex_opts in H. rewrite H. unfold ProofConvexEx.tri_in. cbn [rmap map].
  apply f_equal. apply cons_eq; [| reflexivity]. pl_eq.
Qed.
