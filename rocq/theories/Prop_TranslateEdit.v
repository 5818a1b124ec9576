(** C86: moving the polyline moves the results of the editing functions. *)
From Coq Require Import Reals List ZArith.
From Verif Require Import Num RNum Res ModelMath ModelSeg ModelPline ModelIndex ModelIntersects ModelRedundant.
From Verif Require Import SpecTranslate.
From Verif Require Import ProofTranslate4 ProofTranslate5 ProofTranslate11 ProofTranslate12.
Import ListNotations.
Local Open Scope R_scope.

(** Removing vertexes, for every polyline and tolerance: the moved result, or none exactly when there was none. *)
Theorem C86_remove_repeat x y p eps :
  remove_repeat_pos (moved x y p) eps = rmap (option_map (moved x y)) (remove_repeat_pos p eps)
  /\ create_from_remove_repeat (moved x y p) eps = rmap (moved x y) (create_from_remove_repeat p eps).
Proof. exact (conj (t_repeat x y p eps) (t_cfr x y p eps)). Qed.
Print Assumptions C86_remove_repeat.

Theorem C86_remove_redundant x y p eps :
  remove_redundant (moved x y p) eps = rmap (option_map (moved x y)) (remove_redundant p eps).
Proof. exact (t_redundant x y p eps). Qed.
Print Assumptions C86_remove_redundant.

Theorem C86_rotate_start x y p i q eps :
  rotate_start (moved x y p) i (moved_point x y q) eps = rmap (option_map (moved x y)) (rotate_start p i q eps).
Proof. exact (t_rotate x y p i q eps). Qed.
Print Assumptions C86_rotate_start.

Theorem C86_arcs_to_approx_lines x y p d :
  arcs_to_approx_lines (moved x y p) d = rmap (option_map (moved x y)) (arcs_to_approx_lines p d).
Proof. exact (t_approx x y p d). Qed.
Print Assumptions C86_arcs_to_approx_lines.

Theorem C86_invert_direction x y p : invert_direction_mut (moved x y p) = rmap (moved x y) (invert_direction_mut p).
Proof. exact (t_invert x y p). Qed.
Print Assumptions C86_invert_direction.

(** The same segment and the moved point, or the same length when the path is too short. *)
Theorem C86_find_point x y p target :
  find_point_at_path_length (moved x y p) target
  = rmap (fun r => match r with inl q => inl (fst q, moved_point x y (snd q)) | inr a => inr a end) (find_point_at_path_length p target).
Proof. exact (t_find_point x y p target). Qed.
Print Assumptions C86_find_point.

Theorem C86_self_intersects x y p idx idx' overlapping eps : moved_index x y idx idx' ->
  all_self_intersects_as_basic (moved x y p) idx' overlapping eps
  = rmap (map (fun b => BI (bi_index1 b) (bi_index2 b) (moved_point x y (bi_point b)))) (all_self_intersects_as_basic p idx overlapping eps).
Proof. exact (t_self x y p idx idx' overlapping eps). Qed.
Print Assumptions C86_self_intersects.

(** Two polylines with coordinates near (10, -20). *)
Example C86_example :
  remove_repeat_pos (PL [Vtx 10 (-20) 0; Vtx 14 (-20) 0; Vtx 14 (-20) 1; Vtx 14 (-17) 0] false) (1 / 8)
    = Ret (Some (PL [Vtx 10 (-20) 0; Vtx 14 (-20) 1; Vtx 14 (-17) 0] false))
  /\ find_point_at_path_length (PL [Vtx 10 (-20) 0; Vtx 13 (-16) 1; Vtx 13 (-14) 0] false) (5 + PI / 2) = Ret (inl (1%nat, V2 14 (-15))).
Proof. exact edit_moved. Qed.
Print Assumptions C86_example.
