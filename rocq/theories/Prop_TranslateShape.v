(** C85: moving the polylines of a shape moves its offset. *)
From Coq Require Import Reals List ZArith.
From Verif Require Import Num RNum Res ModelMath ModelSeg ModelPline ModelIndex ModelShape.
From Verif Require Import SpecPolyOff SpecTranslate SpecTranslateShape.
From Verif Require Import ProofTranslate10.
Import ListNotations.
Local Open Scope R_scope.

(** The shape made of moved polylines is the moved shape. *)
Theorem C85_from_plines mk x y l : (forall l, moved_index x y (mk l) (mk (map (moved_box x y) l))) ->
  moved_outcome x y (shape_from_plines mk l) (shape_from_plines mk (map (moved x y) l)).
Proof. exact (from_outcome mk x y l). Qed.
Print Assumptions C85_from_plines.

(** The offset of every moved shape is the moved offset: the same loops in the same order; and it panics exactly when the
    shape in its old place panics. *)
Theorem C85_offset mk x y s s' d o : (forall l, moved_index x y (mk l) (mk (map (moved_box x y) l))) -> moved_shape x y s s' ->
  moved_outcome x y (shape_parallel_offset mk s d o) (shape_parallel_offset mk s' d o).
Proof. exact (offset_outcome mk x y s s' d o). Qed.
Print Assumptions C85_offset.

(** Both together, for the index that tests every box. *)
Theorem C85_list x y l d o :
  rmap loops_of (rbind (shape_from_plines (@list_index R _) (map (moved x y) l)) (fun s => shape_parallel_offset list_index s d o))
  = rmap (fun r => (map (moved x y) (fst r), map (moved x y) (snd r)))
      (rmap loops_of (rbind (shape_from_plines (@list_index R _) l) (fun s => shape_parallel_offset list_index s d o))).
Proof. exact (list_shape x y l d o). Qed.
Print Assumptions C85_list.

(** The square with an L as its hole of C79, moved by (100, -50). *)
Example C85_example : let b := tan (PI / 8) in
  rmap loops_of (rbind (shape_from_plines (@list_index R _)
      [polygon [V2 96 (-54); V2 108 (-54); V2 108 (-42); V2 96 (-42)]; polygon [V2 100 (-50); V2 100 (-46); V2 102 (-46); V2 102 (-48); V2 104 (-48); V2 104 (-50)]])
    (fun s => shape_parallel_offset list_index s (-1 / 2) (SO (1 / 100000) (1 / 10000) (1 / 10000))))
  = Ret ([PL [Vtx 96 (-109 / 2) 0; Vtx 108 (-109 / 2) b; Vtx (217 / 2) (-54) 0; Vtx (217 / 2) (-42) b; Vtx 108 (-83 / 2) 0; Vtx 96 (-83 / 2) b;
              Vtx (191 / 2) (-42) 0; Vtx (191 / 2) (-54) b] true],
         [PL [Vtx (201 / 2) (-99 / 2) 0; Vtx (201 / 2) (-93 / 2) 0; Vtx (203 / 2) (-93 / 2) 0; Vtx (203 / 2) (-48) b; Vtx 102 (-97 / 2) 0;
              Vtx (207 / 2) (-97 / 2) 0; Vtx (207 / 2) (-99 / 2) 0] true]).
Proof. exact slate_moved. Qed.
Print Assumptions C85_example.
