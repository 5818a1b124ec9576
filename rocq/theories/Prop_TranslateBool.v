(** C84: moving both polylines moves the result of a boolean operation. *)
From Coq Require Import Reals List ZArith.
From Verif Require Import Num RNum Res ModelMath ModelSeg ModelPline ModelView ModelIndex ModelIntersects ModelBoolean.
From Verif Require Import SpecPolyOff SpecTranslate SpecTranslateBool.
From Verif Require Import ProofTranslate7 ProofTranslate8.
Import ListNotations.
Local Open Scope R_scope.

(** Signed area, orientation and path length of every polyline, with or without arcs, do not depend on its place. *)
Theorem C84_measures x y p :
  area (moved x y p) = area p /\ orientation (moved x y p) = orientation p /\ path_length (moved x y p) = path_length p.
Proof. exact (conj (t_area x y p) (conj (t_orient x y p) (t_length x y p))). Qed.
Print Assumptions C84_measures.

(** The joined overlaps of the overlaps of two moved polylines are the moved joined overlaps. *)
Theorem C84_overlapping_slices x y l p1 p2 eps :
  sort_and_join_overlapping_intersects
    (map (fun o => OI (oi_index1 o) (oi_index2 o) (moved_point x y (oi_point1 o)) (moved_point x y (oi_point2 o))) l)
    (moved x y p1) (moved x y p2) eps
  = rmap (map (fun s => OS (os_start_indexes s) (os_end_indexes s) (moved_view x y (os_view s)) (os_is_loop s) (os_opposing s)))
      (sort_and_join_overlapping_intersects l p1 p2 eps).
Proof. exact (t_sort_join x y l p1 p2 eps). Qed.
Print Assumptions C84_overlapping_slices.

(** Every operation on every two polylines, crossing, overlapping, apart or invalid: the same loops in the same order,
    made of the same slices, moved; and a panic exactly when the polylines in their old place panic. *)
Theorem C84_boolean mk x y p1 p2 op idx idx' eps :
  (forall l, moved_index x y (mk l) (mk (map (moved_box x y) l))) -> moved_index x y idx idx' ->
  polyline_boolean mk (moved x y p1) (moved x y p2) op idx' eps = rmap (moved_result x y) (polyline_boolean mk p1 p2 op idx eps).
Proof. exact (fun H => t_boolean x y mk H p1 p2 op idx idx' eps). Qed.
Print Assumptions C84_boolean.

Theorem C84_boolean_list x y p1 p2 op eps :
  boolean_constructed (@list_index R _) (moved x y p1) (moved x y p2) op eps
  = rmap (moved_result x y) (boolean_constructed (@list_index R _) p1 p2 op eps).
Proof. exact (list_boolean x y p1 p2 op eps). Qed.
Print Assumptions C84_boolean_list.

(** The angle and the square of C68, which cross, moved by (100, -50). *)
Example C84_example op :
  let p1 := polygon [V2 0 0; V2 0 4; V2 2 4; V2 2 2; V2 4 2; V2 4 0] in let p2 := polygon [V2 1 1; V2 3 1; V2 3 3; V2 1 3] in
  let q1 := polygon [V2 100 (-50); V2 100 (-46); V2 102 (-46); V2 102 (-48); V2 104 (-48); V2 104 (-50)] in
  let q2 := polygon [V2 101 (-49); V2 103 (-49); V2 103 (-47); V2 101 (-47)] in
  exists r, boolean_constructed (@list_index R _) p1 p2 op (1 / 100000) = Ret r
  /\ boolean_constructed (@list_index R _) q1 q2 op (1 / 100000) = Ret (moved_result 100 (-50) r)
  /\ (op = BOr \/ op = BAnd \/ op = BXor -> br_pos (moved_result 100 (-50) r) <> []).
Proof. exact (ex_moved op). Qed.
Print Assumptions C84_example.
