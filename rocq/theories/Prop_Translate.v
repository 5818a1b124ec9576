(** C83: moving the input moves the result of the measuring functions, of the intersection of two segments, of
    [find_intersects] and of [parallel_offset]. *)
From Coq Require Import Reals List ZArith.
From Verif Require Import Num RNum Res ModelMath ModelSeg ModelSegIntr ModelPline ModelIndex ModelIntersects ModelOffset.
From Verif Require Import SpecPolyOff SpecTranslate ProofPolyOff3.
From Verif Require Import ProofTranslate ProofTranslate2 ProofTranslate3 ProofTranslate4 ProofTranslate5 ProofTranslate6.
Import ListNotations.
Local Open Scope R_scope.

(** [translate_mut] does move every vertex. *)
Theorem C83_moved p x y : translate_mut p x y = Ret (moved x y p).
Proof. exact (moved_is p x y). Qed.
Print Assumptions C83_moved.

(** For every polyline and every point, also one on the polyline. *)
Theorem C83_winding x y p q : winding_number (moved x y p) (moved_point x y q) = winding_number p q.
Proof. exact (t_winding x y p q). Qed.
Print Assumptions C83_winding.

Theorem C83_closest x y p q eps :
  closest_point (moved x y p) (moved_point x y q) eps = rmap (option_map (moved_closest x y)) (closest_point p q eps).
Proof. exact (t_closest_point x y p q eps). Qed.
Print Assumptions C83_closest.

Theorem C83_extents x y p : extents (moved x y p) = rmap (option_map (moved_box x y)) (extents p).
Proof. exact (t_extents x y p). Qed.
Print Assumptions C83_extents.

(** The same case with the same points, moved. *)
Theorem C83_intersection x y v1 v2 u1 u2 eps :
  pline_seg_intr (moved_vertex x y v1) (moved_vertex x y v2) (moved_vertex x y u1) (moved_vertex x y u2) eps
  = moved_intr x y (pline_seg_intr v1 v2 u1 u2 eps).
Proof. exact (t_seg_intr x y v1 v2 u1 u2 eps). Qed.
Print Assumptions C83_intersection.

Theorem C83_find_intersects x y p1 p2 idx idx' eps : moved_index x y idx idx' ->
  find_intersects (moved x y p1) (moved x y p2) idx' eps
  = rmap (fun r => (map (fun b => BI (bi_index1 b) (bi_index2 b) (moved_point x y (bi_point b))) (fst r),
                    map (fun o => OI (oi_index1 o) (oi_index2 o) (moved_point x y (oi_point1 o)) (moved_point x y (oi_point2 o))) (snd r)))
      (find_intersects p1 p2 idx eps).
Proof. exact (t_find x y p1 p2 idx idx' eps). Qed.
Print Assumptions C83_find_intersects.

(** The raw offset, for every polyline, closed or not, with or without arcs. *)
Theorem C83_raw_offset x y p d eps :
  create_raw_offset_polyline (moved x y p) d eps = rmap (moved x y) (create_raw_offset_polyline p d eps).
Proof. exact (t_raw x y p d eps). Qed.
Print Assumptions C83_raw_offset.

(** The offset of every polyline, for every index constructor that answers moved questions about moved boxes as
    before; panics are moved too, so a moved polyline panics exactly when the polyline does. *)
Theorem C83_offset mk x y p idx idx' d o : (forall l, moved_index x y (mk l) (mk (map (moved_box x y) l))) -> moved_index x y idx idx' ->
  parallel_offset mk (moved x y p) idx' d o = rmap (map (moved x y)) (parallel_offset mk p idx d o).
Proof. exact (fun H => t_offset x y mk H p idx idx' d o). Qed.
Print Assumptions C83_offset.

Theorem C83_offset_list x y p d o :
  parallel_offset_constructed (@list_index R _) (moved x y p) d o
  = rmap (map (moved x y)) (parallel_offset_constructed (@list_index R _) p d o).
Proof. exact (list_offset x y p d o). Qed.
Print Assumptions C83_offset_list.

(** The index that tests every box answers moved questions as before. *)
Theorem C83_list_index x y l : moved_index x y (@list_index R _ l) (list_index (map (moved_box x y) l)).
Proof. exact (t_list_index x y l). Qed.
Print Assumptions C83_list_index.

(** The triangle of C82 moved by (10, -20): its offset by 1 is the moved offset. *)
Example C83_example : let p := PL [Vtx 10 (-20) 0; Vtx 18 (-20) 0; Vtx 10 (-14) 0] true in
  translate_mut (polygon [V2 0 0; V2 8 0; V2 0 6]) 10 (-20) = Ret p
  /\ parallel_offset_constructed (@list_index R _) p 1 (OO (1 / 100000) (1 / 10000) (1 / 10000) false)
     = Ret [PL [Vtx 11 (-19) 0; Vtx 15 (-19) 0; Vtx 11 (-16) 0] true].
Proof. exact tri_moved. Qed.
Print Assumptions C83_example.
