(** What is assumed of a spatial index: it reports exactly the boxes that overlap the query, each
    once, in any order. *)
From Coq Require Import List Arith Permutation.
From Verif Require Import Num ModelSeg ModelPline ModelIndex Spec.
Import ListNotations.

Section SpecIndex.
Context {T : Type} {N : Num T}.

(** [idx] is an index over [boxes]. *)
Definition index_of (boxes : list (aabb T)) (idx : sindex T) : Prop :=
  ix_boxes idx = boxes
  /\ Permutation (ix_order idx) (seq 0 (length boxes))
  /\ forall q, NoDup (ix_query idx q)
       /\ forall i, In i (ix_query idx q) <-> exists b, nth_error boxes i = Some b /\ aabb_overlaps b q = true.

(** [idx] is an index over boxes of the segments of [p]. *)
Definition pline_index (p : pline T) (idx : sindex T) : Prop :=
  index_of (map (fun s => seg_fast_approx_bounding_box (fst s) (snd s)) (spec_segs (vtx p) (is_closed p))) idx.

(** [mk] makes an index of any boxes. *)
Definition makes_index (mk : list (aabb T) -> sindex T) : Prop := forall boxes, index_of boxes (mk boxes).
End SpecIndex.
