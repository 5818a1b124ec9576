(** The external crate [static_aabb2d_index] (version 2.0), as specified by its documentation.

    An index over boxes added in order 0, 1, .. stores them in an order of its own
    ([item_indices]/[item_boxes]); [visit_query] reports the positions of the boxes overlapping the
    query box in an order of its own. Both orders are left open: [ix_order] and [ix_query] are any
    functions with the right content (see [index_ok] in SpecIndex.v). *)
From Coq Require Import Bool List Arith.
From Verif Require Import Num ModelSeg.
Import ListNotations.

Record sindex (T : Type) := IX {
  ix_boxes : list (aabb T);          (* boxes in the order they were added *)
  ix_order : list nat;               (* item_indices() *)
  ix_query : aabb T -> list nat }.   (* query result, in the order reported *)
Arguments IX {T} _ _ _.
Arguments ix_boxes {T} _.
Arguments ix_order {T} _.
Arguments ix_query {T} _ _.

Section Index.
Context {T : Type} {N : Num T}.
Local Open Scope num_scope.

(** AABB::overlaps_values *)
Definition aabb_overlaps (a q : aabb T) : bool :=
  negb (bmax_x q <? bmin_x a) && negb (bmax_y q <? bmin_y a)
  && negb (bmin_x q >? bmax_x a) && negb (bmin_y q >? bmax_y a).

(** A query box grown by [e] on each side, as the callers write it. *)
Definition aabb_grow (b : aabb T) (e : T) : aabb T :=
  AABB (bmin_x b - e) (bmin_y b - e) (bmax_x b + e) (bmax_y b + e).

(** The simplest index: everything in insertion order. Used to run the model. *)
Definition list_index (boxes : list (aabb T)) : sindex T :=
  IX boxes (seq 0 (length boxes))
     (fun q => map fst (filter (fun ib => aabb_overlaps (snd ib) q)
                               (combine (seq 0 (length boxes)) boxes))).

End Index.
