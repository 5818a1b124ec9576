(** Offset results are made of pieces of the raw offset (C54).

    Where a raw offset is cut is that of C49. *)
From Coq Require Import Reals List Bool Arith.
From Verif Require Import Num RNum Res ModelMath ModelSeg ModelPline ModelView ModelIntersects ModelOffset.
From Verif Require Import Spec SpecGeom SpecView SpecIntersects SpecCuts.
Import ListNotations.

(** [cuts] are places where the raw offset [raw] of [p] is cut, in some order. *)
Definition offset_cuts {T} {N : Num T} (p : pline T) (offset : T) (o : offset_options T) (raw : pline T) (cuts : list (nat * vec2 T)) : Prop :=
  let eps := oo_pos_equal_eps o in
  if is_closed p && negb (oo_handle_self_intersects o) then
    exists pairs, pairs_ok raw eps (boxes_of raw) pairs /\ cuts = self_cuts raw eps pairs
  else
    exists dual pairs cross ends, create_raw_offset_polyline p (nneg offset) eps = Ret dual
    /\ pairs_ok raw eps (boxes_of raw) pairs /\ cross_ok dual eps (boxes_of raw) cross
    /\ (if is_closed p then ends = []
        else exists v w h1 h2, hd_error (vtx p) = Some v /\ hd_error (rev (vtx p)) = Some w
             /\ circle_hits raw (pos v) (nabs offset) h1 /\ circle_hits raw (pos w) (nabs offset) h2
             /\ ends = circle_cuts raw (pos v) (nabs offset) eps h1 ++ circle_cuts raw (pos w) (nabs offset) eps h2)
    /\ cuts = ends ++ self_cuts raw eps pairs ++ dual_cuts raw dual eps cross.

Local Open Scope R_scope.

(** The cuts are points of their segments; they and the ends of an open path are at or clearly, by [g], away from
    every vertex and each other; the rest of an arc after a cut does not count as a line. *)
Definition clean_cuts (g : R) (raw : pline R) (cuts : list (nat * vec2 R)) : Prop :=
  (forall i q, In (i, q) cuts -> crisp_vertexes g raw q
     /\ exists t, point_at raw i t q /\ (t < 1 -> forall a, nth_error (vtx raw) i = Some a -> rest_ok a t))
  /\ (forall x y, In x cuts -> In y cuts -> crisp g (snd x) (snd y))
  /\ (is_closed raw = false -> forall v, hd_error (vtx raw) = Some v \/ hd_error (rev (vtx raw)) = Some v -> crisp_vertexes g raw (pos v)).

(** Segments and cuts of the raw offset are clean. *)
Definition clean_offset (g : R) (p : pline R) (offset : R) (o : offset_options R) (raw : pline R) : Prop :=
  clear_pline g raw /\ forall cuts, offset_cuts p offset o raw cuts -> clean_cuts g raw cuts.

(** The segment from [a] to [b] is a piece of a segment of [raw], up to moving its end by at most [D]. *)
Definition from_raw (raw : pline R) (D : R) (a b : vertex R) : Prop :=
  exists v1 v2 t u w, In (v1, v2) (spec_segs (vtx raw) (is_closed raw)) /\ 0 <= t < u /\ u <= 1
    /\ piece v1 v2 t u a w /\ dist (pos b) (pos w) <= D.
