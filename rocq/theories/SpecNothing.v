(** Points too near to a polyline for an offset (C81). *)
From Coq Require Import Reals List.
From Verif Require Import Num RNum ModelMath ModelSeg ModelPline ModelOffset.
From Verif Require Import Spec SpecGeom SpecBox.
Local Open Scope R_scope.

(** The offset less its tolerance exceeds the distance of [q] from a point of [p] by more than the tolerances of the
    closest points. *)
Definition too_near (p : pline R) (offset : R) (o : offset_options R) (q : vec2 R) : Prop :=
  exists v1 v2 y, In (v1, v2) (spec_segs (vtx p) (is_closed p)) /\ seg_ok v1 v2 /\ on_seg v1 v2 y
  /\ dist q y + 3 * oo_pos_equal_eps o + 1 / 5000 <= Rabs offset - oo_offset_dist_eps o.
