(** Moving the result of a boolean operation by a vector. *)
From Coq Require Import Reals List.
From Verif Require Import Num ModelMath ModelSeg ModelPline ModelView ModelBoolean SpecTranslate.
Import ListNotations.
Local Open Scope R_scope.

Definition moved_view (x y : R) (d : view_data R) : view_data R :=
  VD (vd_start_index d) (vd_end_index_offset d) (moved_vertex x y (vd_updated_start d)) (vd_updated_end_bulge d)
     (moved_point x y (vd_end_point d)) (vd_inverted d).
Definition moved_slice (x y : R) (s : boolean_slice R) : boolean_slice R :=
  BS (moved_view x y (bs_view s)) (bs_source_is_pline1 s) (bs_overlapping s).
Definition moved_loop (x y : R) (r : boolean_result_pline R) : boolean_result_pline R :=
  BRP (moved x y (brp_pline r)) (map (moved_slice x y) (brp_subslices r)).
Definition moved_result (x y : R) (r : boolean_result R) : boolean_result R :=
  BR (map (moved_loop x y) (br_pos r)) (map (moved_loop x y) (br_neg r)) (br_info r).
