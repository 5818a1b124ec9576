(** Model of /repo/cavalier_contours/src/polyline/pline_view.rs.

    Simplifications: a source (generic [PlineSource] in the code, which may itself be a view) is a
    [pline]; a [PlineView] is the pair of source and data. [debug_assert!]s are not executed. *)
From Coq Require Import ZArith Bool List Arith.
From Verif Require Import Num Res ModelMath ModelSeg ModelPline.
Import ListNotations.

(** pline_view.rs:138-153 *)
Record view_data (T : Type) := VD {
  vd_start_index : nat;
  vd_end_index_offset : nat;
  vd_updated_start : vertex T;
  vd_updated_end_bulge : T;
  vd_end_point : vec2 T;
  vd_inverted : bool }.
Arguments VD {T} _ _ _ _ _ _.
Arguments vd_start_index {T} _.
Arguments vd_end_index_offset {T} _.
Arguments vd_updated_start {T} _.
Arguments vd_updated_end_bulge {T} _.
Arguments vd_end_point {T} _.
Arguments vd_inverted {T} _.

(** pline_view.rs:675-696 *)
Inductive view_validation (T : Type) :=
| VVSourceHasNoSegments
| VVOffsetOutOfRange (offset source_length : nat)
| VVUpdatedStartNotOnSegment (start_point : vec2 T)
| VVEndPointNotOnSegment (end_point : vec2 T)
| VVEndPointOnFinalOffsetVertex (end_point : vec2 T) (final_offset_vertex : vertex T)
| VVUpdatedBulgeDoesNotMatch (updated_bulge expected : T)
| VVIsValid.
Arguments VVSourceHasNoSegments {T}.
Arguments VVOffsetOutOfRange {T} _ _.
Arguments VVUpdatedStartNotOnSegment {T} _.
Arguments VVEndPointNotOnSegment {T} _.
Arguments VVEndPointOnFinalOffsetVertex {T} _ _.
Arguments VVUpdatedBulgeDoesNotMatch {T} _ _.
Arguments VVIsValid {T}.

Section View.
Context {T : Type} {N : Num T}.
Local Open Scope num_scope.

(** pline_view.rs:177-179 *)
Definition view_vertex_count (d : view_data T) : nat := (vd_end_index_offset d + 2)%nat.

(** pline_view.rs:184-250 *)
Definition view_get_vertex (d : view_data T) (source : pline T) (index : nat)
  : res (option (vertex T)) :=
  let off := vd_end_index_offset d in
  if (view_vertex_count d <=? index)%nat then Ret None
  else if vd_inverted d then
    if Nat.eqb index 0 then
      Ret (Some (from_vector2 (vd_end_point d) (- vd_updated_end_bulge d)))
    else if (index <? off)%nat then
      let bulge_i := fwd_wrapping_index source (vd_start_index d) (off - index)%nat in
      let i := next_wrapping_index source bulge_i in
      let! v := at_ source i in
      let! w := at_ source bulge_i in
      Ret (Some (with_bulge v (- pbulge w)))
    else if Nat.eqb index off then
      let! o := usub off index in
      let i := fwd_wrapping_index source (vd_start_index d) (o + 1)%nat in
      let! v := at_ source i in
      Ret (Some (with_bulge v (- pbulge (vd_updated_start d))))
    else if Nat.eqb index (off + 1)%nat then
      Ret (Some (with_bulge (vd_updated_start d) nzero))
    else Ret None
  else
    if Nat.eqb index 0 then Ret (Some (vd_updated_start d))
    else if (index <? off)%nat then
      let! v := at_ source (fwd_wrapping_index source (vd_start_index d) index) in Ret (Some v)
    else if Nat.eqb index off then
      let! v := at_ source (fwd_wrapping_index source (vd_start_index d) off) in
      Ret (Some (with_bulge v (vd_updated_end_bulge d)))
    else if Nat.eqb index (off + 1)%nat then
      Ret (Some (from_vector2 (vd_end_point d) nzero))
    else Ret None.

(** Reading a view by its indexes: pline_view.rs:56-73 and [PlineCreation::create_from]
    (traits.rs:1779-1783). A view is never closed (61-63). *)
Definition view_vertexes (d : view_data T) (source : pline T) : res (list (vertex T)) :=
  rmapM (fun i => let! o := view_get_vertex d source i in unwrap o) (seq 0 (view_vertex_count d)).
Definition view_pline (d : view_data T) (source : pline T) : res (pline T) :=
  let! l := view_vertexes d source in Ret (PL l false).

(** pline_view.rs:255-286 *)
Definition create_on_single_segment (start_index : nat) (updated_start : vertex T)
    (end_intersect : vec2 T) (pos_equal_eps : T) : option (view_data T) :=
  if v2fuzzy_eq_eps (pos updated_start) end_intersect pos_equal_eps then None
  else Some (VD start_index 0 updated_start (pbulge updated_start) end_intersect false).

(** pline_view.rs:294-349 *)
Definition view_create (source : pline T) (start_index : nat) (end_intersect : vec2 T)
    (intersect_index : nat) (ustart : vertex T) (traverse_count : nat) (pos_equal_eps : T)
  : res (view_data T) :=
  if Nat.eqb traverse_count 0 then Panic AssertFailed
  else
    let! current_vertex := at_ source intersect_index in
    let! ob :=
      if v2fuzzy_eq_eps end_intersect (pos current_vertex) pos_equal_eps then
        let offset := (traverse_count - 1)%nat in
        if negb (Nat.eqb offset 0) then
          let! pi := prev_wrapping_index source intersect_index in
          let! pv := at_ source pi in
          Ret (offset, pbulge pv)
        else Ret (offset, pbulge ustart)
      else
        let! nv := at_ source (next_wrapping_index source intersect_index) in
        let split := seg_split_at_point current_vertex nv end_intersect pos_equal_eps in
        Ret (traverse_count, pbulge (updated_start split)) in
    let '(end_index_offset, updated_end_bulge) := ob in
    Ret (VD start_index end_index_offset ustart updated_end_bulge end_intersect false).

(** pline_view.rs:359-395 *)
Definition view_from_entire_pline (source : pline T) : res (view_data T) :=
  let vc := vertex_count source in
  if (vc <? 2)%nat then Panic AssertFailed
  else
    let! v0 := at_ source 0 in
    if is_closed source then
      let! lo := last_ source in
      let! l := unwrap lo in
      Ret (VD 0 (vc - 1) v0 (pbulge l) (pos v0) false)
    else
      let! w := at_ source (vc - 2) in
      let! l := at_ source (vc - 1) in
      Ret (VD 0 (vc - 2) v0 (pbulge w) (pos l) false).

(** pline_view.rs:486-590 *)
Definition view_from_slice_points (source : pline T) (start_point : vec2 T) (start_index : nat)
    (end_point : vec2 T) (end_index : nat) (pos_equal_eps : T) : res (option (view_data T)) :=
  let! sb :=
    if negb (is_closed source) && (end_index <=? start_index)%nat then Ret (start_index, false)
    else
      let next_index := next_wrapping_index source start_index in
      let! nv := at_ source next_index in
      if v2fuzzy_eq_eps (pos nv) start_point pos_equal_eps then Ret (next_index, true)
      else Ret (start_index, false) in
  let '(start_index, start_point_at_seg_end) := sb in
  let! index_dist := fwd_wrapping_dist source start_index end_index in
  let! traverse_count :=
    if Nat.eqb index_dist 0 && is_closed source
       && negb (v2fuzzy_eq_eps start_point end_point pos_equal_eps) then
      let! sv := at_ source start_index in
      let seg_start := pos sv in
      let dist1 := dist_squared seg_start start_point in
      let dist2 := dist_squared seg_start end_point in
      if dist1 <? dist2 then Ret 0%nat else Ret (vertex_count source)
    else Ret index_dist in
  let! start_v1 := at_ source start_index in
  let! start_v2 := at_ source (next_wrapping_index source start_index) in
  let ustart :=
    if start_point_at_seg_end then
      if Nat.eqb traverse_count 0 then
        updated_start (seg_split_at_point start_v1 start_v2 end_point pos_equal_eps)
      else start_v1
    else
      let updated_for_start :=
        split_vertex (seg_split_at_point start_v1 start_v2 start_point pos_equal_eps) in
      if Nat.eqb traverse_count 0 then
        updated_start (seg_split_at_point updated_for_start start_v2 end_point pos_equal_eps)
      else updated_for_start in
  if Nat.eqb traverse_count 0 then
    Ret (create_on_single_segment start_index ustart end_point pos_equal_eps)
  else
    let! d := view_create source start_index end_point end_index ustart traverse_count
                          pos_equal_eps in
    Ret (Some d).

(** pline_view.rs:406-477 *)
Definition view_from_new_start (source : pline T) (start_point : vec2 T) (start_index : nat)
    (pos_equal_eps : T) : res (option (view_data T)) :=
  if negb (is_closed source) then
    let! lo := last_ source in
    match lo with
    | None => Ret None
    | Some l =>
      let! e := usub (vertex_count source) 1 in
      view_from_slice_points source start_point start_index (pos l) e pos_equal_eps
    end
  else
    let vc := vertex_count source in
    if (vc <? 2)%nat then Panic AssertFailed
    else
      let next_index := next_wrapping_index source start_index in
      let! nv := at_ source next_index in
      let start_index := if v2fuzzy_eq_eps (pos nv) start_point pos_equal_eps
                         then next_index else start_index in
      let! start_v1 := at_ source start_index in
      let! start_v2 := at_ source (next_wrapping_index source start_index) in
      let split := seg_split_at_point start_v1 start_v2 start_point pos_equal_eps in
      let! ob :=
        if v2fuzzy_eq_eps (pos start_v1) start_point pos_equal_eps then
          let! pi := prev_wrapping_index source start_index in
          let! pv := at_ source pi in
          Ret ((vc - 1)%nat, pbulge pv)
        else Ret (vc, pbulge (updated_start split)) in
      let '(end_index_offset, updated_end_bulge) := ob in
      Ret (Some (VD start_index end_index_offset (split_vertex split) updated_end_bulge
                    start_point false)).

(** pline_view.rs:618-628 with the constants 593-597 *)
Definition point_is_on_segment (source : pline T) (seg_index : nat) (point : vec2 T) : res bool :=
  let on_seg_eps := nlit 1 3 in
  let! v1 := at_ source seg_index in
  let! v2 := at_ source (next_wrapping_index source seg_index) in
  if v2fuzzy_eq_eps point (pos v1) on_seg_eps || v2fuzzy_eq_eps point (pos v2) on_seg_eps
  then Ret true
  else Ret (v2fuzzy_eq_eps (seg_closest_point v1 v2 point (nlit 1 5)) point on_seg_eps).

(** pline_view.rs:601-670 *)
Definition validate_for_source (d : view_data T) (source : pline T) : res (view_validation T) :=
  let validation_eps := nlit 1 5 in
  if (vertex_count source <? 2)%nat then Ret VVSourceHasNoSegments
  else if (vertex_count source <? vd_end_index_offset d)%nat then
    Ret (VVOffsetOutOfRange (vd_end_index_offset d) (vertex_count source))
  else
    let! on1 := point_is_on_segment source (vd_start_index d) (pos (vd_updated_start d)) in
    if negb on1 then Ret (VVUpdatedStartNotOnSegment (pos (vd_updated_start d)))
    else
      let end_index := fwd_wrapping_index source (vd_start_index d) (vd_end_index_offset d) in
      let! on2 := point_is_on_segment source end_index (vd_end_point d) in
      if negb on2 then Ret (VVEndPointNotOnSegment (vd_end_point d))
      else
        let! ev := at_ source end_index in
        if v2fuzzy_eq_eps (vd_end_point d) (pos ev) validation_eps then
          Ret (VVEndPointOnFinalOffsetVertex (vd_end_point d) ev)
        else if Nat.eqb (vd_end_index_offset d) 0
                && negb (fuzzy_eq_eps (vd_updated_end_bulge d) (pbulge (vd_updated_start d))
                                      validation_eps)
        then Ret (VVUpdatedBulgeDoesNotMatch (vd_updated_end_bulge d)
                                             (pbulge (vd_updated_start d)))
        else Ret VVIsValid.

End View.
