(** Model of /repo/cavalier_contours/src/polyline/{pline_vertex,pline_seg}.rs. *)
From Coq Require Import ZArith Bool List.
From Verif Require Import Num ModelMath.
Import ListNotations.
Local Open Scope num_scope.

(** pline_vertex.rs:16-23 *)
Record vertex (T : Type) := Vtx { px : T; py : T; pbulge : T }.
Arguments Vtx {T} px py pbulge.
Arguments px {T} v.
Arguments py {T} v.
Arguments pbulge {T} v.

(** static_aabb2d_index::AABB (external crate): min_x, min_y, max_x, max_y *)
Record aabb (T : Type) := AABB { bmin_x : T; bmin_y : T; bmax_x : T; bmax_y : T }.
Arguments AABB {T} _ _ _ _.
Arguments bmin_x {T} _.
Arguments bmin_y {T} _.
Arguments bmax_x {T} _.
Arguments bmax_y {T} _.

(** pline_seg.rs:62-70 *)
Record split_result (T : Type) := SplitResult { updated_start : vertex T; split_vertex : vertex T }.
Arguments SplitResult {T} _ _.
Arguments updated_start {T} _.
Arguments split_vertex {T} _.

Section Seg.
Context {T : Type} {N : Num T}.

(** pline_vertex.rs:84-90 *)
Definition vertex_from_slice (l : list T) : option (vertex T) :=
  match l with [x; y; b] => Some (Vtx x y b) | _ => None end.
(** pline_vertex.rs:94-96 *)
Definition from_vector2 (v : vec2 T) (b : T) : vertex T := Vtx (vx v) (vy v) b.
(** pline_vertex.rs:100-102 *)
Definition with_bulge (v : vertex T) (b : T) : vertex T := Vtx (px v) (py v) b.
(** pline_vertex.rs:106-108 *)
Definition pos (v : vertex T) : vec2 T := V2 (px v) (py v).
(** pline_vertex.rs:112-114 *)
Definition bulge_is_zero (v : vertex T) : bool := fuzzy_eq_zero (pbulge v).
(** pline_vertex.rs:119-121 *)
Definition bulge_is_pos (v : vertex T) : bool := pbulge v >? nzero.
(** pline_vertex.rs:125-127 *)
Definition bulge_is_neg (v : vertex T) : bool := pbulge v <? nzero.
(** pline_vertex.rs:131-135 *)
Definition vfuzzy_eq_eps (a b : vertex T) (eps : T) : bool :=
  fuzzy_eq_eps (px a) (px b) eps && fuzzy_eq_eps (py a) (py b) eps
  && fuzzy_eq_eps (pbulge a) (pbulge b) eps.
(** pline_vertex.rs:139-141 *)
Definition vfuzzy_eq (a b : vertex T) : bool := vfuzzy_eq_eps a b nfuzzy_epsilon.

(** pline_seg.rs:28-57 (debug_asserts: v1 is an arc, v1 not on top of v2) *)
Definition seg_arc_radius_and_center (v1 v2 : vertex T) : T * vec2 T :=
  let abs_bulge := nabs (pbulge v1) in
  let chord_v := v2sub (pos v2) (pos v1) in
  let chord_len := v2length chord_v in
  let radius := chord_len * (abs_bulge * abs_bulge + none_) / (nfour * abs_bulge) in
  let s := abs_bulge * chord_len / ntwo in
  let m := radius - s in
  let offs_x := - m * vy chord_v / chord_len in
  let offs_y := m * vx chord_v / chord_len in
  let '(offs_x, offs_y) := if bulge_is_neg v1 then (- offs_x, - offs_y) else (offs_x, offs_y) in
  (radius, V2 (px v1 + vx chord_v / ntwo + offs_x) (py v1 + vy chord_v / ntwo + offs_y)).

(** pline_seg.rs:88-148 *)
Definition seg_split_at_point (v1 v2 : vertex T) (point_on_seg : vec2 T) (pos_equal_eps : T)
  : split_result T :=
  if bulge_is_zero v1 then
    SplitResult v1 (Vtx (vx point_on_seg) (vy point_on_seg) nzero)
  else if v2fuzzy_eq_eps (pos v1) (pos v2) pos_equal_eps
          || v2fuzzy_eq_eps (pos v1) point_on_seg pos_equal_eps then
    SplitResult (Vtx (vx point_on_seg) (vy point_on_seg) nzero)
                (Vtx (vx point_on_seg) (vy point_on_seg) (pbulge v1))
  else if v2fuzzy_eq_eps (pos v2) point_on_seg pos_equal_eps then
    SplitResult v1 (Vtx (px v2) (py v2) nzero)
  else
    let '(_, arc_center) := seg_arc_radius_and_center v1 v2 in
    let point_pos_angle := angle arc_center point_on_seg in
    let arc_start_angle := angle arc_center (pos v1) in
    let theta1 := delta_angle_signed arc_start_angle point_pos_angle (bulge_is_neg v1) in
    let bulge1 := bulge_from_angle theta1 in
    let arc_end_angle := angle arc_center (pos v2) in
    let theta2 := delta_angle_signed point_pos_angle arc_end_angle (bulge_is_neg v1) in
    let bulge2 := bulge_from_angle theta2 in
    SplitResult (Vtx (px v1) (py v1) bulge1)
                (Vtx (vx point_on_seg) (vy point_on_seg) bulge2).

(** pline_seg.rs:168-194 *)
Definition seg_tangent_vector (v1 v2 : vertex T) (point_on_seg : vec2 T) : vec2 T :=
  if bulge_is_zero v1 then v2sub (pos v2) (pos v1)
  else
    let '(_, arc_center) := seg_arc_radius_and_center v1 v2 in
    if bulge_is_pos v1 then
      V2 (- (vy point_on_seg - vy arc_center)) (vx point_on_seg - vx arc_center)
    else
      V2 (vy point_on_seg - vy arc_center) (- (vx point_on_seg - vx arc_center)).

(** pline_seg.rs:218-258 *)
Definition seg_closest_point (v1 v2 : vertex T) (point : vec2 T) (epsilon : T) : vec2 T :=
  if bulge_is_zero v1 then line_seg_closest_point (pos v1) (pos v2) point
  else
    let '(arc_radius, arc_center) := seg_arc_radius_and_center v1 v2 in
    if v2fuzzy_eq_eps point arc_center epsilon then pos v1
    else if point_within_arc_sweep arc_center (pos v1) (pos v2) (bulge_is_neg v1) point epsilon
    then
      let v_to_point := v2normalize (v2sub point arc_center) in
      v2add (v2scale v_to_point arc_radius) arc_center
    else
      let dist1 := dist_squared (pos v1) point in
      let dist2 := dist_squared (pos v2) point in
      if dist1 <? dist2 then pos v1 else pos v2.

(** pline_seg.rs:265-295 *)
Definition seg_fast_approx_bounding_box (v1 v2 : vertex T) : aabb T :=
  if bulge_is_zero v1 then
    let '(min_x, max_x) := min_max (px v1) (px v2) in
    let '(min_y, max_y) := min_max (py v1) (py v2) in
    AABB min_x min_y max_x max_y
  else
    let b := pbulge v1 in
    let offs_x := b * (py v2 - py v1) / ntwo in
    let offs_y := - b * (px v2 - px v1) / ntwo in
    let '(pt_x_min, pt_x_max) := min_max (px v1 + offs_x) (px v2 + offs_x) in
    let '(pt_y_min, pt_y_max) := min_max (py v1 + offs_y) (py v2 + offs_y) in
    let '(end_point_x_min, end_point_x_max) := min_max (px v1) (px v2) in
    let '(end_point_y_min, end_point_y_max) := min_max (py v1) (py v2) in
    AABB (nmin end_point_x_min pt_x_min) (nmin end_point_y_min pt_y_min)
         (nmax end_point_x_max pt_x_max) (nmax end_point_y_max pt_y_max).

(** pline_seg.rs:298-344 *)
Definition arc_seg_bounding_box (v1 v2 : vertex T) : aabb T :=
  if v2fuzzy_eq (pos v1) (pos v2) then AABB (px v1) (py v1) (px v1) (py v1)
  else
    let '(arc_radius, arc_center) := seg_arc_radius_and_center v1 v2 in
    let start_angle := angle arc_center (pos v1) in
    let end_angle := angle arc_center (pos v2) in
    let sweep_angle := delta_angle_signed start_angle end_angle (bulge_is_neg v1) in
    let crosses_angle a := angle_is_within_sweep a start_angle sweep_angle in
    let min_x := if crosses_angle npi then vx arc_center - arc_radius
                 else nmin (px v1) (px v2) in
    let min_y := if crosses_angle (nlit 15 1 * npi) then vy arc_center - arc_radius
                 else nmin (py v1) (py v2) in
    let max_x := if crosses_angle nzero then vx arc_center + arc_radius
                 else nmax (px v1) (px v2) in
    let max_y := if crosses_angle (nlit 5 1 * npi) then vy arc_center + arc_radius
                 else nmax (py v1) (py v2) in
    AABB min_x min_y max_x max_y.

(** pline_seg.rs:349-361 *)
Definition seg_bounding_box (v1 v2 : vertex T) : aabb T :=
  if bulge_is_zero v1 then
    let '(min_x, max_x) := min_max (px v1) (px v2) in
    let '(min_y, max_y) := min_max (py v1) (py v2) in
    AABB min_x min_y max_x max_y
  else arc_seg_bounding_box v1 v2.

(** pline_seg.rs:388-404 *)
Definition seg_length (v1 v2 : vertex T) : T :=
  if vfuzzy_eq v1 v2 then nzero
  else if bulge_is_zero v1 then nsqrt (dist_squared (pos v1) (pos v2))
  else
    let '(arc_radius, arc_center) := seg_arc_radius_and_center v1 v2 in
    let start_angle := angle arc_center (pos v1) in
    let end_angle := angle arc_center (pos v2) in
    arc_radius * nabs (delta_angle start_angle end_angle).

(** pline_seg.rs:429-443 *)
Definition seg_midpoint (v1 v2 : vertex T) : vec2 T :=
  if bulge_is_zero v1 then midpoint (pos v1) (pos v2)
  else
    let '(arc_radius, arc_center) := seg_arc_radius_and_center v1 v2 in
    let angle1 := angle arc_center (pos v1) in
    let angle2 := angle arc_center (pos v2) in
    let angle_offset := delta_angle_signed angle1 angle2 (bulge_is_neg v1) / ntwo in
    let mid_angle := angle1 + angle_offset in
    point_on_circle arc_radius arc_center mid_angle.

End Seg.
