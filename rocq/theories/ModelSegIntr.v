(** Model of /repo/cavalier_contours/src/polyline/pline_seg_intersect.rs. *)
From Coq Require Import ZArith Bool List.
From Verif Require Import Num ModelMath ModelIntr ModelSeg.
Import ListNotations.

(** pline_seg_intersect.rs:14-52 *)
Inductive seg_intr (T : Type) :=
| SINoIntersect
| SITangent (point : vec2 T)
| SIOne (point : vec2 T)
| SITwo (point1 point2 : vec2 T)
| SIOverlapLines (point1 point2 : vec2 T)
| SIOverlapArcs (point1 point2 : vec2 T).
Arguments SINoIntersect {T}.
Arguments SITangent {T} _.
Arguments SIOne {T} _.
Arguments SITwo {T} _ _.
Arguments SIOverlapLines {T} _ _.
Arguments SIOverlapArcs {T} _ _.

Section SegIntr.
Context {T : Type} {N : Num T}.
Local Open Scope num_scope.

(** pline_seg_intersect.rs:99-110 (also 270-281 and 284-295 for the two arcs) *)
Definition point_lies_on_arc (radius : T) (center : vec2 T) (a1 a2 : vertex T) (eps : T)
    (pt : vec2 T) : bool :=
  point_within_arc_sweep center (pos a1) (pos a2) (bulge_is_neg a1) pt eps
  && fuzzy_eq_eps (nsqrt (dist_squared pt center)) radius eps.

(** pline_seg_intersect.rs:115-130 *)
Definition point_in_sweep (p0 p1 : vec2 T) (center : vec2 T) (a1 a2 : vertex T) (eps : T) (t : T)
  : option (vec2 T) :=
  let line_length := v2length (v2sub p1 p0) in
  if negb (fuzzy_in_range_eps (t * line_length) nzero line_length eps) then None
  else
    let p := point_from_parametric p0 p1 t in
    if point_within_arc_sweep center (pos a1) (pos a2) (bulge_is_neg a1) p eps
    then Some p else None.

(** pline_seg_intersect.rs:92-228 *)
Definition line_arc_intr (p0 p1 : vec2 T) (a1 a2 : vertex T) (u_is_line : bool) (eps : T)
  : seg_intr T :=
  let '(arc_radius, arc_center) := seg_arc_radius_and_center a1 a2 in
  let lies_on_arc := point_lies_on_arc arc_radius arc_center a1 a2 eps in
  let in_sweep := point_in_sweep p0 p1 arc_center a1 a2 eps in
  match line_circle_intr p0 p1 arc_radius arc_center eps with
  | LCNoIntersect => SINoIntersect
  | LCTangentIntersect t0 =>
    if lies_on_arc p0 then SITangent p0
    else if lies_on_arc p1 then SITangent p1
    else match in_sweep t0 with Some p => SITangent p | None => SINoIntersect end
  | LCTwoIntersects t0 t1 =>
    match in_sweep t0, in_sweep t1 with
    | None, None => SINoIntersect
    | None, Some point | Some point, None =>
      if lies_on_arc p0 then SIOne p0
      else if lies_on_arc p1 then SIOne p1
      else SIOne point
    | Some point1, Some point2 =>
      let '(point1, point2) :=
        match lies_on_arc p0, lies_on_arc p1 with
        | true, true =>
          if dist_squared p0 point1 <? dist_squared p0 point2 then (p0, p1) else (p1, p0)
        | true, false =>
          if dist_squared p0 point1 <? dist_squared p0 point2 then (p0, point2) else (point1, p0)
        | false, true =>
          if dist_squared p1 point1 <? dist_squared p1 point2 then (p1, point2) else (point1, p1)
        | false, false => (point1, point2)
        end in
      if u_is_line || (dist_squared point1 (pos a1) <? dist_squared point2 (pos a1))
      then SITwo point1 point2 else SITwo point2 point1
    end
  end.

(** pline_seg_intersect.rs:329-347: collecting end points in two slots *)
Definition try_add_end_point (slots : option (vec2 T) * option (vec2 T)) (eps : T) (intr : vec2 T)
  : option (vec2 T) * option (vec2 T) :=
  match slots with
  | (None, s2) => (Some intr, s2)
  | (Some p1, s2) =>
    if v2fuzzy_eq_eps p1 intr eps then slots
    else match s2 with
         | None => (Some p1, Some intr)
         | Some _ => slots
         end
  end.

(** pline_seg_intersect.rs:325-425 *)
Definition arc_arc_two (v1 v2 u1 u2 : vertex T) (eps : T) (r1 : T) (c1 : vec2 T) (r2 : T)
    (c2 : vec2 T) (point1 point2 : vec2 T) : seg_intr T :=
  let both_sweep pt :=
    point_within_arc_sweep c1 (pos v1) (pos v2) (bulge_is_neg v1) pt eps
    && point_within_arc_sweep c2 (pos u1) (pos u2) (bulge_is_neg u1) pt eps in
  let on_arc1 := point_lies_on_arc r1 c1 v1 v2 eps in
  let on_arc2 := point_lies_on_arc r2 c2 u1 u2 eps in
  let slots := (None, None) in
  let slots := if on_arc1 (pos u1) then try_add_end_point slots eps (pos u1) else slots in
  let slots := if on_arc1 (pos u2) then try_add_end_point slots eps (pos u2) else slots in
  let slots := if on_arc2 (pos v1) then try_add_end_point slots eps (pos v1) else slots in
  let slots := if on_arc2 (pos v2) then try_add_end_point slots eps (pos v2) else slots in
  let pt1_in := both_sweep point1 in
  let pt2_in := both_sweep point2 in
  if pt1_in && pt2_in then
    match slots with
    | (None, None) => SITwo point1 point2
    | (None, Some e) | (Some e, None) =>
      if dist_squared e point1 <? dist_squared e point2 then SITwo e point2 else SITwo point1 e
    | (Some e1, Some e2) =>
      if dist_squared e1 point1 <? dist_squared e2 point1 then SITwo e1 e2 else SITwo e2 e1
    end
  else
    match slots with
    | (None, None) => if pt1_in then SIOne point1 else if pt2_in then SIOne point2 else SINoIntersect
    | (None, Some e) | (Some e, None) => SIOne e
    | (Some e1, Some e2) => SITwo e1 e2
    end.

(** pline_seg_intersect.rs:426-535 *)
Definition arc_arc_overlap (v1 v2 u1 u2 : vertex T) (eps : T) (r1 : T) (c1 : vec2 T) (r2 : T)
    (c2 : vec2 T) : seg_intr T :=
  let same_direction := Bool.eqb (bulge_is_neg v1) (bulge_is_neg u1) in
  let arc1_start := normalize_radians (angle c1 (pos v1)) in
  let arc1_sweep := angle_from_bulge (pbulge v1) in
  let '(arc2_start, arc2_sweep) :=
    if same_direction
    then (normalize_radians (angle c2 (pos u1)), angle_from_bulge (pbulge u1))
    else (normalize_radians (angle c2 (pos u2)), angle_from_bulge (- pbulge u1)) in
  let arc1_end := arc1_start + arc1_sweep in
  let arc2_end := arc2_start + arc2_sweep in
  let avg_radius := (r1 + r2) / ntwo in
  match fuzzy_eq_zero_eps (avg_radius * delta_angle arc1_start arc2_end) eps,
        fuzzy_eq_zero_eps (avg_radius * delta_angle arc2_start arc1_end) eps with
  | true, true => SITwo (pos u1) (pos u2)
  | true, false => SIOne (pos v1)
  | false, true => SIOne (pos u1)
  | false, false =>
    let arc2_starts_in_arc1 := angle_is_within_sweep arc2_start arc1_start arc1_sweep in
    let arc2_ends_in_arc1 := angle_is_within_sweep arc2_end arc1_start arc1_sweep in
    if arc2_starts_in_arc1 && arc2_ends_in_arc1 then SIOverlapArcs (pos u1) (pos u2)
    else if arc2_starts_in_arc1 then
      if same_direction then SIOverlapArcs (pos u1) (pos v2) else SIOverlapArcs (pos v2) (pos u2)
    else if arc2_ends_in_arc1 then
      if same_direction then SIOverlapArcs (pos v1) (pos u2) else SIOverlapArcs (pos u1) (pos v1)
    else if angle_is_within_sweep arc1_start arc2_start arc2_sweep then
      if same_direction then SIOverlapArcs (pos v1) (pos v2) else SIOverlapArcs (pos v2) (pos v1)
    else SINoIntersect
  end.

(** pline_seg_intersect.rs:305-324 and dispatch *)
Definition arc_arc_intr (v1 v2 u1 u2 : vertex T) (eps : T) : seg_intr T :=
  let '(r1, c1) := seg_arc_radius_and_center v1 v2 in
  let '(r2, c2) := seg_arc_radius_and_center u1 u2 in
  let both_sweep pt :=
    point_within_arc_sweep c1 (pos v1) (pos v2) (bulge_is_neg v1) pt eps
    && point_within_arc_sweep c2 (pos u1) (pos u2) (bulge_is_neg u1) pt eps in
  let on_arc1 := point_lies_on_arc r1 c1 v1 v2 eps in
  let on_arc2 := point_lies_on_arc r2 c2 u1 u2 eps in
  match circle_circle_intr r1 c1 r2 c2 eps with
  | CCNoIntersect => SINoIntersect
  | CCTangentIntersect point =>
    if on_arc1 (pos u1) then SITangent (pos u1)
    else if on_arc1 (pos u2) then SITangent (pos u2)
    else if on_arc2 (pos v1) then SITangent (pos v1)
    else if on_arc2 (pos v2) then SITangent (pos v2)
    else if both_sweep point then SITangent point
    else SINoIntersect
  | CCTwoIntersects point1 point2 => arc_arc_two v1 v2 u1 u2 eps r1 c1 r2 c2 point1 point2
  | CCOverlapping => arc_arc_overlap v1 v2 u1 u2 eps r1 c1 r2 c2
  end.

(** pline_seg_intersect.rs:58-537 *)
Definition pline_seg_intr (v1 v2 u1 u2 : vertex T) (pos_equal_eps : T) : seg_intr T :=
  let v_is_line := bulge_is_zero v1 in
  let u_is_line := bulge_is_zero u1 in
  if v_is_line && u_is_line then
    match line_line_intr (pos v1) (pos v2) (pos u1) (pos u2) pos_equal_eps with
    | LLNoIntersect | LLFalseIntersect _ _ => SINoIntersect
    | LLTrueIntersect seg1_t _ => SIOne (point_from_parametric (pos v1) (pos v2) seg1_t)
    | LLOverlapping seg2_t0 seg2_t1 =>
      SIOverlapLines (point_from_parametric (pos u1) (pos u2) seg2_t0)
                     (point_from_parametric (pos u1) (pos u2) seg2_t1)
    end
  else if v_is_line then line_arc_intr (pos v1) (pos v2) u1 u2 u_is_line pos_equal_eps
  else if u_is_line then line_arc_intr (pos u1) (pos u2) v1 v2 u_is_line pos_equal_eps
  else arc_arc_intr v1 v2 u1 u2 pos_equal_eps.

End SegIntr.
