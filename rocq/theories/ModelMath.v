(** Model of /repo/cavalier_contours/src/core/math/{vector2,base_math}.rs and
    /repo/cavalier_contours/src/core/traits/{fuzzy_eq,fuzzy_ord}.rs.
    [debug_assert!]s are not executed (release profile). *)
From Coq Require Import ZArith Bool.
From Verif Require Import Num.
Local Open Scope num_scope.

(** vector2.rs:5-8 *)
Record vec2 (T : Type) := V2 { vx : T; vy : T }.
Arguments V2 {T} vx vy.
Arguments vx {T} v.
Arguments vy {T} v.

Section Math.
Context {T : Type} {N : Num T}.

(** fuzzy_eq.rs:31-33 *)
Definition fuzzy_eq_eps (a b eps : T) : bool := nabs (a - b) <? eps.
(** fuzzy_eq.rs:11-13 *)
Definition fuzzy_eq (a b : T) : bool := fuzzy_eq_eps a b nfuzzy_epsilon.
(** fuzzy_eq.rs:35-37 *)
Definition fuzzy_eq_zero_eps (a eps : T) : bool := nabs a <? eps.
(** fuzzy_eq.rs:18-20 *)
Definition fuzzy_eq_zero (a : T) : bool := fuzzy_eq_zero_eps a nfuzzy_epsilon.
(** fuzzy_ord.rs:49-51 *)
Definition fuzzy_gt_eps (a b eps : T) : bool := b <? a + eps.
(** fuzzy_ord.rs:7-9 *)
Definition fuzzy_gt (a b : T) : bool := fuzzy_gt_eps a b nfuzzy_epsilon.
(** fuzzy_ord.rs:53-55 *)
Definition fuzzy_lt_eps (a b eps : T) : bool := a <? b + eps.
(** fuzzy_ord.rs:14-16 *)
Definition fuzzy_lt (a b : T) : bool := fuzzy_lt_eps a b nfuzzy_epsilon.
(** fuzzy_ord.rs:31-33 *)
Definition fuzzy_in_range_eps (a mn mx eps : T) : bool :=
  fuzzy_gt_eps a mn eps && fuzzy_lt_eps a mx eps.
(** fuzzy_ord.rs:40-42 *)
Definition fuzzy_in_range (a mn mx : T) : bool := fuzzy_in_range_eps a mn mx nfuzzy_epsilon.

(** vector2.rs:31-33 *)
Definition v2zero : vec2 T := V2 nzero nzero.
(** vector2.rs:163-165 with [Add], 195 *)
Definition v2add (a b : vec2 T) : vec2 T := V2 (vx a + vx b) (vy a + vy b).
(** vector2.rs:163-165 with [Sub], 196 *)
Definition v2sub (a b : vec2 T) : vec2 T := V2 (vx a - vx b) (vy a - vy b).
(** vector2.rs:203-205 with [Neg] *)
Definition v2neg (a : vec2 T) : vec2 T := V2 (- vx a) (- vy a).
(** vector2.rs:37-39 *)
Definition v2scale (a : vec2 T) (s : T) : vec2 T := V2 (s * vx a) (s * vy a).
(** vector2.rs:43-45 *)
Definition v2dot (a b : vec2 T) : T := vx a * vx b + vy a * vy b.
(** vector2.rs:49-51 *)
Definition v2perp_dot (a b : vec2 T) : T := vx a * vy b - vy a * vx b.
(** vector2.rs:55-57 *)
Definition v2length_squared (a : vec2 T) : T := v2dot a a.
(** vector2.rs:61-63 *)
Definition v2length (a : vec2 T) : T := nsqrt (v2dot a a).
(** vector2.rs:67-69 *)
Definition v2normalize (a : vec2 T) : vec2 T := v2scale a (none_ / v2length a).
(** vector2.rs:73-75 *)
Definition v2fuzzy_eq_eps (a b : vec2 T) (eps : T) : bool :=
  fuzzy_eq_eps (vx a) (vx b) eps && fuzzy_eq_eps (vy a) (vy b) eps.
(** vector2.rs:79-81 *)
Definition v2fuzzy_eq (a b : vec2 T) : bool := v2fuzzy_eq_eps a b nfuzzy_epsilon.
(** vector2.rs:85-87 *)
Definition v2perp (a : vec2 T) : vec2 T := V2 (- vy a) (vx a).
(** vector2.rs:91-93 *)
Definition v2unit_perp (a : vec2 T) : vec2 T := v2normalize (v2perp a).
(** vector2.rs:97-111 *)
Definition v2rotate_about (a origin : vec2 T) (angle : T) : vec2 T :=
  let translated := v2sub a origin in
  let s := nsin angle in
  let c := ncos angle in
  v2add (V2 (vx translated * c - vy translated * s) (vx translated * s + vy translated * c)) origin.

(** base_math.rs:15-20 *)
Definition min_max (v1 v2 : T) : T * T := if v1 <? v2 then (v1, v2) else (v2, v1).

(** base_math.rs:39-48 *)
Definition normalize_radians (angle : T) : T :=
  if (angle >=? nzero) && (angle <=? ntau) then angle
  else angle - nfloor (angle / ntau) * ntau.

(** base_math.rs:70-80 *)
Definition delta_angle (angle1 angle2 : T) : T :=
  let diff := normalize_radians (angle2 - angle1) in
  if diff >? npi then diff - ntau else diff.

(** base_math.rs:90-96 *)
Definition delta_angle_signed (angle1 angle2 : T) (negative : bool) : T :=
  let diff := delta_angle angle1 angle2 in
  if negative then - nabs diff else nabs diff.

(** base_math.rs:116-124 *)
Definition angle_is_between_eps (test_angle start_angle end_angle epsilon : T) : bool :=
  let end_sweep := normalize_radians (end_angle - start_angle) in
  let mid_sweep := normalize_radians (test_angle - start_angle) in
  mid_sweep <? end_sweep + epsilon.

(** base_math.rs:131-136 *)
Definition angle_is_between (test_angle start_angle end_angle : T) : bool :=
  angle_is_between_eps test_angle start_angle end_angle nfuzzy_epsilon.

(** base_math.rs:143-158 *)
Definition angle_is_within_sweep_eps (test_angle start_angle sweep_angle epsilon : T) : bool :=
  let end_angle := start_angle + sweep_angle in
  if sweep_angle <? nzero then angle_is_between_eps test_angle end_angle start_angle epsilon
  else angle_is_between_eps test_angle start_angle end_angle epsilon.

(** base_math.rs:165-170 *)
Definition angle_is_within_sweep (test_angle start_angle sweep_angle : T) : bool :=
  angle_is_within_sweep_eps test_angle start_angle sweep_angle nfuzzy_epsilon.

(** base_math.rs:180-203 (debug_assert on the discriminant not executed) *)
Definition quadratic_solutions (a b c sqrt_discriminant : T) : T * T :=
  let denom := ntwo * a in
  let sol1 := if b <? nzero then (- b + sqrt_discriminant) / denom
              else (- b - sqrt_discriminant) / denom in
  let sol2 := (c / a) / sol1 in
  (sol1, sol2).

(** base_math.rs:207-213 *)
Definition dist_squared (p0 p1 : vec2 T) : T := let d := v2sub p0 p1 in v2dot d d.

(** base_math.rs:217-222 *)
Definition angle (p0 p1 : vec2 T) : T := natan2 (vy p1 - vy p0) (vx p1 - vx p0).

(** base_math.rs:226-231 *)
Definition midpoint (p0 p1 : vec2 T) : vec2 T :=
  V2 ((vx p0 + vx p1) / ntwo) ((vy p0 + vy p1) / ntwo).

(** base_math.rs:235-241 ([sin_cos] is the pair of [sin] and [cos]) *)
Definition point_on_circle (radius : T) (center : vec2 T) (ang : T) : vec2 T :=
  V2 (vx center + radius * ncos ang) (vy center + radius * nsin ang).

(** base_math.rs:245-250 *)
Definition point_from_parametric (p0 p1 : vec2 T) (t : T) : vec2 T :=
  v2add p0 (v2scale (v2sub p1 p0) t).

(** base_math.rs:257-281 (debug_assert not executed; epsilon is only used by it) *)
Definition parametric_from_point (p0 p1 point : vec2 T) (epsilon : T) : T :=
  let x_diff := vx p1 - vx p0 in
  let y_diff := vy p1 - vy p0 in
  if nabs x_diff <? nabs y_diff then (vy point - vy p0) / y_diff
  else (vx point - vx p0) / x_diff.

(** base_math.rs:285-305 *)
Definition line_seg_closest_point (p0 p1 point : vec2 T) : vec2 T :=
  let v := v2sub p1 p0 in
  let w := v2sub point p0 in
  let c1 := v2dot w v in
  if c1 <? nfuzzy_epsilon then p0
  else
    let c2 := v2length_squared v in
    if c2 <? c1 + nfuzzy_epsilon then p1
    else
      let b := c1 / c2 in
      v2add p0 (v2scale v b).

(** base_math.rs:309-314 *)
Definition perp_dot_test_value (p0 p1 point : vec2 T) : T :=
  (vx p1 - vx p0) * (vy point - vy p0) - (vy p1 - vy p0) * (vx point - vx p0).

(** base_math.rs:330-335 *)
Definition is_left (p0 p1 point : vec2 T) : bool := perp_dot_test_value p0 p1 point >? nzero.

(** base_math.rs:339-344 *)
Definition is_left_or_equal (p0 p1 point : vec2 T) : bool :=
  perp_dot_test_value p0 p1 point >=? nzero.

(** base_math.rs:353-364 *)
Definition is_left_or_coincident_eps (p0 p1 point : vec2 T) (epsilon : T) : bool :=
  perp_dot_test_value p0 p1 point >? - epsilon.

(** base_math.rs:371-376 *)
Definition is_left_or_coincident (p0 p1 point : vec2 T) : bool :=
  is_left_or_coincident_eps p0 p1 point nfuzzy_epsilon.

(** base_math.rs:385-396 *)
Definition is_right_or_coincident_eps (p0 p1 point : vec2 T) (epsilon : T) : bool :=
  perp_dot_test_value p0 p1 point <? epsilon.

(** base_math.rs:403-408 *)
Definition is_right_or_coincident (p0 p1 point : vec2 T) : bool :=
  is_right_or_coincident_eps p0 p1 point nfuzzy_epsilon.

(** base_math.rs:437-455 *)
Definition point_within_arc_sweep (center arc_start arc_end : vec2 T) (is_clockwise : bool)
    (point : vec2 T) (epsilon : T) : bool :=
  if is_clockwise then
    is_right_or_coincident_eps center arc_start point epsilon
    && is_left_or_coincident_eps center arc_end point epsilon
  else
    is_left_or_coincident_eps center arc_start point epsilon
    && is_right_or_coincident_eps center arc_end point epsilon.

(** base_math.rs:462-467 *)
Definition bulge_from_angle (ang : T) : T := ntan (ang / nfour).

(** base_math.rs:474-479 *)
Definition angle_from_bulge (bulge : T) : T := nfour * natan bulge.

End Math.
