(** Model of the primitive intersections in /repo/cavalier_contours/src/core/math:
    line_line_intersect.rs, line_circle_intersect.rs, circle_circle_intersect.rs. *)
From Coq Require Import ZArith Bool.
From Verif Require Import Num ModelMath.
Local Open Scope num_scope.

(** line_line_intersect.rs:6-33 *)
Inductive line_line_result (T : Type) :=
| LLNoIntersect
| LLTrueIntersect (seg1_t seg2_t : T)
| LLOverlapping (seg2_t0 seg2_t1 : T)
| LLFalseIntersect (seg1_t seg2_t : T).
Arguments LLNoIntersect {T}.
Arguments LLTrueIntersect {T} _ _.
Arguments LLOverlapping {T} _ _.
Arguments LLFalseIntersect {T} _ _.

(** line_circle_intersect.rs:8-26 *)
Inductive line_circle_result (T : Type) :=
| LCNoIntersect
| LCTangentIntersect (t0 : T)
| LCTwoIntersects (t0 t1 : T).
Arguments LCNoIntersect {T}.
Arguments LCTangentIntersect {T} _.
Arguments LCTwoIntersects {T} _ _.

(** circle_circle_intersect.rs:6-26 *)
Inductive circle_circle_result (T : Type) :=
| CCNoIntersect
| CCTangentIntersect (point : vec2 T)
| CCTwoIntersects (point1 point2 : vec2 T)
| CCOverlapping.
Arguments CCNoIntersect {T}.
Arguments CCTangentIntersect {T} _.
Arguments CCTwoIntersects {T} _ _.
Arguments CCOverlapping {T}.

Section Intr.
Context {T : Type} {N : Num T}.

(** line_line_intersect.rs:90-228 *)
Definition line_line_intr (v1 v2 u1 u2 : vec2 T) (eps : T) : line_line_result T :=
  let v := v2sub v2 v1 in
  let u := v2sub u2 u1 in
  let v_pdot_u := v2perp_dot v u in
  let w := v2sub v1 u1 in
  let seg1_length := v2length (v2sub v2 v1) in
  let seg2_length := v2length (v2sub u2 u1) in
  if negb (fuzzy_eq_zero_eps v_pdot_u eps) then
    let seg1_t := v2perp_dot u w / v_pdot_u in
    let seg2_t := v2perp_dot v w / v_pdot_u in
    if negb (fuzzy_in_range_eps (seg1_t * seg1_length) nzero seg1_length eps)
       || negb (fuzzy_in_range_eps (seg2_t * seg2_length) nzero seg2_length eps)
    then LLFalseIntersect seg1_t seg2_t
    else LLTrueIntersect seg1_t seg2_t
  else
    let v_pdot_w := v2perp_dot v w in
    let u_pdot_w := v2perp_dot u w in
    if negb (fuzzy_eq_zero_eps v_pdot_w eps) || negb (fuzzy_eq_zero_eps u_pdot_w eps)
    then LLNoIntersect
    else
      let v_is_point := v2fuzzy_eq_eps v1 v2 eps in
      let u_is_point := v2fuzzy_eq_eps u1 u2 eps in
      if v_is_point && u_is_point then
        if v2fuzzy_eq_eps v1 u1 eps then LLTrueIntersect nzero nzero else LLNoIntersect
      else if v_is_point then
        let seg2_t := parametric_from_point u1 u2 v1 eps in
        if fuzzy_in_range_eps (seg2_t * seg2_length) nzero seg2_length eps
        then LLTrueIntersect nzero seg2_t else LLNoIntersect
      else if u_is_point then
        let seg1_t := parametric_from_point v1 v2 u1 eps in
        if fuzzy_in_range_eps (seg1_t * seg1_length) nzero seg1_length eps
        then LLTrueIntersect seg1_t nzero else LLNoIntersect
      else
        let w2 := v2sub v2 u1 in
        let '(a0, a1) := if fuzzy_eq_zero_eps (vx u) eps then (vy w / vy u, vy w2 / vy u)
                         else (vx w / vx u, vx w2 / vx u) in
        let '(b0, b1) := if a0 >? a1 then (a1, a0) else (a0, a1) in
        if negb (fuzzy_lt_eps (b0 * seg2_length) seg2_length eps)
           || negb (fuzzy_gt_eps (b1 * seg2_length) nzero eps)
        then LLNoIntersect
        else
          let seg2_t0 := nmax b0 nzero in
          let seg2_t1 := nmin b1 none_ in
          if fuzzy_eq_zero_eps ((seg2_t1 - seg2_t0) * seg2_length) eps then
            let seg1_t := if v2fuzzy_eq_eps v1 u1 eps || v2fuzzy_eq_eps v1 u2 eps
                          then nzero else none_ in
            LLTrueIntersect seg1_t seg2_t0
          else LLOverlapping seg2_t0 seg2_t1.

(** line_circle_intersect.rs:57-162 *)
Definition line_circle_intr (p0 p1 : vec2 T) (radius : T) (circle_center : vec2 T) (eps : T)
  : line_circle_result T :=
  let dx := vx p1 - vx p0 in
  let dy := vy p1 - vy p0 in
  let h := vx circle_center in
  let k := vy circle_center in
  if v2fuzzy_eq_eps p0 p1 eps then
    let xh := (vx p0 + vx p1) / ntwo - h in
    let yk := (vy p0 + vy p1) / ntwo - k in
    if fuzzy_eq_eps (xh * xh + yk * yk) (radius * radius) eps
    then LCTangentIntersect nzero else LCNoIntersect
  else
    let p0_shifted := v2sub p0 circle_center in
    let p1_shifted := v2sub p1 circle_center in
    let '(a, b, c) :=
      if fuzzy_eq_zero dx then
        let x_pos := (vx p1_shifted + vx p0_shifted) / ntwo in
        (none_, nzero, - x_pos)
      else
        let m := dy / dx in
        (m, - none_, vy p1_shifted - m * vx p1_shifted) in
    let a2 := a * a in
    let b2 := b * b in
    let c2 := c * c in
    let r2 := radius * radius in
    let a2_b2 := a2 + b2 in
    let shortest_dist := nabs c / nsqrt a2_b2 in
    if shortest_dist >? radius + eps then LCNoIntersect
    else
      let x0 := - a * c / a2_b2 + h in
      let y0 := - b * c / a2_b2 + k in
      if fuzzy_eq_eps shortest_dist radius eps then
        LCTangentIntersect (parametric_from_point p0 p1 (V2 x0 y0) eps)
      else
        let d := r2 - c2 / a2_b2 in
        let mult := nsqrt (nabs (d / a2_b2)) in
        let x_sol1 := x0 + b * mult in
        let x_sol2 := x0 - b * mult in
        let y_sol1 := y0 - a * mult in
        let y_sol2 := y0 + a * mult in
        let sol1 := parametric_from_point p0 p1 (V2 x_sol1 y_sol1) eps in
        let sol2 := parametric_from_point p0 p1 (V2 x_sol2 y_sol2) eps in
        let '(t0, t1) := min_max sol1 sol2 in
        LCTwoIntersects t0 t1.

(** circle_circle_intersect.rs:57-115 *)
Definition circle_circle_intr (radius1 : T) (center1 : vec2 T) (radius2 : T) (center2 : vec2 T)
    (eps : T) : circle_circle_result T :=
  let cv := v2sub center2 center1 in
  let d2 := v2dot cv cv in
  let d := nsqrt d2 in
  if fuzzy_eq_zero_eps d eps then
    if fuzzy_eq_eps radius1 radius2 eps then CCOverlapping else CCNoIntersect
  else if negb (fuzzy_lt_eps d (radius1 + radius2) eps)
          || negb (fuzzy_gt_eps d (nabs (radius1 - radius2)) eps)
  then CCNoIntersect
  else
    let rad1_sq := radius1 * radius1 in
    let a := (rad1_sq - radius2 * radius2 + d2) / (ntwo * d) in
    let midpoint := v2add center1 (v2scale cv (a / d)) in
    let diff := rad1_sq - a * a in
    if diff <? nzero then CCTangentIntersect midpoint
    else
      let h := nsqrt diff in
      let h_over_d := h / d in
      let x_term := h_over_d * vy cv in
      let y_term := h_over_d * vx cv in
      let pt1 := V2 (vx midpoint + x_term) (vy midpoint - y_term) in
      let pt2 := V2 (vx midpoint - x_term) (vy midpoint + y_term) in
      if v2fuzzy_eq_eps pt1 pt2 eps then CCTangentIntersect pt1
      else CCTwoIntersects pt1 pt2.

End Intr.
