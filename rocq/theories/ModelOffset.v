(** Model of /repo/cavalier_contours/src/polyline/internal/pline_offset.rs.

    Simplifications: input and output polylines are [pline]; a BTreeMap is an association list in
    increasing key order (see ModelBoolean.v); the spatial index of the input (from the options or
    constructed) is a parameter, and so is the constructor [mk] of the other indexes. Visitors of index
    queries that stop at the first hit satisfying a test are written as a test over the hits in the
    order reported. [sort_unstable_by] is a stable insertion sort (see ModelIntersects.v).
    [debug_assert!]s are not executed. *)
From Coq Require Import ZArith Bool List Arith.
From Verif Require Import Num Res ModelMath ModelIntr ModelSeg ModelPline ModelView ModelSegIntr
  ModelIndex ModelIntersects ModelBoolean.
Import ListNotations.

(** pline_types.rs: PlineOffsetOptions without the index *)
Record offset_options (T : Type) := OO {
  oo_pos_equal_eps : T;
  oo_slice_join_eps : T;
  oo_offset_dist_eps : T;
  oo_handle_self_intersects : bool }.
Arguments OO {T} _ _ _ _.
Arguments oo_pos_equal_eps {T} _.
Arguments oo_slice_join_eps {T} _.
Arguments oo_offset_dist_eps {T} _.
Arguments oo_handle_self_intersects {T} _.

(** pline_offset.rs:22-31 *)
Record raw_seg (T : Type) := RS {
  rs_v1 : vertex T; rs_v2 : vertex T; rs_orig_v2_pos : vec2 T; rs_collapsed_arc : bool }.
Arguments RS {T} _ _ _ _.
Arguments rs_v1 {T} _.
Arguments rs_v2 {T} _.
Arguments rs_orig_v2_pos {T} _.
Arguments rs_collapsed_arc {T} _.

(** [list.windows(2)] *)
Fixpoint windows2 {A} (l : list A) : list (A * A) :=
  match l with
  | a :: ((b :: _) as t) => (a, b) :: windows2 t
  | _ => []
  end.

(** Visitor of an index query breaking at the first hit for which [f] is true: was there one *)
Fixpoint rexists {A} (f : A -> res bool) (l : list A) : res bool :=
  match l with
  | [] => Ret false
  | a :: t => let! b := f a in if b then Ret true else rexists f t
  end.

Section Offset.
Context {T : Type} {N : Num T}.
Local Open Scope num_scope.

(** pline_offset.rs:39-48 *)
Definition raw_line_seg (offset : T) (v1 v2 : vertex T) : raw_seg T :=
  let line_v := v2sub (pos v2) (pos v1) in
  let offset_v := v2scale (v2unit_perp line_v) offset in
  RS (from_vector2 (v2add (pos v1) offset_v) nzero) (from_vector2 (v2add (pos v2) offset_v) nzero)
     (pos v2) false.

(** pline_offset.rs:50-72 *)
Definition raw_arc_seg (offset : T) (v1 v2 : vertex T) : raw_seg T :=
  let '(arc_radius, arc_center) := seg_arc_radius_and_center v1 v2 in
  let offs := if bulge_is_neg v1 then offset else - offset in
  let radius_after_offset := arc_radius + offs in
  let v1_to_center := v2normalize (v2sub (pos v1) arc_center) in
  let v2_to_center := v2normalize (v2sub (pos v2) arc_center) in
  let '(new_v1_bulge, collapsed_arc) :=
    if fuzzy_lt radius_after_offset nzero then (nzero, true) else (pbulge v1, false) in
  RS (from_vector2 (v2add (v2scale v1_to_center offs) (pos v1)) new_v1_bulge)
     (from_vector2 (v2add (v2scale v2_to_center offs) (pos v2)) (pbulge v2))
     (pos v2) collapsed_arc.

(** pline_offset.rs:34-92 *)
Definition create_untrimmed_raw_offset_segs (p : pline T) (offset : T) : res (list (raw_seg T)) :=
  let! segs := iter_segments p in
  Ret (map (fun s => if bulge_is_zero (fst s) then raw_line_seg offset (fst s) (snd s)
                     else raw_arc_seg offset (fst s) (snd s)) segs).

(** pline_offset.rs:97-102 *)
Definition is_false_intersect (t : T) : bool := (t <? nzero) || (t >? none_).

(** pline_offset.rs:106-118 *)
Definition bulge_for_connection (arc_center start_point end_point : vec2 T) (is_ccw : bool) : T :=
  bulge_from_angle (delta_angle_signed (angle arc_center start_point) (angle arc_center end_point)
                                       (negb is_ccw)).

(** pline_offset.rs:123-139 *)
Definition connect_using_arc (s1 s2 : raw_seg T) (ccw : bool) (result : pline T) (eps : T) : pline T :=
  let sp := pos (rs_v2 s1) in
  let ep := pos (rs_v1 s2) in
  let bulge := bulge_for_connection (rs_orig_v2_pos s1) sp ep ccw in
  add_or_replace (add_or_replace result (vx sp) (vy sp) bulge eps)
                 (vx ep) (vy ep) (pbulge (rs_v1 s2)) eps.

(** pline_offset.rs:150-206 *)
Definition line_line_join (s1 s2 : raw_seg T) (ccw : bool) (eps : T) (result : pline T) : pline T :=
  let v1 := rs_v1 s1 in
  let v2 := rs_v2 s1 in
  let u1 := rs_v1 s2 in
  let u2 := rs_v2 s2 in
  if rs_collapsed_arc s1 || rs_collapsed_arc s2 then connect_using_arc s1 s2 ccw result eps
  else
    match line_line_intr (pos v1) (pos v2) (pos u1) (pos u2) eps with
    | LLNoIntersect =>
      let bulge := if ccw then none_ else - none_ in
      add_or_replace (add_or_replace result (px v2) (py v2) bulge eps) (px u1) (py u1) (pbulge u1) eps
    | LLTrueIntersect seg1_t _ =>
      let ip := point_from_parametric (pos v1) (pos v2) seg1_t in
      add_or_replace result (vx ip) (vy ip) nzero eps
    | LLOverlapping _ _ => add_or_replace result (px v2) (py v2) nzero eps
    | LLFalseIntersect seg1_t seg2_t =>
      if (seg1_t >? none_) && is_false_intersect seg2_t
      then connect_using_arc s1 s2 ccw result eps
      else add_or_replace (add_or_replace result (px v2) (py v2) nzero eps)
                          (px u1) (py u1) (pbulge u1) eps
    end.

(** pline_offset.rs:232-276 *)
Definition line_arc_process (s1 s2 : raw_seg T) (ccw : bool) (eps : T) (result : pline T)
    (arc_center : vec2 T) (t : T) (intersect : vec2 T) : pline T :=
  let v2 := rs_v2 s1 in
  let u1 := rs_v1 s2 in
  let u2 := rs_v2 s2 in
  let true_line_intr := negb (is_false_intersect t) in
  let true_arc_intr :=
    point_within_arc_sweep arc_center (pos u1) (pos u2) (bulge_is_neg u1) intersect eps in
  if true_line_intr && true_arc_intr then
    let theta := delta_angle (angle arc_center intersect) (angle arc_center (pos u2)) in
    if Bool.eqb (theta >? nzero) (bulge_is_pos u1)
    then add_or_replace result (vx intersect) (vy intersect) (bulge_from_angle theta) eps
    else add_or_replace result (vx intersect) (vy intersect) (pbulge u1) eps
  else if (t >? none_) && negb true_arc_intr then connect_using_arc s1 s2 ccw result eps
  else if rs_collapsed_arc s1 then connect_using_arc s1 s2 ccw result eps
  else add_or_replace_vertex (add_or_replace result (px v2) (py v2) nzero eps) u1 eps.

(** pline_offset.rs:209-299 *)
Definition line_arc_join (s1 s2 : raw_seg T) (ccw : bool) (eps : T) (result : pline T) : pline T :=
  let v1 := rs_v1 s1 in
  let v2 := rs_v2 s1 in
  let '(arc_radius, arc_center) := seg_arc_radius_and_center (rs_v1 s2) (rs_v2 s2) in
  let process := line_arc_process s1 s2 ccw eps result arc_center in
  match line_circle_intr (pos v1) (pos v2) arc_radius arc_center eps with
  | LCNoIntersect => connect_using_arc s1 s2 ccw result eps
  | LCTangentIntersect t0 => process t0 (point_from_parametric (pos v1) (pos v2) t0)
  | LCTwoIntersects t0 t1 =>
    let intr1 := point_from_parametric (pos v1) (pos v2) t0 in
    let intr2 := point_from_parametric (pos v1) (pos v2) t1 in
    if dist_squared intr1 (rs_orig_v2_pos s1) <? dist_squared intr2 (rs_orig_v2_pos s1)
    then process t0 intr1 else process t1 intr2
  end.

(** pline_offset.rs:337-352 and 436-452: shorten the arc that ends at [v2] so that it ends at
    [intersect]; [arc_center] is the centre of that arc *)
Definition trim_previous_arc (result : pline T) (v2 : vertex T) (arc_center intersect : vec2 T)
    (eps : T) : res (pline T) :=
  let! lo := last_ result in
  let! prev_vertex := unwrap lo in
  if negb (bulge_is_zero prev_vertex) && negb (v2fuzzy_eq_eps (pos prev_vertex) (pos v2) eps) then
    let a := angle arc_center intersect in
    let prev_arc_center := snd (seg_arc_radius_and_center prev_vertex v2) in
    let prev_arc_start_angle := angle prev_arc_center (pos prev_vertex) in
    let updated_prev_theta := delta_angle prev_arc_start_angle a in
    if Bool.eqb (updated_prev_theta >? nzero) (bulge_is_pos prev_vertex)
    then set_last result (with_bulge prev_vertex (bulge_from_angle updated_prev_theta))
    else Ret result
  else Ret result.

(** pline_offset.rs:325-359 *)
Definition arc_line_process (s1 s2 : raw_seg T) (ccw : bool) (eps : T) (result : pline T)
    (arc_center : vec2 T) (t : T) (intersect : vec2 T) : res (pline T) :=
  let v1 := rs_v1 s1 in
  let v2 := rs_v2 s1 in
  let true_line_intr := negb (is_false_intersect t) in
  let true_arc_intr :=
    point_within_arc_sweep arc_center (pos v1) (pos v2) (bulge_is_neg v1) intersect eps in
  if true_line_intr && true_arc_intr then
    let! result := trim_previous_arc result v2 arc_center intersect eps in
    Ret (add_or_replace result (vx intersect) (vy intersect) nzero eps)
  else Ret (connect_using_arc s1 s2 ccw result eps).

(** pline_offset.rs:302-387 *)
Definition arc_line_join (s1 s2 : raw_seg T) (ccw : bool) (eps : T) (result : pline T)
  : res (pline T) :=
  let u1 := rs_v1 s2 in
  let u2 := rs_v2 s2 in
  let '(arc_radius, arc_center) := seg_arc_radius_and_center (rs_v1 s1) (rs_v2 s1) in
  let process := arc_line_process s1 s2 ccw eps result arc_center in
  match line_circle_intr (pos u1) (pos u2) arc_radius arc_center eps with
  | LCNoIntersect => Ret (connect_using_arc s1 s2 ccw result eps)
  | LCTangentIntersect t0 => process t0 (point_from_parametric (pos u1) (pos u2) t0)
  | LCTwoIntersects t0 t1 =>
    let orig_point := if rs_collapsed_arc s2 then pos u1 else rs_orig_v2_pos s1 in
    let intr1 := point_from_parametric (pos u1) (pos u2) t0 in
    let intr2 := point_from_parametric (pos u1) (pos u2) t1 in
    if dist_squared intr1 orig_point <? dist_squared intr2 orig_point
    then process t0 intr1 else process t1 intr2
  end.

(** pline_offset.rs:432-471 *)
Definition arc_arc_process (s1 s2 : raw_seg T) (ccw : bool) (eps : T) (result : pline T)
    (arc1_center arc2_center : vec2 T) (intersect : vec2 T) (true_intersect : bool)
  : res (pline T) :=
  let u1 := rs_v1 s2 in
  let u2 := rs_v2 s2 in
  if negb true_intersect then Ret (connect_using_arc s1 s2 ccw result eps)
  else
    let! result := trim_previous_arc result (rs_v2 s1) arc1_center intersect eps in
    let theta := delta_angle (angle arc2_center intersect) (angle arc2_center (pos u2)) in
    if Bool.eqb (theta >? nzero) (bulge_is_pos u1)
    then Ret (add_or_replace result (vx intersect) (vy intersect) (bulge_from_angle theta) eps)
    else Ret (add_or_replace result (vx intersect) (vy intersect) (pbulge u1) eps).

(** pline_offset.rs:390-511 *)
Definition arc_arc_join (s1 s2 : raw_seg T) (ccw : bool) (eps : T) (result : pline T)
  : res (pline T) :=
  let v1 := rs_v1 s1 in
  let v2 := rs_v2 s1 in
  let u1 := rs_v1 s2 in
  let u2 := rs_v2 s2 in
  let '(arc1_radius, arc1_center) := seg_arc_radius_and_center v1 v2 in
  let '(arc2_radius, arc2_center) := seg_arc_radius_and_center u1 u2 in
  let both_arcs_sweep_point pt :=
    point_within_arc_sweep arc1_center (pos v1) (pos v2) (bulge_is_neg v1) pt eps
    && point_within_arc_sweep arc2_center (pos u1) (pos u2) (bulge_is_neg u1) pt eps in
  let process := arc_arc_process s1 s2 ccw eps result arc1_center arc2_center in
  match circle_circle_intr arc1_radius arc1_center arc2_radius arc2_center eps with
  | CCNoIntersect => Ret (connect_using_arc s1 s2 ccw result eps)
  | CCTangentIntersect point => process point (both_arcs_sweep_point point)
  | CCTwoIntersects point1 point2 =>
    let dist1 := dist_squared point1 (rs_orig_v2_pos s1) in
    let dist2 := dist_squared point2 (rs_orig_v2_pos s1) in
    if fuzzy_eq_eps dist1 dist2 eps then
      if both_arcs_sweep_point point1 then process point1 true
      else process point2 (both_arcs_sweep_point point2)
    else if dist1 <? dist2 then process point1 (both_arcs_sweep_point point1)
    else process point2 (both_arcs_sweep_point point2)
  | CCOverlapping => Ret (add_or_replace_vertex result u1 eps)
  end.

(** pline_offset.rs:540-549 *)
Definition join_seg_pair (ccw : bool) (eps : T) (result : pline T) (ss : raw_seg T * raw_seg T)
  : res (pline T) :=
  let '(s1, s2) := ss in
  match bulge_is_zero (rs_v1 s1), bulge_is_zero (rs_v1 s2) with
  | true, true => Ret (line_line_join s1 s2 ccw eps result)
  | true, false => Ret (line_arc_join s1 s2 ccw eps result)
  | false, true => arc_line_join s1 s2 ccw eps result
  | false, false => arc_arc_join s1 s2 ccw eps result
  end.

(** pline_offset.rs:585-614 *)
Definition update_first_vertex (result : pline T) (updated_first_pos : vec2 T) : res (pline T) :=
  let! v0 := at_ result 0 in
  let moved b := set_vertex result 0 (Vtx (vx updated_first_pos) (vy updated_first_pos) b) in
  if bulge_is_zero v0 then moved (pbulge v0)
  else if (1 <? vertex_count result)%nat then
    let! v1 := at_ result 1 in
    let arc_center := snd (seg_arc_radius_and_center v0 v1) in
    let updated_theta := delta_angle (angle arc_center updated_first_pos)
                                     (angle arc_center (pos v1)) in
    if ((updated_theta <? nzero) && bulge_is_pos v0) || ((updated_theta >? nzero) && bulge_is_neg v0)
    then moved (pbulge v0)
    else moved (bulge_from_angle updated_theta)
  else Ret result.

(** pline_offset.rs:616-635 *)
Definition prune_singularity (result : pline T) (eps : T) : res (pline T) :=
  if (1 <? vertex_count result)%nat then
    let! v0 := at_ result 0 in
    let! lo := last_ result in
    let! l := unwrap lo in
    let! result :=
      if v2fuzzy_eq_eps (pos v0) (pos l) eps
      then let! r := remove_last result in Ret (snd r) else Ret result in
    if (1 <? vertex_count result)%nat then
      let! v0 := at_ result 0 in
      let! v1 := at_ result 1 in
      if v2fuzzy_eq_eps (pos v0) (pos v1) eps
      then let! r := remove result 0 in Ret (snd r) else Ret result
    else Ret result
  else Ret result.

(** pline_offset.rs:569-635 *)
Definition close_raw_offset (ccw : bool) (eps : T) (s1 s2 : raw_seg T) (first_vertex_replaced : bool)
    (result : pline T) : res (pline T) :=
  let! lo := last_ result in
  let! l := unwrap lo in
  let! closing := join_seg_pair ccw eps (PL [l] false) (s1, s2) in
  let! c0 := at_ closing 0 in
  let! result := set_last result c0 in
  let result := extend_vertexes result (skipn 1 (vtx closing)) in
  let! result :=
    if negb first_vertex_replaced then
      let! clo := last_ closing in
      let! cl := unwrap clo in
      update_first_vertex result (pos cl)
    else Ret result in
  prune_singularity result eps.

(** pline_offset.rs:513-648 *)
Definition create_raw_offset_polyline (p : pline T) (offset eps : T) : res (pline T) :=
  if (vertex_count p <? 2)%nat then Ret empty_pline
  else
    let! segs := create_untrimmed_raw_offset_segs p offset in
    match segs with
    | [] => Ret empty_pline
    | s0 :: rest =>
      if match rest with [] => rs_collapsed_arc s0 | _ => false end then Ret empty_pline
      else
        let ccw := offset <? nzero in
        let result := PL [rs_v1 s0] (is_closed p) in
        let pairs := windows2 segs in
        let! result := rfold (join_seg_pair ccw eps) (firstn 1 pairs) result in
        let first_vertex_replaced := Nat.eqb (vertex_count result) 1 in
        let! result := rfold (join_seg_pair ccw eps) (skipn 1 pairs) result in
        let s_last := last rest s0 in
        let! result :=
          if is_closed p && (1 <? vertex_count result)%nat
          then close_raw_offset ccw eps s_last s0 first_vertex_replaced result
          else Ret (add_or_replace_vertex result (rs_v2 s_last) eps) in
        Ret (if Nat.eqb (vertex_count result) 1 then clear result else result)
    end.

(** pline_offset.rs:651-688 *)
Definition point_valid_for_offset (p : pline T) (offset : T) (idx : sindex T) (point : vec2 T)
    (eps offset_tol : T) : res bool :=
  let abs_offset := nabs offset - offset_tol in
  let min_dist := abs_offset * abs_offset in
  let! invalid :=
    rexists (fun i =>
      let! v1 := at_ p i in
      let! v2 := at_ p (next_wrapping_index p i) in
      Ret (negb (dist_squared (seg_closest_point v1 v2 point eps) point >? min_dist)))
      (ix_query idx (aabb_grow (point_box point) abs_offset)) in
  Ret (negb invalid).

(** pline_offset.rs:766-799 and 1135-1168 *)
Definition intersects_original (p : pline T) (idx : sindex T) (eps : T) (v1 v2 : vertex T) : res bool :=
  rexists (fun i =>
    let! u1 := at_ p i in
    let! u2 := at_ p (next_wrapping_index p i) in
    Ret (match pline_seg_intr v1 v2 u1 u2 eps with SINoIntersect => false | _ => true end))
    (ix_query idx (aabb_grow (seg_fast_approx_bounding_box v1 v2) nfuzzy_epsilon)).

(** [a && b] where [b] is only run if [a] holds *)
Definition rand (a b : res bool) : res bool := let! x := a in if x then b else Ret false.
Definition rnot (a : res bool) : res bool := let! x := a in Ret (negb x).

(** pline_offset.rs:858-868 *)
Fixpoint segments_valid (p : pline T) (idx : sindex T) (offset : T) (o : offset_options T)
    (segs : list (vertex T * vertex T)) : res bool :=
  match segs with
  | [] => Ret true
  | (v1, v2) :: t =>
    rand (point_valid_for_offset p offset idx (pos v1) (oo_pos_equal_eps o) (oo_offset_dist_eps o))
    (rand (rnot (intersects_original p idx (oo_pos_equal_eps o) v1 v2))
          (segments_valid p idx offset o t))
  end.

(** pline_offset.rs:813-871 and 1182-1240 *)
Definition slice_is_valid (p raw : pline T) (idx : sindex T) (offset : T) (o : offset_options T)
    (s : view_data T) : res bool :=
  let eps := oo_pos_equal_eps o in
  let valid pt := point_valid_for_offset p offset idx pt eps (oo_offset_dist_eps o) in
  if Nat.eqb (vd_end_index_offset s) 0 then
    let v1 := vd_updated_start s in
    let v2 := from_vector2 (vd_end_point s) nzero in
    rand (valid (pos v1)) (rand (valid (pos v2)) (rand (valid (seg_midpoint v1 v2))
      (rnot (intersects_original p idx eps v1 v2))))
  else
    let! nv := at_ raw (next_wrapping_index raw (vd_start_index s)) in
    rand (valid (seg_midpoint (vd_updated_start s) nv))
      (let end_index := fwd_wrapping_index raw (vd_start_index s) (vd_end_index_offset s) in
       let! ev := at_ raw end_index in
       rand (valid (seg_midpoint (with_bulge ev (vd_updated_end_bulge s))
                                 (from_vector2 (vd_end_point s) nzero)))
         (let! v := view_pline s raw in
          let! segs := iter_segments v in
          rand (segments_valid p idx offset o segs) (valid (vd_end_point s)))).

(** Pushing a slice if it exists and is valid *)
Definition valid_slice (p raw : pline T) (idx : sindex T) (offset : T) (o : offset_options T)
    (slice : option (view_data T)) : res (list (view_data T)) :=
  match slice with
  | None => Ret []
  | Some s => let! ok := slice_is_valid p raw idx offset o s in Ret (if ok then [s] else [])
  end.

(** pline_offset.rs:756-764 and 1125-1133 *)
Definition sort_lookup (raw : pline T) (m : list (nat * list (vec2 T)))
  : res (list (nat * list (vec2 T))) :=
  rmapM (fun e =>
    let! v := at_ raw (fst e) in
    Ret (fst e, isort (fun a b => cmp_leb (ntotal_cmp (dist_squared a (pos v))
                                                      (dist_squared b (pos v)))) (snd e))) m.

(** pline_offset.rs:874-917 and 1264-1322: the slices starting on one segment; [wrap]: the original
    polyline is closed. The flag says whether the loop over the lookup stops here (1292-1306). *)
Definition slices_from_entry (p raw : pline T) (idx : sindex T) (offset : T) (o : offset_options T)
    (wrap : bool) (m : list (nat * list (vec2 T))) (e : nat * list (vec2 T))
  : res (list (view_data T) * bool) :=
  let eps := oo_pos_equal_eps o in
  let '(start_index, intr_list) := e in
  let! within :=
    rmapM (fun ab =>
      let! s := view_from_slice_points raw (fst ab) start_index (snd ab) start_index eps in
      valid_slice p raw idx offset o s) (windows2 intr_list) in
  let next_index := next_wrapping_index raw start_index in
  let! last_intr := unwrap (nth_error intr_list (length intr_list - 1)) in
  let to_entry (found : nat * list (vec2 T)) :=
    let! ep := index (snd found) 0 in
    let! s := view_from_slice_points raw last_intr start_index ep (fst found) eps in
    let! r := valid_slice p raw idx offset o s in
    Ret (concat within ++ r, false) in
  match find (fun f => (next_index <=? fst f)%nat) m with
  | Some found => to_entry found
  | None =>
    if wrap then
      let! found := unwrap (find (fun f => (fst f <=? start_index)%nat) m) in
      to_entry found
    else
      let! lo := last_ raw in
      let! l := unwrap lo in
      let! ei := usub (vertex_count raw) 1 in
      let! s := view_from_slice_points raw last_intr start_index (pos l) ei eps in
      let! r := valid_slice p raw idx offset o s in
      Ret (concat within ++ r, true)
  end.

Fixpoint slices_from_entries (p raw : pline T) (idx : sindex T) (offset : T) (o : offset_options T)
    (wrap : bool) (m l : list (nat * list (vec2 T))) : res (list (view_data T)) :=
  match l with
  | [] => Ret []
  | e :: t =>
    let! r := slices_from_entry p raw idx offset o wrap m e in
    if snd r then Ret (fst r)
    else
      let! rest := slices_from_entries p raw idx offset o wrap m t in
      Ret (fst r ++ rest)
  end.

Definition push_both (m : list (nat * list (vec2 T))) (b : basic_intr T) : list (nat * list (vec2 T)) :=
  map_push (bi_index2 b) (bi_point b) (map_push (bi_index1 b) (bi_point b) m).

(** pline_offset.rs:719-739 and 1105-1123 *)
Definition whole_slice (p raw : pline T) (idx : sindex T) (offset : T) (o : offset_options T)
  : res (list (view_data T)) :=
  let! v0 := at_ raw 0 in
  let! ok := point_valid_for_offset p offset idx (pos v0) (oo_pos_equal_eps o)
                                    (oo_offset_dist_eps o) in
  if negb ok then Ret []
  else let! d := view_from_entire_pline raw in Ret [d].

(** pline_offset.rs:923-1020; the pairs passed to the visitor *)
Definition visit_circle_intersects (raw : pline T) (center : vec2 T) (radius : T) (idx : sindex T)
    (eps : T) : res (list (nat * vec2 T)) :=
  let valid_line t := negb (is_false_intersect t) && (nabs t >? eps) in
  let! ls :=
    rmapM (fun i =>
      let! v1 := at_ raw i in
      let! v2 := at_ raw (next_wrapping_index raw i) in
      if bulge_is_zero v1 then
        let at_t t := if valid_line t then [(i, point_from_parametric (pos v1) (pos v2) t)] else [] in
        match line_circle_intr (pos v1) (pos v2) radius center eps with
        | LCNoIntersect => Ret []
        | LCTangentIntersect t0 => Ret (at_t t0)
        | LCTwoIntersects t0 t1 => Ret (at_t t0 ++ at_t t1)
        end
      else
        let '(arc_radius, arc_center) := seg_arc_radius_and_center v1 v2 in
        let at_p pt :=
          if negb (v2fuzzy_eq_eps (pos v1) pt eps)
             && point_within_arc_sweep arc_center (pos v1) (pos v2) (pbulge v1 <? nzero) pt eps
          then [(i, pt)] else [] in
        match circle_circle_intr arc_radius arc_center radius center eps with
        | CCNoIntersect | CCOverlapping => Ret []
        | CCTangentIntersect pt => Ret (at_p pt)
        | CCTwoIntersects pt1 pt2 => Ret (at_p pt1 ++ at_p pt2)
        end)
      (ix_query idx (aabb_grow (point_box center) radius)) in
  Ret (concat ls).

Definition push_pair (m : list (nat * list (vec2 T))) (e : nat * vec2 T) : list (nat * list (vec2 T)) :=
  map_push (fst e) (snd e) m.

Section WithIndex.
Context (mk : list (aabb T) -> sindex T).

(** pline_offset.rs:690-920 *)
Definition slices_from_raw_offset (p raw : pline T) (idx : sindex T) (offset : T)
    (o : offset_options T) : res (list (view_data T)) :=
  if (vertex_count raw <? 2)%nat then Ret []
  else
    let! boxes := create_approx_aabb_index raw in
    let! self_intrs := all_self_intersects_as_basic raw (mk boxes) false (oo_pos_equal_eps o) in
    match self_intrs with
    | [] => whole_slice p raw idx offset o
    | _ :: _ =>
      let! m := sort_lookup raw (fold_left push_both self_intrs []) in
      slices_from_entries p raw idx offset o true m m
    end.

(** pline_offset.rs:1022-1326 *)
Definition slices_from_dual_raw_offsets (p raw dual : pline T) (idx : sindex T) (offset : T)
    (o : offset_options T) : res (list (view_data T)) :=
  let eps := oo_pos_equal_eps o in
  if (vertex_count raw <? 2)%nat then Ret []
  else
    let! boxes := create_approx_aabb_index raw in
    let raw_idx := mk boxes in
    let! self_intrs := all_self_intersects_as_basic raw raw_idx false eps in
    let! dual_intrs := find_intersects raw dual raw_idx eps in
    let! m :=
      if negb (is_closed p) then
        let! v0 := at_ p 0 in
        let! c1 := visit_circle_intersects raw (pos v0) (nabs offset) raw_idx eps in
        let! lo := last_ p in
        let! l := unwrap lo in
        let! c2 := visit_circle_intersects raw (pos l) (nabs offset) raw_idx eps in
        Ret (fold_left push_pair (c1 ++ c2) [])
      else Ret [] in
    let m := fold_left push_both self_intrs m in
    let m := fold_left (fun m b => map_push (bi_index1 b) (bi_point b) m) (fst dual_intrs) m in
    match m with
    | [] => whole_slice p raw idx offset o
    | _ :: _ =>
      let! m := sort_lookup raw m in
      let! first :=
        if negb (is_closed p) then
          let! e := index m 0 in
          let! intr := index (snd e) 0 in
          let! v0 := at_ raw 0 in
          let! s := view_from_slice_points raw (pos v0) 0 intr (fst e) eps in
          valid_slice p raw idx offset o s
        else Ret [] in
      let! rest := slices_from_entries p raw idx offset o (is_closed p) m m in
      Ret (first ++ rest)
    end.

(** pline_offset.rs:1428-1449: candidates with their forward index distance, which may panic *)
Definition index_dist (slices : list (view_data T)) (orig_max_index cur_start i : nat) : res nat :=
  let! s := index slices i in
  if (cur_start <=? vd_start_index s)%nat then Ret (vd_start_index s - cur_start)%nat
  else let! d := usub orig_max_index cur_start in Ret (d + vd_start_index s)%nat.

Definition connects_to_start (slices : list (view_data T)) (start : vec2 T) (eps : T) (i : nat)
  : bool :=
  match nth_error slices i with
  | Some s => v2fuzzy_eq_eps (vd_end_point s) start eps
  | None => false
  end.

(** pline_offset.rs:1443-1449. The comparator is only called with two or more candidates; the
    distances are computed for every candidate then. *)
Definition sort_candidates (slices : list (view_data T)) (orig_max_index cur_start : nat)
    (start : vec2 T) (eps : T) (cands : list nat) : res (list nat) :=
  match cands with
  | [] | [_] => Ret cands
  | _ =>
    let! ds := rmapM (fun i => let! d := index_dist slices orig_max_index cur_start i in
                               Ret (d, connects_to_start slices start eps i, i)) cands in
    let leb (a b : nat * bool * nat) :=
      let '(da, ca, _) := a in
      let '(db, cb, _) := b in
      cmp_leb (cmp_then (Nat.compare da db) (Bool.compare ca cb)) in
    Ret (map snd (isort leb ds))
  end.

(** pline_offset.rs:1451-1464 *)
Definition finish_stitched (cur : pline T) (is_closed : bool) (eps : T) : res (list (pline T)) :=
  if (1 <? vertex_count cur)%nat then
    let! v0 := at_ cur 0 in
    let! lo := last_ cur in
    let! l := unwrap lo in
    if is_closed && v2fuzzy_eq_eps (pos v0) (pos l) eps then
      let! r := remove_last cur in Ret [set_is_closed (snd r) true]
    else Ret [cur]
  else Ret [].

(** pline_offset.rs:1397-1470 *)
Fixpoint stitch_offset_loop (fuel : nat) (raw : pline T) (slices : list (view_data T))
    (idx : sindex T) (is_closed : bool) (orig_max_index : nat) (o : offset_options T)
    (start : vec2 T) (current loop_count : nat) (visited : list bool) (cur : pline T)
  : res (list bool * list (pline T)) :=
  match fuel with
  | O => Panic OutOfFuel
  | S f =>
    let eps := oo_pos_equal_eps o in
    if (length slices <? loop_count)%nat then Panic Unreachable
    else
      let! s := index slices current in
      let! v := view_pline s raw in
      let cur := extend_remove_repeat cur v eps in
      let! cands :=
        rfilter (fun i => let! b := index visited i in Ret (negb b))
                (ix_query idx (aabb_grow (point_box (vd_end_point s)) (oo_slice_join_eps o))) in
      let! sorted := sort_candidates slices orig_max_index (vd_start_index s) start eps cands in
      match sorted with
      | [] =>
        let! r := finish_stitched cur is_closed eps in Ret (visited, r)
      | c :: _ =>
        let! visited := set_index visited c true in
        let! r := remove_last cur in
        stitch_offset_loop f raw slices idx is_closed orig_max_index o start c
                           (loop_count + 1)%nat visited (snd r)
      end
  end.

(** pline_offset.rs:1385-1396 *)
Definition stitch_offset_from (raw : pline T) (slices : list (view_data T)) (idx : sindex T)
    (is_closed : bool) (orig_max_index : nat) (o : offset_options T)
    (st : list bool * list (pline T)) (i : nat) : res (list bool * list (pline T)) :=
  let '(visited, result) := st in
  let! b := index visited i in
  if b then Ret st
  else
    let! visited := set_index visited i true in
    let! s := index slices i in
    let! r := stitch_offset_loop (length slices + 2) raw slices idx is_closed orig_max_index o
                (pos (vd_updated_start s)) i 0 visited empty_pline in
    Ret (fst r, result ++ snd r).

(** pline_offset.rs:1328-1474 *)
Definition stitch_slices_together (raw : pline T) (slices : list (view_data T)) (is_closed : bool)
    (orig_max_index : nat) (o : offset_options T) : res (list (pline T)) :=
  match slices with
  | [] => Ret []
  | [s] =>
    let! v := view_pline s raw in
    let! pl := create_from_remove_repeat v (oo_pos_equal_eps o) in
    if is_closed then
      let! v0 := at_ pl 0 in
      let! lo := last_ pl in
      let! l := unwrap lo in
      if v2fuzzy_eq_eps (pos v0) (pos l) (oo_slice_join_eps o) then
        let! r := remove_last (set_is_closed pl true) in Ret [snd r]
      else Ret [pl]
    else Ret [pl]
  | _ =>
    let idx := mk (map (fun s => aabb_grow (point_box (pos (vd_updated_start s)))
                                           (oo_slice_join_eps o)) slices) in
    let! st := rfold (stitch_offset_from raw slices idx is_closed orig_max_index o)
                     (seq 0 (length slices)) (repeat false (length slices), []) in
    Ret (snd st)
  end.

(** pline_offset.rs:1476-1538; [idx] is the index from the options or the constructed one *)
Definition parallel_offset (p : pline T) (idx : sindex T) (offset : T) (o : offset_options T)
  : res (list (pline T)) :=
  if (vertex_count p <? 2)%nat then Ret []
  else
    let! raw := create_raw_offset_polyline p offset (oo_pos_equal_eps o) in
    if is_empty raw then Ret []
    else if is_closed p && negb (oo_handle_self_intersects o) then
      let! slices := slices_from_raw_offset p raw idx offset o in
      let! m := usub (vertex_count raw) 1 in
      stitch_slices_together raw slices true m o
    else
      let! dual := create_raw_offset_polyline p (- offset) (oo_pos_equal_eps o) in
      let! slices := slices_from_dual_raw_offsets p raw dual idx offset o in
      stitch_slices_together raw slices (is_closed p) (vertex_count raw) o.

(** traits.rs: parallel_offset_opt without an index given *)
Definition parallel_offset_constructed (p : pline T) (offset : T) (o : offset_options T)
  : res (list (pline T)) :=
  if (vertex_count p <? 2)%nat then Ret []
  else
    let! boxes := create_approx_aabb_index p in
    parallel_offset p (mk boxes) offset o.

End WithIndex.
End Offset.
