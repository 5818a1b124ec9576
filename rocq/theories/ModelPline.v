(** Model of /repo/cavalier_contours/src/polyline/pline.rs and the default methods of
    [PlineSource], [PlineSourceMut], [PlineCreation] and the iterators in
    /repo/cavalier_contours/src/polyline/traits.rs.

    Simplifications: a polyline is its vertex list and closed flag; capacities are ignored;
    [iter_vertexes()] consumed from the front is written as the vertex list itself and
    [iter_segments()] as [iter_segments p], the list collected from the iterator state machine
    below (that the vertex iterator yields the vertex list is proved, see property C05). *)
From Coq Require Import ZArith Bool List Arith.
From Verif Require Import Num Res ModelMath ModelSeg.
Import ListNotations.

(** pline.rs:17-23 *)
Record pline (T : Type) := PL { vtx : list (vertex T); is_closed : bool }.
Arguments PL {T} _ _.
Arguments vtx {T} _.
Arguments is_closed {T} _.

Section Access.
Context {T : Type}.

(** pline.rs:82-84 *)
Definition vertex_count (p : pline T) : nat := length (vtx p).
(** pline.rs:92-94 *)
Definition get (p : pline T) (i : nat) : option (vertex T) := nth_error (vtx p) i.
(** pline.rs:97-99, 62-64 *)
Definition at_ (p : pline T) (i : nat) : res (vertex T) := index (vtx p) i.
(** traits.rs:80-82 *)
Definition is_empty (p : pline T) : bool := Nat.eqb (vertex_count p) 0.
(** traits.rs:110-112 *)
Definition last_ (p : pline T) : res (option (vertex T)) :=
  let! i := usub (vertex_count p) 1 in Ret (get p i).
(** traits.rs:116-125 *)
Definition segment_count (p : pline T) : nat :=
  let vc := vertex_count p in
  if vc <? 2 then 0 else if is_closed p then vc else vc - 1.
(** traits.rs:142-145 *)
Definition next_wrapping_index (p : pline T) (i : nat) : nat :=
  let next := i + 1 in if vertex_count p <=? next then 0 else next.
(** traits.rs:151-157 *)
Definition prev_wrapping_index (p : pline T) (i : nat) : res nat :=
  if Nat.eqb i 0 then usub (vertex_count p) 1 else Ret (i - 1).
(** traits.rs:176-189 (debug_assert not executed) *)
Definition fwd_wrapping_dist (p : pline T) (start_index end_index : nat) : res nat :=
  let vc := vertex_count p in
  if start_index <=? end_index then Ret (end_index - start_index)
  else let! d := usub vc start_index in Ret (d + end_index).
(** traits.rs:211-223 (debug_asserts not executed) *)
Definition fwd_wrapping_index (p : pline T) (start_index offset : nat) : nat :=
  let vc := vertex_count p in
  let sum := start_index + offset in
  if sum <? vc then sum else sum - vc.

(** pline.rs:107-109 *)
Definition set_vertex (p : pline T) (i : nat) (v : vertex T) : res (pline T) :=
  let! l := set_index (vtx p) i v in Ret (PL l (is_closed p)).
(** traits.rs:1571-1573 *)
Definition set_last (p : pline T) (v : vertex T) : res (pline T) :=
  let! i := usub (vertex_count p) 1 in set_vertex p i v.
(** pline.rs:117-119: the removed vertex and the new polyline *)
Definition remove (p : pline T) (i : nat) : res (vertex T * pline T) :=
  let! v := index (vtx p) i in Ret (v, PL (list_remove (vtx p) i) (is_closed p)).
(** traits.rs:1594-1596 *)
Definition remove_last (p : pline T) : res (vertex T * pline T) :=
  let! i := usub (vertex_count p) 1 in remove p i.
(** pline.rs:112-114: [Vec::insert], panics when i > len *)
Definition insert_vertex (p : pline T) (i : nat) (v : vertex T) : res (pline T) :=
  if i <=? vertex_count p then Ret (PL (firstn i (vtx p) ++ v :: skipn i (vtx p)) (is_closed p))
  else Panic IndexOutOfBounds.
(** pline.rs:122-124 *)
Definition add_vertex (p : pline T) (v : vertex T) : pline T := PL (vtx p ++ [v]) (is_closed p).
(** pline.rs:142-147 *)
Definition extend_vertexes (p : pline T) (l : list (vertex T)) : pline T :=
  PL (vtx p ++ l) (is_closed p).
(** pline.rs:137-139 *)
Definition clear (p : pline T) : pline T := PL [] (is_closed p).
(** pline.rs:132-134 *)
Definition set_is_closed (p : pline T) (c : bool) : pline T := PL (vtx p) c.
(** traits.rs:1813-1815 *)
Definition empty_pline : pline T := PL [] false.

(** ** Iterators *)

(** traits.rs:1820-1841 *)
Record vertex_iter := VIter { vi_pline : pline T; vi_pos : nat; vi_end : nat }.
Definition vertex_iter_new (p : pline T) : vertex_iter := VIter p 0 (vertex_count p).
(** traits.rs:1864-1871 *)
Definition vertex_iter_next (it : vertex_iter) : option (vertex T) * vertex_iter :=
  if Nat.eqb (vi_pos it) (vi_end it) then (None, it)
  else (get (vi_pline it) (vi_pos it), VIter (vi_pline it) (vi_pos it + 1) (vi_end it)).
(** traits.rs:1896-1904 *)
Definition vertex_iter_next_back (it : vertex_iter) : res (option (vertex T) * vertex_iter) :=
  if Nat.eqb (vi_pos it) (vi_end it) then Ret (None, it)
  else let! e := usub (vi_end it) 1 in
       Ret (get (vi_pline it) e, VIter (vi_pline it) (vi_pos it) e).
(** traits.rs:1874-1877 *)
Definition vertex_iter_size_hint (it : vertex_iter) : res nat := usub (vi_end it) (vi_pos it).

(** traits.rs:1909-1930 *)
Record segment_iter := SIter { si_pline : pline T; si_pos : nat; si_exhausted : bool }.
Definition segment_iter_new (p : pline T) : segment_iter := SIter p 0 (vertex_count p <? 2).
(** traits.rs:1953-1971 *)
Definition segment_iter_next (it : segment_iter)
  : res (option (vertex T * vertex T) * segment_iter) :=
  if si_exhausted it then Ret (None, it)
  else
    let p := si_pline it in
    let vc := vertex_count p in
    let! last_i := usub vc 1 in
    if Nat.eqb (si_pos it) last_i then
      if is_closed p then
        let! a := at_ p last_i in
        let! b := at_ p 0 in
        Ret (Some (a, b), SIter p (si_pos it) true)
      else Ret (None, it)
    else
      let! a := at_ p (si_pos it) in
      let! b := at_ p (si_pos it + 1) in
      Ret (Some (a, b), SIter p (si_pos it + 1) (si_exhausted it)).
(** traits.rs:1974-1985 *)
Definition segment_iter_size_hint (it : segment_iter) : res nat :=
  if si_exhausted it then Ret 0
  else
    let! r := usub (vertex_count (si_pline it)) (si_pos it) in
    if is_closed (si_pline it) then Ret r else usub r 1.

(** traits.rs:2000-2022 *)
Record seg_index_iter := SIIter { sii_pos : nat; sii_remaining : nat; sii_closed : bool }.
Definition seg_index_iter_new (vertex_count : nat) (closed : bool) : seg_index_iter :=
  SIIter 0 (if vertex_count <? 2 then 0 else if closed then vertex_count else vertex_count - 1)
         closed.
(** traits.rs:2028-2042 *)
Definition seg_index_iter_next (it : seg_index_iter) : option (nat * nat) * seg_index_iter :=
  match sii_remaining it with
  | O => (None, it)
  | S r =>
    if Nat.eqb r 0 && sii_closed it then
      (Some (sii_pos it, 0), SIIter (sii_pos it) r (sii_closed it))
    else
      (Some (sii_pos it, sii_pos it + 1), SIIter (sii_pos it + 1) r (sii_closed it))
  end.

(** Collecting a segment iterator: repeated [next] until None; [fuel] bounds the number of calls. *)
Fixpoint collect_segments (fuel : nat) (it : segment_iter) : res (list (vertex T * vertex T)) :=
  match fuel with
  | O => Panic OutOfFuel
  | S f =>
    let! r := segment_iter_next it in
    match r with
    | (None, _) => Ret []
    | (Some s, it') => let! rest := collect_segments f it' in Ret (s :: rest)
    end
  end.

Fixpoint collect_seg_indexes (fuel : nat) (it : seg_index_iter) : res (list (nat * nat)) :=
  match fuel with
  | O => Panic OutOfFuel
  | S f =>
    match seg_index_iter_next it with
    | (None, _) => Ret []
    | (Some s, it') => let! rest := collect_seg_indexes f it' in Ret (s :: rest)
    end
  end.

(** traits.rs:68-70: everything [iter_segments()] yields *)
Definition iter_segments (p : pline T) : res (list (vertex T * vertex T)) :=
  collect_segments (vertex_count p + 2) (segment_iter_new p).

(** traits.rs:134-136: everything [iter_segment_indexes()] yields *)
Definition iter_segment_indexes (p : pline T) : res (list (nat * nat)) :=
  collect_seg_indexes (vertex_count p + 2) (seg_index_iter_new (vertex_count p) (is_closed p)).

End Access.
Arguments vertex_iter T : clear implicits.
Arguments segment_iter T : clear implicits.

(** pline_types.rs: PlineOrientation *)
Inductive orientation_t := Open | Clockwise | CounterClockwise.

(** pline_types.rs: ClosestPointResult *)
Record closest_point_result (T : Type) :=
  CPR { cp_seg_start_index : nat; cp_seg_point : vec2 T; cp_distance : T }.
Arguments CPR {T} _ _ _.
Arguments cp_seg_start_index {T} _.
Arguments cp_seg_point {T} _.
Arguments cp_distance {T} _.

Section Pline.
Context {T : Type} {N : Num T}.
Local Open Scope num_scope.

(** traits.rs:87-97 *)
Definition pline_fuzzy_eq_eps (p q : pline T) (eps : T) : bool :=
  Bool.eqb (is_closed p) (is_closed q)
  && Nat.eqb (vertex_count p) (vertex_count q)
  && forallb (fun vw => vfuzzy_eq_eps (fst vw) (snd vw) eps) (combine (vtx p) (vtx q)).

(** traits.rs:261-285: one iteration of the loop in [extents] *)
Definition extents_step (r : aabb T) (s : vertex T * vertex T) : aabb T :=
  let '(v1, v2) := s in
  if bulge_is_zero v1 then
    let r := if px v2 <? bmin_x r then AABB (px v2) (bmin_y r) (bmax_x r) (bmax_y r)
             else if px v2 >? bmax_x r then AABB (bmin_x r) (bmin_y r) (px v2) (bmax_y r)
             else r in
    if py v2 <? bmin_y r then AABB (bmin_x r) (py v2) (bmax_x r) (bmax_y r)
    else if py v2 >? bmax_y r then AABB (bmin_x r) (bmin_y r) (bmax_x r) (py v2)
    else r
  else
    let e := arc_seg_bounding_box v1 v2 in
    AABB (nmin (bmin_x r) (bmin_x e)) (nmin (bmin_y r) (bmin_y e))
         (nmax (bmax_x r) (bmax_x e)) (nmax (bmax_y r) (bmax_y e)).

(** traits.rs:253-288 *)
Definition extents (p : pline T) : res (option (aabb T)) :=
  if Nat.eqb (segment_count p) 0 then Ret None
  else
    let! v1 := at_ p 0 in
    let! segs := iter_segments p in
    Ret (Some (fold_left extents_step segs (AABB (px v1) (py v1) (px v1) (py v1)))).

(** traits.rs:307-310 *)
Definition path_length (p : pline T) : res T :=
  let! segs := iter_segments p in
  Ret (fold_left (fun acc s => acc + seg_length (fst s) (snd s)) segs nzero).

(** traits.rs:353-372: one iteration of the loop in [area] *)
Definition area_step (double_total_area : T) (s : vertex T * vertex T) : T :=
  let '(v1, v2) := s in
  let double_total_area := double_total_area + px v1 * py v2 - py v1 * px v2 in
  if negb (bulge_is_zero v1) then
    let b := nabs (pbulge v1) in
    let sweep_angle := angle_from_bulge b in
    let triangle_base := v2length (v2sub (pos v2) (pos v1)) in
    let radius := triangle_base * ((b * b + none_) / (nfour * b)) in
    let sagitta := b * triangle_base / ntwo in
    let triangle_height := radius - sagitta in
    let double_sector_area := sweep_angle * radius * radius in
    let double_triangle_area := triangle_base * triangle_height in
    let double_arc_area := double_sector_area - double_triangle_area in
    let double_arc_area := if bulge_is_neg v1 then - double_arc_area else double_arc_area in
    double_total_area + double_arc_area
  else double_total_area.

(** traits.rs:336-375 *)
Definition area (p : pline T) : res T :=
  if negb (is_closed p) then Ret nzero
  else
    let! segs := iter_segments p in
    Ret (fold_left area_step segs nzero / ntwo).

(** traits.rs:381-391 *)
Definition orientation (p : pline T) : res orientation_t :=
  if negb (is_closed p) then Ret Open
  else
    let! a := area p in
    if a <? nzero then Ret Clockwise else Ret CounterClockwise.

(** traits.rs:418-438: the loop of [remove_repeat_pos]; [i] is the enumerate index of the head of
    [l], [src] the full vertex list *)
Fixpoint remove_repeat_pos_loop (src : list (vertex T)) (closed : bool) (eps : T)
    (i : nat) (l : list (vertex T)) (prev_pos : vec2 T) (result : option (pline T))
  : res (option (pline T)) :=
  match l with
  | [] => Ret result
  | v :: t =>
    if v2fuzzy_eq_eps (pos v) prev_pos eps then
      let r := match result with Some r => r | None => PL (firstn i src) closed end in
      let! lo := last_ r in
      let! last := unwrap lo in
      let! r' := set_last r (with_bulge last (pbulge v)) in
      remove_repeat_pos_loop src closed eps (i + 1)%nat t prev_pos (Some r')
    else
      let result' := match result with Some r => Some (add_vertex r v) | None => None end in
      remove_repeat_pos_loop src closed eps (i + 1)%nat t (pos v) result'
  end.

(** traits.rs:411-456 *)
Definition remove_repeat_pos (p : pline T) (eps : T) : res (option (pline T)) :=
  if (vertex_count p <? 2)%nat then Ret None
  else
    let! v0 := at_ p 0 in
    let! result := remove_repeat_pos_loop (vtx p) (is_closed p) eps 1 (skipn 1 (vtx p)) (pos v0) None in
    if is_closed p then
      let! lo := last_ p in
      let! last := unwrap lo in
      if v2fuzzy_eq_eps (pos last) (pos v0) eps then
        let r := match result with Some r => r | None => PL (vtx p) (is_closed p) end in
        let! vr := remove_last r in
        Ret (Some (snd vr))
      else Ret result
    else Ret result.

(** traits.rs:1653-1667. [at(vc - 1)] and [set_vertex(vc - 1, ..)] are written as access to the head of the
    reversed list (in range because vc is not 0). *)
Definition add_or_replace_vertex (p : pline T) (v : vertex T) (eps : T) : pline T :=
  match rev (vtx p) with
  | [] => add_vertex p v
  | last :: before_rev =>
    if v2fuzzy_eq_eps (pos last) (pos v) eps
    then PL (rev before_rev ++ [with_bulge last (pbulge v)]) (is_closed p)
    else add_vertex p v
  end.

(** traits.rs:1672-1680 *)
Definition add_or_replace (p : pline T) (x y b eps : T) : pline T :=
  add_or_replace_vertex p (Vtx x y b) eps.

(** traits.rs:1635-1643 *)
Definition extend_remove_repeat (p other : pline T) (eps : T) : pline T :=
  fold_left (fun acc v => add_or_replace_vertex acc v eps) (vtx other) p.

(** traits.rs:1792-1809 *)
Definition create_from_remove_repeat (p : pline T) (eps : T) : res (pline T) :=
  let result := fold_left (fun acc v => add_or_replace_vertex acc v eps) (vtx p)
                          (PL [] (is_closed p)) in
  if is_closed p && (2 <=? vertex_count result)%nat then
    let! lo := last_ result in
    let! last := unwrap lo in
    let! v0 := at_ result 0 in
    if v2fuzzy_eq_eps (pos last) (pos v0) eps then
      let! vr := remove_last result in Ret (snd vr)
    else Ret result
  else Ret result.

(** traits.rs:831-881 *)
Definition wrapping_vertexes_starting_at (p : pline T) (start : nat) : list (vertex T) :=
  firstn (vertex_count p - start)%nat (skipn start (vtx p)) ++ firstn start (vtx p).

Definition rotate_start (p : pline T) (start_index : nat) (point : vec2 T) (eps : T)
  : res (option (pline T)) :=
  let vc := vertex_count p in
  if negb (is_closed p) || (vc <? 2)%nat || (vc - 1 <? start_index)%nat then Ret None
  else
    let! start_v := at_ p start_index in
    if v2fuzzy_eq_eps (pos start_v) point eps then
      Ret (Some (PL (wrapping_vertexes_starting_at p start_index) true))
    else
      let next_index := next_wrapping_index p start_index in
      let! next_v := at_ p next_index in
      if v2fuzzy_eq_eps point (pos next_v) eps then
        Ret (Some (PL (wrapping_vertexes_starting_at p next_index) true))
      else
        let split := seg_split_at_point start_v next_v point eps in
        let! r := set_last (PL (split_vertex split :: wrapping_vertexes_starting_at p next_index) true)
                           (updated_start split) in
        Ret (Some r).

(** traits.rs:893-914: the boxes put into the spatial index, in order. The [unreachable!] of
    [unwrap_spatial_index] (2052-2067) is hit exactly if the number of boxes differs from the
    announced segment count. *)
Definition create_index_with (box : vertex T -> vertex T -> aabb T) (p : pline T)
  : res (list (aabb T)) :=
  let vc := vertex_count p in
  if (vc <? 2)%nat then Ret []
  else
    let seg_count := if is_closed p then vc else (vc - 1)%nat in
    let! segs := iter_segments p in
    if Nat.eqb (length segs) seg_count then Ret (map (fun s => box (fst s) (snd s)) segs)
    else Panic Unreachable.
Definition create_approx_aabb_index (p : pline T) : res (list (aabb T)) :=
  create_index_with seg_fast_approx_bounding_box p.
(** traits.rs:925-946 *)
Definition create_aabb_index (p : pline T) : res (list (aabb T)) :=
  create_index_with seg_bounding_box p.

(** traits.rs:991-1002: loop of [closest_point]; state is (seg_start_index, seg_point, dist_squared) *)
Definition closest_point_step (p : pline T) (point : vec2 T) (eps : T)
    (st : nat * vec2 T * T) (ij : nat * nat) : res (nat * vec2 T * T) :=
  let '(i, j) := ij in
  let! v1 := at_ p i in
  let! v2 := at_ p j in
  let cp := seg_closest_point v1 v2 point eps in
  let dist2 := v2length_squared (v2sub point cp) in
  let '(_, _, dist_sq) := st in
  if dist2 <? dist_sq then Ret (i, cp, dist2) else Ret st.

(** traits.rs:968-1007 *)
Definition closest_point (p : pline T) (point : vec2 T) (eps : T)
  : res (option (closest_point_result T)) :=
  if is_empty p then Ret None
  else
    let! v0 := at_ p 0 in
    if Nat.eqb (vertex_count p) 1 then
      Ret (Some (CPR 0 (pos v0) (v2length (v2sub (pos v0) point))))
    else
      let! ijs := iter_segment_indexes p in
      let! st := rfold (closest_point_step p point eps) ijs (0, pos v0, nmax_value) in
      let '(i, cp, dist_sq) := st in
      Ret (Some (CPR i cp (nsqrt dist_sq))).

(** traits.rs:1068-1082 *)
Definition process_line_winding (v1 v2 : vertex T) (point : vec2 T) : Z :=
  if py v1 <=? vy point then
    if (py v2 >? vy point) && is_left (pos v1) (pos v2) point then 1%Z else 0%Z
  else if (py v2 <=? vy point) && negb (is_left (pos v1) (pos v2) point) then (-1)%Z
  else 0%Z.

(** traits.rs:1085-1179 *)
Definition process_arc_winding (v1 v2 : vertex T) (point : vec2 T) : Z :=
  let is_ccw := bulge_is_pos v1 in
  let point_is_left := if is_ccw then is_left (pos v1) (pos v2) point
                       else is_left_or_equal (pos v1) (pos v2) point in
  let dist_to_arc_center_less_than_radius :=
    let '(arc_radius, arc_center) := seg_arc_radius_and_center v1 v2 in
    dist_squared arc_center point <? arc_radius * arc_radius in
  if py v1 <=? vy point then
    if py v2 >? vy point then
      if is_ccw then
        if point_is_left then 1%Z
        else if dist_to_arc_center_less_than_radius then 1%Z else 0%Z
      else if point_is_left then
        if negb dist_to_arc_center_less_than_radius then 1%Z else 0%Z
      else 0%Z
    else
      if is_ccw && negb point_is_left && (px v2 <? vx point) && (vx point <? px v1)
         && dist_to_arc_center_less_than_radius then 1%Z
      else if negb is_ccw && point_is_left && (px v1 <? vx point) && (vx point <? px v2)
              && dist_to_arc_center_less_than_radius then (-1)%Z
      else 0%Z
  else if py v2 <=? vy point then
    if is_ccw then
      if negb point_is_left then
        if negb dist_to_arc_center_less_than_radius then (-1)%Z else 0%Z
      else 0%Z
    else if point_is_left then
      if dist_to_arc_center_less_than_radius then (-1)%Z else 0%Z
    else (-1)%Z
  else
    if is_ccw && negb point_is_left && (px v1 <? vx point) && (vx point <? px v2)
       && dist_to_arc_center_less_than_radius then 1%Z
    else if negb is_ccw && point_is_left && (px v2 <? vx point) && (vx point <? px v1)
            && dist_to_arc_center_less_than_radius then (-1)%Z
    else 0%Z.

(** traits.rs:1184-1188 *)
Definition winding_step (point : vec2 T) (w : Z) (s : vertex T * vertex T) : Z :=
  let '(v1, v2) := s in
  if bulge_is_zero v1 then (w + process_line_winding v1 v2 point)%Z
  else (w + process_arc_winding v1 v2 point)%Z.

(** traits.rs:1062-1192 (i32 is modelled by Z) *)
Definition winding_number (p : pline T) (point : vec2 T) : res Z :=
  if negb (is_closed p) || (vertex_count p <? 2)%nat then Ret 0%Z
  else
    let! segs := iter_segments p in
    Ret (fold_left (winding_step point) segs 0%Z).

(** traits.rs:1211-1247: one iteration of the loop; None models the [?] early return *)
Definition arcs_to_approx_lines_step (error_distance : T) (acc : list (vertex T))
    (s : vertex T * vertex T) : option (list (vertex T)) :=
  let '(v1, v2) := s in
  let abs_error := nabs error_distance in
  if bulge_is_zero v1 then Some (acc ++ [v1])
  else
    let '(arc_radius, arc_center) := seg_arc_radius_and_center v1 v2 in
    if fuzzy_lt arc_radius error_distance then Some (acc ++ [Vtx (px v1) (py v1) nzero])
    else
      let start_angle := angle arc_center (pos v1) in
      let end_angle := angle arc_center (pos v2) in
      let angle_diff := nabs (delta_angle start_angle end_angle) in
      let seg_sub_angle := ntwo * nabs (nacos (none_ - abs_error / arc_radius)) in
      let seg_count := nceil (angle_diff / seg_sub_angle) in
      let seg_angle_offset := if bulge_is_neg v1 then - angle_diff / seg_count
                              else angle_diff / seg_count in
      match nto_usize seg_count with
      | None => None
      | Some usize_count =>
        Some (acc ++ Vtx (px v1) (py v1) nzero ::
              map (fun i => let ang := nof_nat i * seg_angle_offset + start_angle in
                            from_vector2 (point_on_circle arc_radius arc_center ang) nzero)
                  (seq 1 (usize_count - 1)%nat))
      end.

Fixpoint arcs_to_approx_lines_loop (error_distance : T) (segs : list (vertex T * vertex T))
    (acc : list (vertex T)) : option (list (vertex T)) :=
  match segs with
  | [] => Some acc
  | s :: t =>
    match arcs_to_approx_lines_step error_distance acc s with
    | None => None
    | Some acc' => arcs_to_approx_lines_loop error_distance t acc'
    end
  end.

(** traits.rs:1200-1255 *)
Definition arcs_to_approx_lines (p : pline T) (error_distance : T) : res (option (pline T)) :=
  if is_empty p then Ret (Some (PL [] (is_closed p)))
  else
    let! segs := iter_segments p in
    match arcs_to_approx_lines_loop error_distance segs [] with
    | None => Ret None
    | Some l =>
      if negb (is_closed p) then
        let! lo := last_ p in
        let! last := unwrap lo in
        Ret (Some (PL (l ++ [last]) (is_closed p)))
      else Ret (Some (PL l (is_closed p)))
    end.

(** traits.rs:1519-1546: loop of [find_point_at_path_length]. [inl] is Rust's Ok, [inr] is Err. *)
Fixpoint find_point_loop (target : T) (i : nat) (segs : list (vertex T * vertex T)) (acc_length : T)
  : (nat * vec2 T) + T :=
  match segs with
  | [] => inr acc_length
  | (v1, v2) :: t =>
    let seg_len := seg_length v1 v2 in
    let sum_len := acc_length + seg_len in
    if sum_len <? target then find_point_loop target (i + 1)%nat t sum_len
    else
      let t := (target - acc_length) / seg_len in
      if bulge_is_zero v1 then
        inl (i, v2add (pos v1) (v2scale (v2sub (pos v2) (pos v1)) t))
      else
        let '(radius, center) := seg_arc_radius_and_center v1 v2 in
        let start_angle := angle center (pos v1) in
        let total_sweep_angle := angle_from_bulge (pbulge v1) in
        let target_angle := start_angle + total_sweep_angle * t in
        inl (i, point_on_circle radius center target_angle)
  end.

(** traits.rs:1510-1547 *)
Definition find_point_at_path_length (p : pline T) (target : T) : res ((nat * vec2 T) + T) :=
  if target <=? nzero then
    let! v0 := at_ p 0 in Ret (inl (0, pos v0))
  else
    let! segs := iter_segments p in
    Ret (find_point_loop target 0 segs nzero).

(** traits.rs:1700-1705 *)
Definition scale_mut (p : pline T) (s : T) : res (pline T) :=
  rfold (fun p i => let! v := at_ p i in set_vertex p i (Vtx (s * px v) (s * py v) (pbulge v)))
        (seq 0 (vertex_count p)) p.

(** traits.rs:1722-1727 *)
Definition translate_mut (p : pline T) (x y : T) : res (pline T) :=
  rfold (fun p i => let! v := at_ p i in set_vertex p i (Vtx (px v + x) (py v + y) (pbulge v)))
        (seq 0 (vertex_count p)) p.

(** traits.rs:1743-1750: the swapping loop *)
Fixpoint invert_swap_loop (fuel : nat) (start end_ : nat) (p : pline T) : res (pline T) :=
  match fuel with
  | O => Panic OutOfFuel
  | S f =>
    if (start <? end_)%nat then
      let! s := at_ p start in
      let! e := at_ p end_ in
      let! p := set_vertex p start e in
      let! p := set_vertex p end_ s in
      let! end' := usub end_ 1 in
      invert_swap_loop f (start + 1)%nat end' p
    else Ret p
  end.

(** traits.rs:1735-1761 *)
Definition invert_direction_mut (p : pline T) : res (pline T) :=
  let vc := vertex_count p in
  if (vc <? 2)%nat then Ret p
  else
    let! p := invert_swap_loop (vc + 1)%nat 0%nat (vc - 1)%nat p in
    let! v0 := at_ p 0 in
    let first_bulge := pbulge v0 in
    let! p := rfold (fun p i =>
                let! v := at_ p i in
                let b := - pbulge v in
                let! i' := usub i 1 in
                let! w := at_ p i' in
                set_vertex p i' (with_bulge w b)) (seq 1 (vc - 1)%nat) p in
    if is_closed p then
      let! w := at_ p (vc - 1)%nat in
      set_vertex p (vc - 1)%nat (with_bulge w (- first_bulge))
    else Ret p.

End Pline.
