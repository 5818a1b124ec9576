(** Model of /repo/cavalier_contours/src/polyline/internal/pline_boolean.rs and the boolean types of
    pline_types.rs.

    Simplifications: both inputs and the output type [O] are [pline]; a BTreeMap is an association
    list in increasing key order; the spatial index of [pline1] (from the options or constructed) and
    the constructor [mk] of the index over slice start points are parameters; the point predicates
    return [res bool] since [winding_number] may panic. [debug_assert!]s are not executed. *)
From Coq Require Import ZArith Bool List Arith.
From Verif Require Import Num Res ModelMath ModelSeg ModelPline ModelView ModelIndex ModelIntersects.
Import ListNotations.

(** pline_types.rs: BooleanOp *)
Inductive boolean_op := BOr | BAnd | BNot | BXor.

(** pline_types.rs: BooleanResultInfo *)
Inductive boolean_result_info :=
| InvalidInput | Pline1InsidePline2 | Pline2InsidePline1 | Disjoint | Overlapping | Intersected.

(** pline_types.rs:515-529 *)
Record boolean_slice (T : Type) := BS {
  bs_view : view_data T;
  bs_source_is_pline1 : bool;
  bs_overlapping : bool }.
Arguments BS {T} _ _ _.
Arguments bs_view {T} _.
Arguments bs_source_is_pline1 {T} _.
Arguments bs_overlapping {T} _.

(** pline_types.rs: BooleanResultPline *)
Record boolean_result_pline (T : Type) := BRP { brp_pline : pline T; brp_subslices : list (boolean_slice T) }.
Arguments BRP {T} _ _.
Arguments brp_pline {T} _.
Arguments brp_subslices {T} _.

(** pline_types.rs: BooleanResult *)
Record boolean_result (T : Type) := BR {
  br_pos : list (boolean_result_pline T);
  br_neg : list (boolean_result_pline T);
  br_info : boolean_result_info }.
Arguments BR {T} _ _ _.
Arguments br_pos {T} _.
Arguments br_neg {T} _.
Arguments br_info {T} _.

(** pline_boolean.rs:20-25 *)
Record boolean_info (T : Type) := BInfo {
  bn_overlapping : list (overlapping_slice T);
  bn_intersects : list (basic_intr T);
  bn_orientation1 : orientation_t;
  bn_orientation2 : orientation_t }.
Arguments BInfo {T} _ _ _ _.
Arguments bn_overlapping {T} _.
Arguments bn_intersects {T} _.
Arguments bn_orientation1 {T} _.
Arguments bn_orientation2 {T} _.

(** pline_boolean.rs:82-85 *)
Record slice_point (T : Type) := SP { sp_pos : vec2 T; sp_is_start : bool }.
Arguments SP {T} _ _.
Arguments sp_pos {T} _.
Arguments sp_is_start {T} _.

(** pline_boolean.rs:317-330 *)
Record pruned_slices (T : Type) := PS {
  ps_slices : list (boolean_slice T);
  ps_start2 : nat;
  ps_start1_overlapping : nat;
  ps_start2_overlapping : nat }.
Arguments PS {T} _ _ _ _.
Arguments ps_slices {T} _.
Arguments ps_start2 {T} _.
Arguments ps_start1_overlapping {T} _.
Arguments ps_start2_overlapping {T} _.

(** [==] on PlineOrientation *)
Definition orientation_eqb (a b : orientation_t) : bool :=
  match a, b with
  | Open, Open | Clockwise, Clockwise | CounterClockwise, CounterClockwise => true
  | _, _ => false
  end.

(** [map.entry(k).or_default().push(v)] *)
Fixpoint map_push {A} (k : nat) (v : A) (m : list (nat * list A)) : list (nat * list A) :=
  match m with
  | [] => [(k, [v])]
  | (k', l) :: t =>
    if Nat.ltb k k' then (k, [v]) :: (k', l) :: t
    else if Nat.eqb k k' then (k', l ++ [v]) :: t
    else (k', l) :: map_push k v t
  end.

(** [map.get(&k)] *)
Definition map_get {A} (k : nat) (m : list (nat * list A)) : option (list A) :=
  match find (fun e => Nat.eqb (fst e) k) m with Some e => Some (snd e) | None => None end.

Section Boolean.
Context {T : Type} {N : Num T}.
Local Open Scope num_scope.

(** pline_types.rs:535-551 *)
Definition from_open_pline_slice (d : view_data T) (source_is_pline1 inverted : bool)
  : boolean_slice T :=
  BS (VD (vd_start_index d) (vd_end_index_offset d) (vd_updated_start d) (vd_updated_end_bulge d)
         (vd_end_point d) inverted)
     source_is_pline1 false.

(** pline_types.rs:554-580 *)
Definition from_overlapping (s : overlapping_slice T) (inverted : bool) : boolean_slice T :=
  BS (VD (snd (os_start_indexes s)) (vd_end_index_offset (os_view s)) (vd_updated_start (os_view s))
         (vd_updated_end_bulge (os_view s)) (vd_end_point (os_view s)) inverted)
     false true.

(** pline_boolean.rs:31-33 *)
Definition completely_overlapping (bn : boolean_info T) : bool :=
  match bn_overlapping bn with [s] => os_is_loop s | _ => false end.
(** pline_boolean.rs:35-37 *)
Definition opposing_directions (bn : boolean_info T) : bool :=
  negb (orientation_eqb (bn_orientation1 bn) (bn_orientation2 bn)).
(** pline_boolean.rs:39-41 *)
Definition any_intersects (bn : boolean_info T) : bool :=
  match bn_intersects bn, bn_overlapping bn with [], [] => false | _, _ => true end.

(** pline_boolean.rs:44-79 *)
Definition process_for_boolean (p1 p2 : pline T) (idx1 : sindex T) (eps : T)
  : res (boolean_info T) :=
  let! intrs := find_intersects p1 p2 idx1 eps in
  let! slices := sort_and_join_overlapping_intersects (snd intrs) p1 p2 eps in
  let! o1 := orientation p1 in
  let! o2 := orientation p2 in
  Ret (BInfo slices (fst intrs) o1 o2).

(** pline_boolean.rs:117-129: one of the two adjusted indexes *)
Definition adjust_index (p : pline T) (i : nat) (pt : vec2 T) (eps : T) : res nat :=
  let n := next_wrapping_index p i in
  let! v := at_ p n in
  Ret (if v2fuzzy_eq_eps pt (pos v) eps then n else i).

(** pline_boolean.rs:140-155 and 165-184 *)
Definition add_overlapping (p : pline T) (second : bool) (eps : T)
    (m : list (nat * list (slice_point T))) (s : overlapping_slice T)
  : res (list (nat * list (slice_point T))) :=
  let sp := pos (vd_updated_start (os_view s)) in
  let ep := vd_end_point (os_view s) in
  let which (ij : nat * nat) := if second then snd ij else fst ij in
  let! sp_idx := adjust_index p (which (os_start_indexes s)) sp eps in
  let! ep_idx := adjust_index p (which (os_end_indexes s)) ep eps in
  let sp_is_start := if second then true else negb (os_opposing s) in
  Ret (map_push ep_idx (SP ep (negb sp_is_start)) (map_push sp_idx (SP sp sp_is_start) m)).

(** pline_boolean.rs:114-195 *)
Definition intersects_lookup (p : pline T) (bn : boolean_info T) (second : bool) (eps : T)
  : res (list (nat * list (slice_point T))) :=
  let m := fold_left (fun m b => map_push (if second then bi_index2 b else bi_index1 b)
                                          (SP (bi_point b) false) m) (bn_intersects bn) [] in
  let! m := rfold (add_overlapping p second eps) (bn_overlapping bn) m in
  rmapM (fun e =>
    let! v := at_ p (fst e) in
    Ret (fst e, isort (fun a b => cmp_leb (ntotal_cmp (dist_squared (sp_pos a) (pos v))
                                                      (dist_squared (sp_pos b) (pos v))))
                      (snd e))) m.

(** pline_boolean.rs:208-249. [prev_sp] is intrs_list[i - 1]. *)
Fixpoint slices_within_segment (second : bool) (pred : vec2 T -> res bool)
    (eps : T) (start_index : nat) (end_vertex prev_vertex : vertex T) (prev_sp : slice_point T)
    (l : list (slice_point T)) : res (list (boolean_slice T)) :=
  match l with
  | [] => Ret []
  | sp :: t =>
    let split := seg_split_at_point prev_vertex end_vertex (sp_pos sp) eps in
    let! here :=
      if sp_is_start prev_sp then Ret []
      else if v2fuzzy_eq_eps (pos (updated_start split)) (pos (split_vertex split)) eps then Ret []
      else
        let! ok := pred (seg_midpoint (updated_start split) (split_vertex split)) in
        if negb ok then Ret []
        else
          match create_on_single_segment start_index (updated_start split)
                                         (pos (split_vertex split)) eps with
          | Some d => Ret [from_open_pline_slice d (negb second) false]
          | None => Ret []
          end in
    let! rest := slices_within_segment second pred eps start_index end_vertex
                                       (split_vertex split) sp t in
    Ret (here ++ rest)
  end.

(** pline_boolean.rs:268-311: the loop looking for the next intersect *)
Fixpoint slice_to_next_intersect (fuel : nat) (p : pline T) (second : bool)
    (pred : vec2 T -> res bool) (eps : T) (m : list (nat * list (slice_point T)))
    (start_index : nat) (slice_start_vertex : vertex T) (index loop_count : nat)
  : res (list (boolean_slice T)) :=
  match fuel with
  | O => Panic OutOfFuel
  | S f =>
    if (vertex_count p <? loop_count)%nat then Panic Unreachable
    else
      let loop_count := (loop_count + 1)%nat in
      match map_get index m with
      | Some next_intr_list =>
        let! sp := Res.index next_intr_list 0 in
        let! d := view_create p start_index (sp_pos sp) index slice_start_vertex loop_count eps in
        let slice := from_open_pline_slice d (negb second) false in
        let! nv := at_ p (next_wrapping_index p (vd_start_index (bs_view slice))) in
        let! ok := pred (seg_midpoint (vd_updated_start (bs_view slice)) nv) in
        Ret (if ok then [slice] else [])
      | None =>
        slice_to_next_intersect f p second pred eps m start_index slice_start_vertex
                                (next_wrapping_index p index) loop_count
      end
  end.

(** pline_boolean.rs:197-312: one entry of the lookup *)
Definition slices_for_entry (p : pline T) (second : bool) (pred : vec2 T -> res bool) (eps : T)
    (m : list (nat * list (slice_point T))) (e : nat * list (slice_point T))
  : res (list (boolean_slice T)) :=
  let '(start_index, intrs) := e in
  let next_index := next_wrapping_index p start_index in
  let! start_vertex := at_ p start_index in
  let! end_vertex := at_ p next_index in
  let! within :=
    if negb (Nat.eqb (length intrs) 1) then
      let! first := Res.index intrs 0 in
      let first_split := seg_split_at_point start_vertex end_vertex (sp_pos first) eps in
      slices_within_segment second pred eps start_index end_vertex (split_vertex first_split)
                            first (tl intrs)
    else Ret [] in
  let! last_intr := unwrap (nth_error intrs (length intrs - 1)) in
  if sp_is_start last_intr then Ret within
  else
    let slice_start_vertex :=
      split_vertex (seg_split_at_point start_vertex end_vertex (sp_pos last_intr) eps) in
    let! last := slice_to_next_intersect (vertex_count p + 2) p second pred eps m start_index
                                         slice_start_vertex next_index 0 in
    Ret (within ++ last).

(** pline_boolean.rs:102-313; the slices pushed to [output_slices] *)
Definition slice_at_intersects (p : pline T) (bn : boolean_info T) (second : bool)
    (pred : vec2 T -> res bool) (eps : T) : res (list (boolean_slice T)) :=
  let! m := intersects_lookup p bn second eps in
  let! ls := rmapM (slices_for_entry p second pred eps m) m in
  Ret (concat ls).

Definition set_inverted (s : boolean_slice T) : boolean_slice T :=
  let d := bs_view s in
  BS (VD (vd_start_index d) (vd_end_index_offset d) (vd_updated_start d) (vd_updated_end_bulge d)
         (vd_end_point d) true) (bs_source_is_pline1 s) (bs_overlapping s).

(** pline_boolean.rs:332-406 *)
Definition prune_slices (p1 p2 : pline T) (bn : boolean_info T) (pred1 pred2 : vec2 T -> res bool)
    (set_opposing_direction : bool) (eps : T) : res (pruned_slices T) :=
  let! s1 := slice_at_intersects p1 bn false pred1 eps in
  let! s2 := slice_at_intersects p2 bn true pred2 eps in
  let o1 := map (fun s => from_overlapping s (os_opposing s)) (bn_overlapping bn) in
  let o2 := map (fun s => from_overlapping s false) (bn_overlapping bn) in
  let s1' := if negb (Bool.eqb set_opposing_direction (opposing_directions bn))
             then map set_inverted s1 else s1 in
  Ret (PS (s1' ++ s2 ++ o1 ++ o2) (length s1) (length s1 + length s2)%nat
          (length s1 + length s2 + length o1)%nat).

(** pline_boolean.rs:411-553 *)
Definition first_available (available : list nat) : res (option nat) :=
  let! i := index available 0 in Ret (Some i).

Definition find_pline1 (ps : pruned_slices T) (available : list nat) : option nat :=
  find (fun i => i <? ps_start2 ps)%nat available.
Definition find_pline2 (ps : pruned_slices T) (available : list nat) : option nat :=
  find (fun i => (ps_start2 ps <=? i)%nat && (i <? ps_start1_overlapping ps)%nat) available.

Definition or_else_res {A} (o : option A) (r : res (option A)) : res (option A) :=
  match o with Some a => Ret (Some a) | None => r end.
Definition or_else {A} (o r : option A) : option A :=
  match o with Some a => Some a | None => r end.

(** pline_boolean.rs:440-475 *)
Definition or_and_select (ps : pruned_slices T) (current : nat) (available : list nat)
  : res (option nat) :=
  let is_pline1 :=
    (current <? ps_start2 ps)%nat
    || ((ps_start1_overlapping ps <=? current)%nat && (current <? ps_start2_overlapping ps)%nat) in
  if is_pline1 then
    or_else_res (find_pline2 ps available)
      (or_else_res (find_pline1 ps available) (first_available available))
  else
    or_else_res (find_pline1 ps available)
      (or_else_res (find_pline2 ps available) (first_available available)).

(** pline_boolean.rs:518-553 *)
Definition not_xor_select (ps : pruned_slices T) (current : nat) (available : list nat)
  : res (option nat) :=
  if (ps_start1_overlapping ps <=? current)%nat then
    if (current <? ps_start2_overlapping ps)%nat then
      Ret (or_else (find_pline2 ps available) (find_pline1 ps available))
    else Ret (or_else (find_pline1 ps available) (find_pline2 ps available))
  else if (current <? ps_start2 ps)%nat then
    or_else_res (find_pline2 ps available) (first_available available)
  else or_else_res (find_pline1 ps available) (first_available available).

(** pline_boolean.rs:582-586: start point of a slice in the direction it is followed *)
Definition slice_start_point (s : boolean_slice T) : vec2 T :=
  if vd_inverted (bs_view s) then vd_end_point (bs_view s)
  else pos (vd_updated_start (bs_view s)).

Definition point_box (pt : vec2 T) : aabb T := AABB (vx pt) (vy pt) (vx pt) (vy pt).

(** pline_types.rs:583-588 *)
Definition slice_view (s : boolean_slice T) (p1 p2 : pline T) : res (pline T) :=
  view_pline (bs_view s) (if bs_source_is_pline1 s then p1 else p2).

(** pline_boolean.rs:595-611 *)
Definition close_pline (p : pline T) (subslices : list (boolean_slice T))
  : res (list (boolean_result_pline T)) :=
  if (vertex_count p <? 3)%nat then Ret []
  else
    let! r := remove_last p in
    Ret [BRP (set_is_closed (snd r) true) subslices].

(** pline_boolean.rs:647-702. Result: visited flags and the polyline pushed, if any. *)
Fixpoint stitch_loop (fuel : nat) (slices : list (boolean_slice T)) (idx : sindex T) (p1 p2 : pline T)
    (select : nat -> list nat -> res (option nat)) (eps : T) (beginning current loop_count : nat)
    (visited : list bool) (cur : pline T) (subslices : list (boolean_slice T))
  : res (list bool * list (boolean_result_pline T)) :=
  match fuel with
  | O => Panic OutOfFuel
  | S f =>
    if (length slices <? loop_count)%nat then Panic Unreachable
    else
      let! lo := last_ cur in
      let! lv := unwrap lo in
      let! query_results :=
        rfilter (fun i => if Nat.eqb i beginning then Ret true
                          else let! b := index visited i in Ret (negb b))
                (ix_query idx (aabb_grow (point_box (pos lv)) eps)) in
      match query_results with
      | [] => Ret (visited, [])
      | _ :: _ =>
        let! sel := select current query_results in
        match sel with
        | None => Ret (visited, [])
        | Some c =>
          if Nat.eqb c beginning then
            let! r := close_pline cur subslices in Ret (visited, r)
          else
            let! s := index slices c in
            let! r := remove_last cur in
            let! v := slice_view s p1 p2 in
            let cur := extend_remove_repeat (snd r) v eps in
            let! visited := set_index visited c true in
            stitch_loop f slices idx p1 p2 select eps beginning c (loop_count + 1)%nat visited cur
                        (subslices ++ [s])
        end
      end
  end.

(** pline_boolean.rs:633-646 *)
Definition stitch_from (slices : list (boolean_slice T)) (idx : sindex T) (p1 p2 : pline T)
    (select : nat -> list nat -> res (option nat)) (eps : T)
    (st : list bool * list (boolean_result_pline T)) (i : nat)
  : res (list bool * list (boolean_result_pline T)) :=
  let '(visited, result) := st in
  let! b := index visited i in
  if b then Ret st
  else
    let! visited := set_index visited i true in
    let! s := index slices i in
    let! v := slice_view s p1 p2 in
    let! cur := create_from_remove_repeat v eps in
    let! r := stitch_loop (length slices + 2) slices idx p1 p2 select eps i i 0 visited cur [s] in
    Ret (fst r, result ++ snd r).

Section WithIndex.
Context (mk : list (aabb T) -> sindex T).

(** pline_boolean.rs:558-706 *)
Definition stitch_slices_into_closed_polylines (slices : list (boolean_slice T)) (p1 p2 : pline T)
    (select : nat -> list nat -> res (option nat)) (eps : T)
  : res (list (boolean_result_pline T)) :=
  match slices with
  | [] => Ret []
  | _ :: _ =>
    let idx := mk (map (fun s => point_box (slice_start_point s)) slices) in
    let! st := rfold (stitch_from slices idx p1 p2 select eps) (seq 0 (length slices))
                     (repeat false (length slices), []) in
    Ret (snd st)
  end.

(** pline_types.rs: BooleanResult::from_whole_plines *)
Definition from_whole_plines (ps ns : list (pline T)) (info : boolean_result_info)
  : boolean_result T :=
  BR (map (fun p => BRP p []) ps) (map (fun p => BRP p []) ns) info.
Definition empty_result (info : boolean_result_info) : boolean_result T := BR [] [] info.

(** pline_boolean.rs:741-742 *)
Definition point_in_pline (p : pline T) (pt : vec2 T) : res bool :=
  let! w := winding_number p pt in Ret (negb (Z.eqb w 0)).
Definition point_not_in_pline (p : pline T) (pt : vec2 T) : res bool :=
  let! b := point_in_pline p pt in Ret (negb b).

(** pline_boolean.rs:745-746 *)
Definition is_in (p q : pline T) : res bool :=
  let! v := at_ p 0 in point_in_pline q (pos v).

(** pline_boolean.rs:807-817 *)
Definition split_by_orientation (o2 : orientation_t)
    (st : list (boolean_result_pline T) * list (boolean_result_pline T))
    (r : boolean_result_pline T)
  : res (list (boolean_result_pline T) * list (boolean_result_pline T)) :=
  let! o := orientation (brp_pline r) in
  if negb (orientation_eqb o o2) then Ret (fst st, snd st ++ [r]) else Ret (fst st ++ [r], snd st).

(** pline_boolean.rs:709-992 *)
Definition polyline_boolean (p1 p2 : pline T) (operation : boolean_op) (idx1 : sindex T) (eps : T)
  : res (boolean_result T) :=
  if (vertex_count p1 <? 2)%nat || negb (is_closed p1)
     || (vertex_count p2 <? 2)%nat || negb (is_closed p2)
  then Ret (empty_result InvalidInput)
  else
    let! bn := process_for_boolean p1 p2 idx1 eps in
    let in1 := point_in_pline p1 in
    let in2 := point_in_pline p2 in
    let out1 := point_not_in_pline p1 in
    let out2 := point_not_in_pline p2 in
    match operation with
    | BOr =>
      if completely_overlapping bn then Ret (from_whole_plines [p2] [] Overlapping)
      else if negb (any_intersects bn) then
        let! i12 := is_in p1 p2 in
        if i12 then Ret (from_whole_plines [p2] [] Pline1InsidePline2)
        else
          let! i21 := is_in p2 p1 in
          if i21 then Ret (from_whole_plines [p1] [] Pline2InsidePline1)
          else Ret (from_whole_plines [p1; p2] [] Disjoint)
      else
        let! ps := prune_slices p1 p2 bn out2 out1 false eps in
        let! remaining := stitch_slices_into_closed_polylines (ps_slices ps) p1 p2
                            (or_and_select ps) eps in
        let! pn := rfold (split_by_orientation (bn_orientation2 bn)) remaining ([], []) in
        Ret (BR (fst pn) (snd pn) Intersected)
    | BAnd =>
      if completely_overlapping bn then Ret (from_whole_plines [p2] [] Overlapping)
      else if negb (any_intersects bn) then
        let! i12 := is_in p1 p2 in
        if i12 then Ret (from_whole_plines [p1] [] Pline1InsidePline2)
        else
          let! i21 := is_in p2 p1 in
          if i21 then Ret (from_whole_plines [p2] [] Pline2InsidePline1)
          else Ret (empty_result Disjoint)
      else
        let! ps := prune_slices p1 p2 bn in2 in1 false eps in
        let! pos_plines := stitch_slices_into_closed_polylines (ps_slices ps) p1 p2
                             (or_and_select ps) eps in
        Ret (BR pos_plines [] Intersected)
    | BNot =>
      if completely_overlapping bn then Ret (empty_result Overlapping)
      else if negb (any_intersects bn) then
        let! i12 := is_in p1 p2 in
        if i12 then Ret (empty_result Pline1InsidePline2)
        else
          let! i21 := is_in p2 p1 in
          if i21 then Ret (from_whole_plines [p1] [p2] Pline2InsidePline1)
          else Ret (from_whole_plines [p1] [] Disjoint)
      else
        let! ps := prune_slices p1 p2 bn out2 in1 true eps in
        let! pos_plines := stitch_slices_into_closed_polylines (ps_slices ps) p1 p2
                             (not_xor_select ps) eps in
        Ret (BR pos_plines [] Intersected)
    | BXor =>
      if completely_overlapping bn then Ret (empty_result Overlapping)
      else if negb (any_intersects bn) then
        let! i12 := is_in p1 p2 in
        if i12 then Ret (from_whole_plines [p2] [p1] Pline1InsidePline2)
        else
          let! i21 := is_in p2 p1 in
          if i21 then Ret (from_whole_plines [p1] [p2] Pline2InsidePline1)
          else Ret (from_whole_plines [p1; p2] [] Disjoint)
      else
        let! ps1 := prune_slices p1 p2 bn out2 in1 true eps in
        let! remaining1 := stitch_slices_into_closed_polylines (ps_slices ps1) p1 p2
                             (not_xor_select ps1) eps in
        let! ps2 := prune_slices p1 p2 bn in2 out1 true eps in
        let! remaining2 := stitch_slices_into_closed_polylines (ps_slices ps2) p1 p2
                             (not_xor_select ps2) eps in
        Ret (BR (remaining1 ++ remaining2) [] Intersected)
    end.

(** traits.rs: boolean_opt with the constructed index *)
Definition boolean_constructed (p1 p2 : pline T) (operation : boolean_op) (eps : T)
  : res (boolean_result T) :=
  let! boxes := create_approx_aabb_index p1 in
  polyline_boolean p1 p2 operation (mk boxes) eps.

End WithIndex.
End Boolean.
