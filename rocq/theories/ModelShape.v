(** Model of /repo/cavalier_contours/src/shape_algorithms/mod.rs.

    Simplifications: the two vectors of offset loops are one list with the counter clockwise loops
    first, [get_loop] (639-649) is indexing that list; a BTreeMap is an association list; BTreeSet is a
    list. [mk] is the constructor of spatial indexes; [index_bounds] is [StaticAABB2DIndex::bounds]
    (external crate: the union of all boxes, None without boxes). *)
From Coq Require Import ZArith Bool List Arith.
From Verif Require Import Num Res ModelMath ModelIntr ModelSeg ModelPline ModelView ModelSegIntr
  ModelIndex ModelIntersects ModelBoolean ModelOffset.
Import ListNotations.

(** shape_algorithms/mod.rs:36-39 *)
Record indexed_pline (T : Type) := IP { ip_pline : pline T; ip_index : sindex T }.
Arguments IP {T} _ _.
Arguments ip_pline {T} _.
Arguments ip_index {T} _.

(** 17-20 *)
Record offset_loop (T : Type) := OL { ol_parent : nat; ol_pline : indexed_pline T }.
Arguments OL {T} _ _.
Arguments ol_parent {T} _.
Arguments ol_pline {T} _.

(** 73-83 *)
Record shape (T : Type) := SH {
  sh_ccw : list (indexed_pline T);
  sh_cw : list (indexed_pline T);
  sh_index : sindex T }.
Arguments SH {T} _ _ _.
Arguments sh_ccw {T} _.
Arguments sh_cw {T} _.
Arguments sh_index {T} _.

(** 87-96 *)
Record shape_options (T : Type) := SO {
  so_pos_equal_eps : T; so_offset_dist_eps : T; so_slice_join_eps : T }.
Arguments SO {T} _ _ _.
Arguments so_pos_equal_eps {T} _.
Arguments so_offset_dist_eps {T} _.
Arguments so_slice_join_eps {T} _.

(** 654-658 *)
Record slice_point_set (T : Type) := SPS {
  sps_loop1 : nat; sps_loop2 : nat; sps_points : list (basic_intr T) }.
Arguments SPS {T} _ _ _.
Arguments sps_loop1 {T} _.
Arguments sps_loop2 {T} _.
Arguments sps_points {T} _.

(** 661-664 *)
Record dissection_point (T : Type) := DP { dp_seg : nat; dp_pos : vec2 T }.
Arguments DP {T} _ _.
Arguments dp_seg {T} _.
Arguments dp_pos {T} _.

(** 667-670 *)
Record dissected_slice (T : Type) := DS { ds_source : nat; ds_view : view_data T }.
Arguments DS {T} _ _.
Arguments ds_source {T} _.
Arguments ds_view {T} _.

Section Shape.
Context {T : Type} {N : Num T}.
Local Open Scope num_scope.

Definition box_union (a b : aabb T) : aabb T :=
  AABB (if bmin_x b <? bmin_x a then bmin_x b else bmin_x a)
       (if bmin_y b <? bmin_y a then bmin_y b else bmin_y a)
       (if bmax_x b >? bmax_x a then bmax_x b else bmax_x a)
       (if bmax_y b >? bmax_y a then bmax_y b else bmax_y a).
Definition index_bounds (idx : sindex T) : option (aabb T) :=
  match ix_boxes idx with
  | [] => None
  | b :: t => Some (fold_left box_union t b)
  end.

Section WithIndex.
Context (mk : list (aabb T) -> sindex T).

(** 45-51 *)
Definition indexed_new (p : pline T) : res (indexed_pline T) :=
  let! boxes := create_approx_aabb_index p in Ret (IP p (mk boxes)).

(** 53-67 *)
Definition parallel_offset_for_shape (ip : indexed_pline T) (offset : T) (o : shape_options T)
  : res (list (pline T)) :=
  parallel_offset mk (ip_pline ip) (ip_index ip) offset
    (OO (so_pos_equal_eps o) (so_slice_join_eps o) (so_offset_dist_eps o) false).

(** 141-159, 242-263 and 611-630 *)
Definition index_of_bounds (l : list (indexed_pline T)) : res (sindex T) :=
  let! boxes := rmapM (fun ip => unwrap (index_bounds (ip_index ip))) l in Ret (mk boxes).

(** 133-139 *)
Fixpoint partition_plines (l : list (pline T))
  : res (list (indexed_pline T) * list (indexed_pline T)) :=
  match l with
  | [] => Ret ([], [])
  | p :: t =>
    if (1 <? vertex_count p)%nat then
      let! o := orientation p in
      let! ip := indexed_new p in
      let! r := partition_plines t in
      if orientation_eqb o CounterClockwise then Ret (ip :: fst r, snd r)
      else Ret (fst r, ip :: snd r)
    else partition_plines t
  end.

(** 126-166 *)
Definition shape_from_plines (plines : list (pline T)) : res (shape T) :=
  let! r := partition_plines plines in
  let! idx := index_of_bounds (fst r ++ snd r) in
  Ret (SH (fst r) (snd r) idx).

(** 170-176 *)
Definition shape_empty : shape T := SH [] [] (mk []).

(** 188-206 and 212-231: the offsets of one input polyline, as counter clockwise and clockwise
    loops. [inverted area] is the test that skips an offset. *)
Definition offsets_of_input (inverted : T -> bool) (parent_idx : nat) (offset_plines : list (pline T))
  : res (list (offset_loop T) * list (offset_loop T)) :=
  rfold (fun st p =>
    let! a := area p in
    if inverted a then Ret st
    else
      let! ip := indexed_new p in
      let l := OL parent_idx ip in
      if a <? nzero then Ret (fst st, snd st ++ [l]) else Ret (fst st ++ [l], snd st))
    offset_plines ([], []).

(** 184-233 *)
Fixpoint offset_inputs (inverted : T -> bool) (offset : T) (o : shape_options T) (parent_idx : nat)
    (inputs : list (indexed_pline T)) : res (list (offset_loop T) * list (offset_loop T)) :=
  match inputs with
  | [] => Ret ([], [])
  | ip :: t =>
    let! ps := parallel_offset_for_shape ip offset o in
    let! r := offsets_of_input inverted parent_idx ps in
    let! rest := offset_inputs inverted offset o (parent_idx + 1)%nat t in
    Ret (fst r ++ fst rest, snd r ++ snd rest)
  end.

Definition create_offset_loops (s : shape T) (offset : T) (o : shape_options T)
  : res (list (offset_loop T) * list (offset_loop T)) :=
  let! a := offset_inputs (fun area => (offset >? nzero) && (area <? nzero)) offset o 0 (sh_ccw s) in
  let! b := offset_inputs (fun area => (offset <? nzero) && (area >? nzero)) offset o
                          (length (sh_ccw s)) (sh_cw s) in
  Ret (fst a ++ fst b, snd a ++ snd b).

(** State of the search for slice points: sets, lookup, visited pairs *)
Record sp_state := SPSt {
  sst_sets : list (slice_point_set T);
  sst_lookup : list (nat * list nat);
  sst_visited : list (nat * nat) }.

(** 286-357 *)
Definition slice_points_pair (loops : list (offset_loop T)) (o : shape_options T) (i : nat)
    (loop1 : offset_loop T) (st : sp_state) (j : nat) : res sp_state :=
  if Nat.eqb i j then Ret st
  else if existsb (fun q => Nat.eqb (fst q) j && Nat.eqb (snd q) i) (sst_visited st) then Ret st
  else
    let visited := (i, j) :: sst_visited st in
    let! loop2 := index loops j in
    let! intrs := find_intersects (ip_pline (ol_pline loop1)) (ip_pline (ol_pline loop2))
                                  (ip_index (ol_pline loop1)) (so_pos_equal_eps o) in
    match fst intrs, snd intrs with
    | [], [] => Ret (SPSt (sst_sets st) (sst_lookup st) visited)
    | basic, overlapping =>
      let points :=
        basic ++ flat_map (fun ov => [BI (oi_index1 ov) (oi_index2 ov) (oi_point1 ov);
                                      BI (oi_index1 ov) (oi_index2 ov) (oi_point2 ov)]) overlapping in
      let k := length (sst_sets st) in
      Ret (SPSt (sst_sets st ++ [SPS i j points])
                (map_push j k (map_push i k (sst_lookup st))) visited)
    end.

(** 274-358 *)
Definition slice_points_loop (loops : list (offset_loop T)) (idx : sindex T) (o : shape_options T)
    (st : sp_state) (i : nat) : res sp_state :=
  let! loop1 := index loops i in
  let! bounds := unwrap (index_bounds (ip_index (ol_pline loop1))) in
  rfold (slice_points_pair loops o i loop1) (ix_query idx bounds) st.

(** 387-409 *)
Fixpoint far_from_inputs (inputs : list (indexed_pline T)) (i parent_idx : nat) (offset : T)
    (o : shape_options T) (pt : vec2 T) : res bool :=
  match inputs with
  | [] => Ret true
  | ip :: t =>
    if Nat.eqb i parent_idx then far_from_inputs t (i + 1)%nat parent_idx offset o pt
    else
      rand (point_valid_for_offset (ip_pline ip) offset (ip_index ip) pt (so_pos_equal_eps o)
                                   (so_offset_dist_eps o))
           (far_from_inputs t (i + 1)%nat parent_idx offset o pt)
  end.

(** 378-410 *)
Definition is_slice_valid (s : shape T) (offset : T) (o : shape_options T) (d : view_data T)
    (l : pline T) (parent_idx : nat) : res bool :=
  let! o0 := view_get_vertex d l 0 in
  let! v0 := unwrap o0 in
  let! o1 := view_get_vertex d l 1 in
  let! v1 := unwrap o1 in
  far_from_inputs (sh_ccw s ++ sh_cw s) 0 parent_idx offset o (seg_midpoint v0 v1).

(** 416-433 *)
Definition points_of_loop (sets : list (slice_point_set T)) (loop_idx : nat) (idxs : list nat)
  : res (list (dissection_point T)) :=
  let! ls := rmapM (fun k =>
    let! set := index sets k in
    Ret (map (fun b => DP (if Nat.eqb (sps_loop1 set) loop_idx then bi_index1 b else bi_index2 b)
                          (bi_point b)) (sps_points set))) idxs in
  Ret (concat ls).

(** 436-445; [at] is in range for points found by [find_intersects] *)
Definition dissection_cmp (l : pline T) (a b : dissection_point T) : comparison :=
  cmp_then (Nat.compare (dp_seg a) (dp_seg b))
    (match get l (dp_seg a) with
     | None => Eq
     | Some v => ntotal_cmp (dist_squared (dp_pos a) (pos v)) (dist_squared (dp_pos b) (pos v))
     end).

(** 364-376 and the validity test *)
Definition slice_between (s : shape T) (offset : T) (o : shape_options T) (l : offset_loop T)
    (loop_idx : nat) (ab : dissection_point T * dissection_point T)
  : res (list (dissected_slice T)) :=
  let pl := ip_pline (ol_pline l) in
  let! vo := view_from_slice_points pl (dp_pos (fst ab)) (dp_seg (fst ab)) (dp_pos (snd ab))
                                    (dp_seg (snd ab)) (so_pos_equal_eps o) in
  match vo with
  | None => Ret []
  | Some d =>
    let! ok := is_slice_valid s offset o d pl (ol_parent l) in
    Ret (if ok then [DS loop_idx d] else [])
  end.

(** State of the loop 412-522: loops (taken ones replaced by the default), slices, results *)
Record dissect_state := DSt {
  dst_loops : list (offset_loop T);
  dst_slices : list (dissected_slice T);
  dst_ccw : list (indexed_pline T);
  dst_cw : list (indexed_pline T) }.

(** 412-522 *)
Definition dissect_loop (s : shape T) (offset : T) (o : shape_options T) (ccw_count : nat)
    (sets : list (slice_point_set T)) (lookup : list (nat * list nat)) (st : dissect_state)
    (loop_idx : nat) : res dissect_state :=
  let! l := index (dst_loops st) loop_idx in
  let pl := ip_pline (ol_pline l) in
  match map_get loop_idx lookup with
  | Some idxs =>
    let! pts := points_of_loop sets loop_idx idxs in
    let sorted := isort (fun a b => cmp_leb (dissection_cmp pl a b)) pts in
    let! slices :=
      if Nat.eqb (length sorted) 1 then
        let! d := view_from_entire_pline pl in
        let! ok := is_slice_valid s offset o d pl (ol_parent l) in
        Ret (if ok then [DS loop_idx d] else [])
      else
        let! within := rmapM (slice_between s offset o l loop_idx) (windows2 sorted) in
        let! pt1 := unwrap (nth_error sorted (length sorted - 1)) in
        let! pt2 := index sorted 0 in
        let! closing := slice_between s offset o l loop_idx (pt1, pt2) in
        Ret (concat within ++ closing) in
    Ret (DSt (dst_loops st) (dst_slices st ++ slices) (dst_ccw st) (dst_cw st))
  | None =>
    let! d := view_from_entire_pline pl in
    let! ok := is_slice_valid s offset o d pl (ol_parent l) in
    if ok then
      let loops := list_set (dst_loops st) loop_idx (OL 0 (IP empty_pline (mk []))) in
      if (loop_idx <? ccw_count)%nat
      then Ret (DSt loops (dst_slices st) (dst_ccw st ++ [ol_pline l]) (dst_cw st))
      else Ret (DSt loops (dst_slices st) (dst_ccw st) (dst_cw st ++ [ol_pline l]))
    else Ret st
  end.

(** 582-592: a finished polyline and whether it is counter clockwise *)
Definition finish_shape_pline (cur : pline T) : res (bool * indexed_pline T) :=
  let! cur :=
    if (2 <? vertex_count cur)%nat then
      let! r := remove_last cur in Ret (set_is_closed (snd r) true)
    else Ret cur in
  let! o := orientation cur in
  let! ip := indexed_new cur in
  Ret (orientation_eqb o CounterClockwise, ip).

(** 550-608 *)
Fixpoint stitch_shape_loop (fuel : nat) (loops : list (offset_loop T))
    (slices : list (dissected_slice T)) (idx : sindex T) (o : shape_options T)
    (current loop_count : nat) (visited : list bool) (cur : pline T)
  : res (list bool * (bool * indexed_pline T)) :=
  match fuel with
  | O => Panic OutOfFuel
  | S f =>
    if (length slices <? loop_count)%nat then Panic Unreachable
    else
      let! sl := index slices current in
      let! l := index loops (ds_source sl) in
      let! v := view_pline (ds_view sl) (ip_pline (ol_pline l)) in
      let cur := extend_remove_repeat cur v (so_pos_equal_eps o) in
      let! cands :=
        rfilter (fun i => let! b := index visited i in Ret (negb b))
                (ix_query idx (aabb_grow (point_box (vd_end_point (ds_view sl)))
                                         (so_slice_join_eps o))) in
      match cands with
      | [] => let! r := finish_shape_pline cur in Ret (visited, r)
      | c :: _ =>
        let same i := match nth_error slices i with
                      | Some s2 => Nat.eqb (ds_source s2) (ds_source sl)
                      | None => false
                      end in
        let next := match find same cands with Some i => i | None => c end in
        let! visited := set_index visited next true in
        stitch_shape_loop f loops slices idx o next (loop_count + 1)%nat visited cur
      end
  end.

(** 540-609 *)
Definition stitch_shape_from (loops : list (offset_loop T)) (slices : list (dissected_slice T))
    (idx : sindex T) (o : shape_options T)
    (st : list bool * (list (indexed_pline T) * list (indexed_pline T))) (i : nat)
  : res (list bool * (list (indexed_pline T) * list (indexed_pline T))) :=
  let '(visited, (ccw, cw)) := st in
  let! b := index visited i in
  if b then Ret st
  else
    let! visited := set_index visited i true in
    let! r := stitch_shape_loop (length slices + 2) loops slices idx o i 0 visited empty_pline in
    let '(is_ccw, ip) := snd r in
    Ret (fst r, if is_ccw then (ccw ++ [ip], cw) else (ccw, cw ++ [ip])).

(** 178-637 *)
Definition shape_parallel_offset (s : shape T) (offset : T) (o : shape_options T)
  : res (shape T) :=
  let! ll := create_offset_loops s offset o in
  let loops := fst ll ++ snd ll in
  match loops with
  | [] => Ret shape_empty
  | _ :: _ =>
    let! loops_idx := index_of_bounds (map ol_pline loops) in
    let! sp := rfold (slice_points_loop loops loops_idx o) (seq 0 (length loops))
                     (SPSt [] [] []) in
    let! ds := rfold (dissect_loop s offset o (length (fst ll)) (sst_sets sp) (sst_lookup sp))
                     (seq 0 (length loops)) (DSt loops [] [] []) in
    let slices := dst_slices ds in
    let idx := mk (map (fun sl => aabb_grow (point_box (pos (vd_updated_start (ds_view sl))))
                                            (so_slice_join_eps o)) slices) in
    let! st := rfold (stitch_shape_from (dst_loops ds) slices idx o) (seq 0 (length slices))
                     (repeat false (length slices), (dst_ccw ds, dst_cw ds)) in
    let ccw := fst (snd st) in
    let cw := snd (snd st) in
    let! pidx := index_of_bounds (ccw ++ cw) in
    Ret (SH ccw cw pidx)
  end.

End WithIndex.
End Shape.
Arguments sp_state T : clear implicits.
Arguments dissect_state T : clear implicits.
