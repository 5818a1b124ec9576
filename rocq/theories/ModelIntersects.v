(** Model of /repo/cavalier_contours/src/polyline/internal/pline_intersects.rs and
    [visit_self_intersects_opt] (traits.rs:1276-1315).

    Simplifications: a visitor with control flow type C is a state transformer
    [S -> event -> S * bool], the boolean being [should_break()] of the returned C; the C value itself is
    not modelled. [HashSet]s are lists. The spatial index option is a parameter: the caller passes
    the index it was given or [mk (boxes of create_approx_aabb_index)].
    [sort_unstable_by] is a stable insertion sort: every order an unstable sort may give to
    equal elements is the stable order for some reordering of the input, and theorems quantify over
    all inputs. *)
From Coq Require Import ZArith Bool List Arith.
From Verif Require Import Num Res ModelMath ModelSeg ModelPline ModelSegIntr ModelView ModelIndex.
Import ListNotations.

(** pline_types.rs:336-343 *)
Record basic_intr (T : Type) := BI { bi_index1 : nat; bi_index2 : nat; bi_point : vec2 T }.
Arguments BI {T} _ _ _.
Arguments bi_index1 {T} _.
Arguments bi_index2 {T} _.
Arguments bi_point {T} _.

(** pline_types.rs:358-367 *)
Record overlap_intr (T : Type) :=
  OI { oi_index1 : nat; oi_index2 : nat; oi_point1 : vec2 T; oi_point2 : vec2 T }.
Arguments OI {T} _ _ _ _.
Arguments oi_index1 {T} _.
Arguments oi_index2 {T} _.
Arguments oi_point1 {T} _.
Arguments oi_point2 {T} _.

(** pline_types.rs:389-392 *)
Inductive intr_event (T : Type) := EvBasic (b : basic_intr T) | EvOverlap (o : overlap_intr T).
Arguments EvBasic {T} _.
Arguments EvOverlap {T} _.

(** pline_types.rs:251-260 *)
Inductive self_include := IncludeAll | IncludeLocal | IncludeGlobal.

(** pline_intersects.rs:448-459 *)
Record overlapping_slice (T : Type) := OS {
  os_start_indexes : nat * nat;
  os_end_indexes : nat * nat;
  os_view : view_data T;
  os_is_loop : bool;
  os_opposing : bool }.
Arguments OS {T} _ _ _ _ _.
Arguments os_start_indexes {T} _.
Arguments os_end_indexes {T} _.
Arguments os_view {T} _.
Arguments os_is_loop {T} _.
Arguments os_opposing {T} _.

Section Intersects.
Context {T : Type} {N : Num T}.
Local Open Scope num_scope.

Section Visitor.
Context {S : Type} (visit : S -> intr_event T -> S * bool).

(** try_cf! (core/mod.rs:30-40): go on only if the visitor did not ask to stop *)
Definition andthen (st : S * bool) (f : S -> S * bool) : S * bool :=
  if snd st then st else f (fst st).
Definition randthen (st : S * bool) (f : S -> res (S * bool)) : res (S * bool) :=
  if snd st then Ret st else f (fst st).

(** pline_intersects.rs:48-94 *)
Definition visit_local_indexes (p : pline T) (eps : T) (i j k : nat) (s : S) : res (S * bool) :=
  let! v1 := at_ p i in
  let! v2 := at_ p j in
  let! v3 := at_ p k in
  if v2fuzzy_eq_eps (pos v1) (pos v2) eps then
    Ret (visit s (EvOverlap (OI i j (pos v1) (pos v2))))
  else
    match pline_seg_intr v1 v2 v2 v3 eps with
    | SINoIntersect => Ret (s, false)
    | SITangent point | SIOne point =>
      if negb (v2fuzzy_eq_eps point (pos v2) eps) then Ret (visit s (EvBasic (BI i j point)))
      else Ret (s, false)
    | SITwo point1 point2 =>
      Ret (andthen (if negb (v2fuzzy_eq_eps point1 (pos v2) eps)
                    then visit s (EvBasic (BI i j point1)) else (s, false))
             (fun s => if negb (v2fuzzy_eq_eps point2 (pos v2) eps)
                       then visit s (EvBasic (BI i j point2)) else (s, false)))
    | SIOverlapLines point1 point2 | SIOverlapArcs point1 point2 =>
      Ret (visit s (EvOverlap (OI i j point1 point2)))
    end.

(** pline_intersects.rs:96-98: [for i in 2..vc] *)
Fixpoint visit_local_loop (p : pline T) (eps : T) (l : list nat) (s : S) : res (S * bool) :=
  match l with
  | [] => Ret (s, false)
  | i :: t =>
    let! st := visit_local_indexes p eps (i - 2)%nat (i - 1)%nat i s in
    randthen st (visit_local_loop p eps t)
  end.

(** pline_intersects.rs:20-108 *)
Definition visit_local_self_intersects (p : pline T) (eps : T) (s : S) : res (S * bool) :=
  let vc := vertex_count p in
  if (vc <? 2)%nat then Ret (s, false)
  else if Nat.eqb vc 2 then
    if is_closed p then
      let! v0 := at_ p 0 in
      let! v1 := at_ p 1 in
      if fuzzy_eq (pbulge v0) (- pbulge v1) then
        Ret (visit s (EvOverlap (OI 0 1 (pos v0) (pos v1))))
      else Ret (s, false)
    else Ret (s, false)
  else
    let! st := visit_local_loop p eps (seq 2 (vc - 2)) s in
    randthen st (fun s =>
      if is_closed p then
        let! st := visit_local_indexes p eps (vc - 2)%nat (vc - 1)%nat 0 s in
        randthen st (visit_local_indexes p eps (vc - 1)%nat 0 1)
      else Ret (s, false)).

(** pline_intersects.rs:152-217: one hit of the query for segment [i]. State: visited pairs,
    visitor state, break flag. *)
Definition visit_global_hit (p : pline T) (eps : T) (i j : nat) (v1 v2 : vertex T)
    (visited : list (nat * nat)) (s : S) (hit_i : nat)
  : res (list (nat * nat) * (S * bool)) :=
  let hit_j := next_wrapping_index p hit_i in
  if Nat.eqb i hit_i || Nat.eqb i hit_j || Nat.eqb j hit_i || Nat.eqb j hit_j
  then Ret (visited, (s, false))
  else if existsb (fun q => Nat.eqb (fst q) hit_i && Nat.eqb (snd q) i) visited
  then Ret (visited, (s, false))
  else
    let visited := (i, hit_i) :: visited in
    let! u1 := at_ p hit_i in
    let! u2 := at_ p hit_j in
    let skip_intr_at_end intr :=
      v2fuzzy_eq_eps (pos v2) intr eps && v2fuzzy_eq_eps (pos u2) intr eps in
    match pline_seg_intr v1 v2 u1 u2 eps with
    | SINoIntersect => Ret (visited, (s, false))
    | SITangent point | SIOne point =>
      if negb (skip_intr_at_end point) then Ret (visited, visit s (EvBasic (BI i hit_i point)))
      else Ret (visited, (s, false))
    | SITwo point1 point2 =>
      Ret (visited,
           andthen (if negb (skip_intr_at_end point1)
                    then visit s (EvBasic (BI i hit_i point1)) else (s, false))
             (fun s => if negb (skip_intr_at_end point2)
                       then visit s (EvBasic (BI i hit_i point2)) else (s, false)))
    | SIOverlapLines point1 point2 | SIOverlapArcs point1 point2 =>
      if negb (skip_intr_at_end point1)
      then Ret (visited, visit s (EvOverlap (OI i hit_i point1 point2)))
      else Ret (visited, (s, false))
    end.

(** The query of the spatial index calling the visitor for each hit until it asks to stop. *)
Fixpoint visit_global_hits (p : pline T) (eps : T) (i j : nat) (v1 v2 : vertex T)
    (hits : list nat) (visited : list (nat * nat)) (s : S)
  : res (list (nat * nat) * (S * bool)) :=
  match hits with
  | [] => Ret (visited, (s, false))
  | h :: t =>
    let! r := visit_global_hit p eps i j v1 v2 visited s h in
    if snd (snd r) then Ret r
    else visit_global_hits p eps i j v1 v2 t (fst r) (fst (snd r))
  end.

(** pline_intersects.rs:144-231: the loop over the items of the index *)
Fixpoint visit_global_loop (p : pline T) (idx : sindex T) (eps : T) (items : list nat)
    (visited : list (nat * nat)) (s : S) : res (S * bool) :=
  match items with
  | [] => Ret (s, false)
  | i :: t =>
    let! bx := index (ix_boxes idx) i in
    let j := next_wrapping_index p i in
    let! v1 := at_ p i in
    let! v2 := at_ p j in
    let! r := visit_global_hits p eps i j v1 v2 (ix_query idx (aabb_grow bx eps)) visited s in
    if snd (snd r) then Ret (snd r)
    else visit_global_loop p idx eps t (fst r) (fst (snd r))
  end.

(** pline_intersects.rs:120-234 *)
Definition visit_global_self_intersects (p : pline T) (idx : sindex T) (eps : T) (s : S)
  : res (S * bool) :=
  if (vertex_count p <? 3)%nat then Ret (s, false)
  else visit_global_loop p idx eps (ix_order idx) [] s.

(** traits.rs:1276-1315; [idx] is the index from the options or the constructed one *)
Definition visit_self_intersects (p : pline T) (idx : sindex T) (include : self_include) (eps : T)
    (s : S) : res (S * bool) :=
  if (vertex_count p <? 2)%nat then Ret (s, false)
  else
    match include with
    | IncludeLocal => visit_local_self_intersects p eps s
    | IncludeGlobal => visit_global_self_intersects p idx eps s
    | IncludeAll =>
      let! st := visit_local_self_intersects p eps s in
      randthen st (visit_global_self_intersects p idx eps)
    end.

End Visitor.

(** pline_intersects.rs:254-280 *)
Definition as_basic_visitor (include_overlapping : bool) (intrs : list (basic_intr T))
    (e : intr_event T) : list (basic_intr T) * bool :=
  match e with
  | EvBasic b => (intrs ++ [b], false)
  | EvOverlap o =>
    if include_overlapping then
      (intrs ++ [BI (oi_index1 o) (oi_index2 o) (oi_point1 o);
                 BI (oi_index1 o) (oi_index2 o) (oi_point2 o)], false)
    else (intrs, false)
  end.

(** pline_intersects.rs:239-291 *)
Definition all_self_intersects_as_basic (p : pline T) (idx : sindex T) (include_overlapping : bool)
    (eps : T) : res (list (basic_intr T)) :=
  let! st := visit_local_self_intersects (as_basic_visitor include_overlapping) p eps [] in
  let! st := visit_global_self_intersects (as_basic_visitor include_overlapping) p idx eps (fst st) in
  Ret (fst st).

(** ** find_intersects *)

(** State of the loop: basic, overlapping, possible duplicates 1 and 2 *)
Record fi_state := FI {
  fi_basic : list (basic_intr T);
  fi_overlap : list (overlap_intr T);
  fi_dup1 : list nat;
  fi_dup2 : list nat }.

(** pline_intersects.rs:343-397 *)
Definition find_intersects_hit (p1 p2 : pline T) (eps : T) (i2 : nat) (p2v1 p2v2 : vertex T)
    (st : fi_state) (i1 : nat) : res fi_state :=
  let open1_last_idx := (vertex_count p1 - 2)%nat in
  let open2_last_idx := (vertex_count p2 - 2)%nat in
  let j1 := next_wrapping_index p1 i1 in
  let! p1v1 := at_ p1 i1 in
  let! p1v2 := at_ p1 j1 in
  let skip_intr_at_end intr :=
    (v2fuzzy_eq_eps (pos p1v2) intr eps && (is_closed p1 || negb (Nat.eqb i1 open1_last_idx)))
    || (v2fuzzy_eq_eps (pos p2v2) intr eps && (is_closed p2 || negb (Nat.eqb i2 open2_last_idx))) in
  let add_basic st pt :=
    if negb (skip_intr_at_end pt)
    then FI (fi_basic st ++ [BI i1 i2 pt]) (fi_overlap st) (fi_dup1 st) (fi_dup2 st) else st in
  match pline_seg_intr p1v1 p1v2 p2v1 p2v2 eps with
  | SINoIntersect => Ret st
  | SITangent point | SIOne point => Ret (add_basic st point)
  | SITwo point1 point2 => Ret (add_basic (add_basic st point1) point2)
  | SIOverlapLines point1 point2 | SIOverlapArcs point1 point2 =>
    Ret (FI (fi_basic st) (fi_overlap st ++ [OI i1 i2 point1 point2])
            (if v2fuzzy_eq_eps (pos p1v2) point1 eps || v2fuzzy_eq_eps (pos p1v2) point2 eps
             then next_wrapping_index p1 i1 :: fi_dup1 st else fi_dup1 st)
            (if v2fuzzy_eq_eps (pos p2v2) point1 eps || v2fuzzy_eq_eps (pos p2v2) point2 eps
             then next_wrapping_index p2 i2 :: fi_dup2 st else fi_dup2 st))
  end.

(** pline_intersects.rs:340-410: one segment of pline2 *)
Definition find_intersects_seg (p1 p2 : pline T) (idx1 : sindex T) (eps : T) (st : fi_state)
    (ij : nat * nat) : res fi_state :=
  let '(i2, j2) := ij in
  let! p2v1 := at_ p2 i2 in
  let! p2v2 := at_ p2 j2 in
  let bb := seg_fast_approx_bounding_box p2v1 p2v2 in
  rfold (find_intersects_hit p1 p2 eps i2 p2v1 p2v2) (ix_query idx1 (aabb_grow bb eps)) st.

Definition nat_in (n : nat) (l : list nat) : bool := existsb (Nat.eqb n) l.

(** pline_intersects.rs:419-437: is the intersect kept *)
Definition keep_basic (p1 p2 : pline T) (eps : T) (dup1 dup2 : list nat) (b : basic_intr T)
  : res bool :=
  let! skip1 :=
    if nat_in (bi_index1 b) dup1 then
      let! v := at_ p1 (bi_index1 b) in Ret (v2fuzzy_eq_eps (bi_point b) (pos v) eps)
    else Ret false in
  if skip1 then Ret false
  else if nat_in (bi_index2 b) dup2 then
    let! v := at_ p2 (bi_index2 b) in Ret (negb (v2fuzzy_eq_eps (bi_point b) (pos v) eps))
  else Ret true.

Fixpoint rfilter {A} (f : A -> res bool) (l : list A) : res (list A) :=
  match l with
  | [] => Ret []
  | a :: t => let! b := f a in let! r := rfilter f t in Ret (if b then a :: r else r)
  end.

(** pline_intersects.rs:305-441. Result: basic and overlapping intersects. *)
Definition find_intersects (p1 p2 : pline T) (idx1 : sindex T) (eps : T)
  : res (list (basic_intr T) * list (overlap_intr T)) :=
  if (vertex_count p1 <? 2)%nat || (vertex_count p2 <? 2)%nat then Ret ([], [])
  else
    let! ijs := iter_segment_indexes p2 in
    let! st := rfold (find_intersects_seg p1 p2 idx1 eps) ijs (FI [] [] [] []) in
    match fi_dup1 st, fi_dup2 st with
    | [], [] => Ret (fi_basic st, fi_overlap st)
    | _, _ =>
      let! kept := rfilter (keep_basic p1 p2 eps (fi_dup1 st) (fi_dup2 st)) (fi_basic st) in
      Ret (kept, fi_overlap st)
    end.

(** ** Overlapping slices *)

(** pline_intersects.rs:465-643 *)
Definition overlapping_slice_new (p1 p2 : pline T) (start_intr : overlap_intr T)
    (end_intr : option (overlap_intr T)) (eps : T) : res (overlapping_slice T) :=
  let! start_v1 := at_ p1 (oi_index1 start_intr) in
  let! start_v2 := at_ p1 (next_wrapping_index p1 (oi_index1 start_intr)) in
  let! start_u1 := at_ p2 (oi_index2 start_intr) in
  let! start_u2 := at_ p2 (next_wrapping_index p2 (oi_index2 start_intr)) in
  let opposing :=
    let t1 := seg_tangent_vector start_v1 start_v2 (oi_point1 start_intr) in
    let t2 := seg_tangent_vector start_u1 start_u2 (oi_point1 start_intr) in
    v2dot t1 t2 <? nzero in
  let start_indexes := (oi_index1 start_intr, oi_index2 start_intr) in
  let split1 := seg_split_at_point start_u1 start_u2 (oi_point1 start_intr) eps in
  match end_intr with
  | None =>
    let split2 := seg_split_at_point (split_vertex split1) start_u2 (oi_point2 start_intr) eps in
    let ustart := updated_start split2 in
    Ret (OS start_indexes start_indexes
            (VD (snd start_indexes) 0 ustart (pbulge ustart) (oi_point2 start_intr) false)
            false opposing)
  | Some ei =>
    if v2fuzzy_eq_eps (oi_point2 ei) (oi_point1 start_intr) eps then
      let! o := usub (vertex_count p2) 1 in
      let! lastv := at_ p2 o in
      Ret (OS start_indexes start_indexes
              (VD (snd start_indexes) o start_u1 (pbulge lastv) (oi_point2 ei) false)
              true opposing)
    else
      let end_indexes := (oi_index1 ei, oi_index2 ei) in
      let! end_index_offset := fwd_wrapping_dist p2 (snd start_indexes) (oi_index2 ei) in
      if Nat.eqb (oi_index2 start_intr) (oi_index2 ei) then
        let split2 := seg_split_at_point (split_vertex split1) start_u2 (oi_point2 ei) eps in
        let ustart := updated_start split2 in
        Ret (OS start_indexes end_indexes
                (VD (snd start_indexes) end_index_offset ustart (pbulge ustart) (oi_point2 ei) false)
                false opposing)
      else
        let! end_u1 := at_ p2 (oi_index2 ei) in
        let! end_u2 := at_ p2 (next_wrapping_index p2 (oi_index2 ei)) in
        let esplit1 := seg_split_at_point end_u1 end_u2 (oi_point1 ei) eps in
        let esplit2 := seg_split_at_point (split_vertex esplit1) end_u2 (oi_point2 ei) eps in
        Ret (OS start_indexes end_indexes
                (VD (snd start_indexes) end_index_offset (split_vertex split1)
                    (pbulge (updated_start esplit2)) (oi_point2 ei) false)
                false opposing)
  end.

(** Stable insertion sort by a "goes before or equal" test. *)
Section Sort.
Context {A : Type} (leb : A -> A -> bool).
Fixpoint insert_sorted (a : A) (l : list A) : list A :=
  match l with
  | [] => [a]
  | b :: t => if leb a b then a :: b :: t else b :: insert_sorted a t
  end.
Fixpoint isort (l : list A) : list A :=
  match l with [] => [] | a :: t => insert_sorted a (isort t) end.
End Sort.

Definition cmp_leb (c : comparison) : bool := match c with Gt => false | _ => true end.
Definition cmp_then (c d : comparison) : comparison := match c with Eq => d | _ => c end.

(** pline_intersects.rs:693-701 (the start vertex is in range for overlaps found by
    [find_intersects]; out of range it would panic, here the overlaps compare equal) *)
Definition overlap_cmp (p2 : pline T) (a b : overlap_intr T) : comparison :=
  cmp_then (Nat.compare (oi_index2 a) (oi_index2 b))
    (match get p2 (oi_index2 a) with
     | None => Eq
     | Some v => ntotal_cmp (dist_squared (pos v) (oi_point1 a)) (dist_squared (pos v) (oi_point1 b))
     end).

(** pline_intersects.rs:708-722. State: result so far, start_intr, end_intr, current_end_point *)
Fixpoint join_loop (p1 p2 : pline T) (eps : T) (l : list (overlap_intr T))
    (result : list (overlapping_slice T)) (start_intr : overlap_intr T)
    (end_intr : option (overlap_intr T)) (current_end : vec2 T)
  : res (list (overlapping_slice T)) :=
  match l with
  | [] =>
    let! slice := overlapping_slice_new p1 p2 start_intr end_intr eps in
    Ret (result ++ [slice])
  | intr :: t =>
    if negb (v2fuzzy_eq_eps (oi_point1 intr) current_end eps) then
      let! slice := overlapping_slice_new p1 p2 start_intr end_intr eps in
      join_loop p1 p2 eps t (result ++ [slice]) intr None (oi_point2 intr)
    else join_loop p1 p2 eps t result start_intr (Some intr) (oi_point2 intr)
  end.

(** pline_intersects.rs:728-749 *)
Definition join_ends (p2 : pline T) (eps : T) (result : list (overlapping_slice T))
  : res (list (overlapping_slice T)) :=
  match result with
  | first_slice :: _ :: _ =>
    match rev result with
    | [] => Ret result
    | last_slice :: before_rev =>
      if v2fuzzy_eq_eps (vd_end_point (os_view last_slice))
                        (pos (vd_updated_start (os_view first_slice))) eps then
        let! p0 := at_ p2 0 in
        let fv := os_view first_slice in
        let lv := os_view last_slice in
        let off := (vd_end_index_offset fv + vd_end_index_offset lv)%nat in
        let off := if v2fuzzy_eq_eps (vd_end_point lv) (pos p0) eps then (off + 1)%nat else off in
        let fv' := VD (vd_start_index fv) off (vd_updated_start lv) (vd_updated_end_bulge fv)
                      (vd_end_point fv) (vd_inverted fv) in
        let first' := OS (os_start_indexes last_slice) (os_end_indexes first_slice) fv'
                         (os_is_loop first_slice) (os_opposing first_slice) in
        Ret (first' :: skipn 1 (rev before_rev))
      else Ret result
    end
  | _ => Ret result
  end.

(** pline_intersects.rs:703-752: the part after sorting *)
Definition join_sorted_overlaps (p1 p2 : pline T) (eps : T) (sorted : list (overlap_intr T))
  : res (list (overlapping_slice T)) :=
  match sorted with
  | [] => Ret []
  | start_intr :: t =>
    let! result := join_loop p1 p2 eps t [] start_intr None (oi_point2 start_intr) in
    join_ends p2 eps result
  end.

(** pline_intersects.rs:662-752. [sort_unstable_by] leaves the order of equal elements open; here they
    keep their order. *)
Definition sort_and_join_overlapping_intersects (intersects : list (overlap_intr T))
    (p1 p2 : pline T) (eps : T) : res (list (overlapping_slice T)) :=
  join_sorted_overlaps p1 p2 eps (isort (fun a b => cmp_leb (overlap_cmp p2 a b)) intersects).

End Intersects.
Arguments fi_state T : clear implicits.
