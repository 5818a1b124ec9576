(** What stitching slices into closed polylines should give (C31). *)
From Coq Require Import List Bool Arith Permutation.
From Verif Require Import Num Res ModelMath ModelSeg ModelPline ModelView ModelBoolean Spec SpecPline SpecView.
Import ListNotations.

Section SpecStitch.
Context {T : Type} {N : Num T}.
Local Open Scope num_scope.

(** The point [r] is not further than [eps] from [q] in any coordinate. *)
Definition within (eps : T) (q r : vec2 T) : bool :=
  negb (vx q + eps <? vx r) && negb (vy q + eps <? vy r) && negb (vx q - eps >? vx r) && negb (vy q - eps >? vy r).

(** The polyline a slice is taken from, and the ends of the slice in the direction it is followed. *)
Definition slice_source (p1 p2 : pline T) (s : boolean_slice T) : pline T := if bs_source_is_pline1 s then p1 else p2.
Definition slice_begin (s : boolean_slice T) : vec2 T :=
  let d := bs_view s in if vd_inverted d then vd_end_point d else pos (vd_updated_start d).
Definition slice_end (s : boolean_slice T) : vec2 T :=
  let d := bs_view s in if vd_inverted d then pos (vd_updated_start d) else vd_end_point d.

(** The slice refers to vertexes of its polyline. *)
Definition slice_fits (p1 p2 : pline T) (s : boolean_slice T) : Prop :=
  let d := bs_view s in
  (vd_start_index d < vertex_count (slice_source p1 p2 s) /\ vd_end_index_offset d <= vertex_count (slice_source p1 p2 s))%nat.

(** [l] is the path of the slice. *)
Definition slice_path_is (p1 p2 : pline T) (s : boolean_slice T) (l : list (vertex T)) : Prop :=
  let d := bs_view s in
  let forward := spec_view (vd_updated_start d)
                   (spec_following (vtx (slice_source p1 p2 s)) (vd_start_index d) (vd_end_index_offset d))
                   (vd_updated_end_bulge d) (vd_end_point d) in
  if vd_inverted d
  then length l = (vd_end_index_offset d + 2)%nat
       /\ (vd_end_index_offset d <> 0%nat \/ vd_updated_end_bulge d = pbulge (vd_updated_start d) ->
           map seg_data (spec_segs l false) = rev (map (fun s => seg_reverse (seg_data s)) (spec_segs forward false)))
       /\ nth_error l (vd_end_index_offset d + 1) = Some (Vtx (px (vd_updated_start d)) (py (vd_updated_start d)) nzero)
  else l = forward.

(** The selector returns one of the slices offered, if any, or none. *)
Definition picks (select : nat -> list nat -> res (option nat)) : Prop :=
  forall cur avail, avail <> [] -> exists o, select cur avail = Ret o /\ forall i, o = Some i -> In i avail.

Section Stitched.
Context (path : boolean_slice T -> list (vertex T) -> Prop) (slices : list (boolean_slice T))
        (select : nat -> list nat -> res (option nat)) (eps : T).

Definition close_by (a b : vertex T) : bool := v2fuzzy_eq_eps (pos a) (pos b) eps.

(** The slices that may follow at [q]: those that begin near it and have not been used, and [first]. *)
Definition offered (used : list nat) (first : nat) (q : vec2 T) (avail : list nat) : Prop :=
  forall i, In i avail <-> exists s, nth_error slices i = Some s /\ within eps q (slice_begin s) = true
                                     /\ (i = first \/ ~ In i used).

(** [K] is the path of the slices [chain], which begins with [first], put together: each is the one selected
    at the end of the path before, replaces the last vertex of it, and repeated positions are left out.
    [used] are the slices used before this chain. *)
Inductive stitched (used : list nat) (first : nat) : list nat -> list (vertex T) -> Prop :=
| stitched_one s l rs : nth_error slices first = Some s -> path s l -> is_runs close_by l rs ->
    stitched used first [first] (flat_map run_rep rs)
| stitched_more c cur K v avail b s l rs : stitched used first (c ++ [cur]) (K ++ [v]) ->
    offered (used ++ c ++ [cur]) first (pos v) avail -> avail <> [] -> select cur avail = Ret (Some b) -> b <> first ->
    nth_error slices b = Some s -> path s l -> is_runs close_by (K ++ l) rs ->
    stitched used first ((c ++ [cur]) ++ [b]) (flat_map run_rep rs).

(** What comes of a chain: nothing if nothing follows or is selected, the closed polyline if the first slice is
    selected and there are at least three vertexes, of which the last is not kept. *)
Inductive finished (used : list nat) (first : nat) : list nat -> list (vertex T) -> list (boolean_result_pline T) -> Prop :=
| finished_end c cur K v avail : offered (used ++ c ++ [cur]) first (pos v) avail ->
    avail = [] \/ select cur avail = Ret None -> finished used first (c ++ [cur]) (K ++ [v]) []
| finished_small c cur K v avail : offered (used ++ c ++ [cur]) first (pos v) avail -> avail <> [] ->
    select cur avail = Ret (Some first) -> (length K < 2)%nat -> finished used first (c ++ [cur]) (K ++ [v]) []
| finished_loop c cur K v avail sub : offered (used ++ c ++ [cur]) first (pos v) avail -> avail <> [] ->
    select cur avail = Ret (Some first) -> (2 <= length K)%nat ->
    map (@Some _) sub = map (nth_error slices) (c ++ [cur]) ->
    finished used first (c ++ [cur]) (K ++ [v]) [BRP (PL K true) sub].

(** The chains begin with the slices in order as far as not yet used. *)
Inductive stitching : list (list nat) -> list (boolean_result_pline T) -> Prop :=
| stitching_nil : stitching [] []
| stitching_more chains rs first c K out : stitching chains rs ->
    ~ In first (concat chains) -> (forall j, (j < first)%nat -> In j (concat chains)) ->
    stitched (concat chains) first c K -> finished (concat chains) first c K out ->
    stitching (chains ++ [c]) (rs ++ out).
End Stitched.

(** The slices are divided by index into those of the first polyline, those of the second and the overlapping
    ones, once for each polyline. *)
Definition of_pline1 (ps : pruned_slices T) (i : nat) : Prop := (i < ps_start2 ps)%nat.
Definition of_pline2 (ps : pruned_slices T) (i : nat) : Prop := (ps_start2 ps <= i < ps_start1_overlapping ps)%nat.
Definition of_overlap1 (ps : pruned_slices T) (i : nat) : Prop := (ps_start1_overlapping ps <= i < ps_start2_overlapping ps)%nat.
Definition of_overlap2 (ps : pruned_slices T) (i : nat) : Prop := (ps_start2_overlapping ps <= i)%nat.

(** [o] is a slice of the kind [first] if there is one, otherwise of the kind [second] if there is one, and
    otherwise [rest]. *)
Definition preference (first second : nat -> Prop) (rest : option nat) (avail : list nat) (o : option nat) : Prop :=
  (exists i, o = Some i /\ In i avail /\ first i)
  \/ ((forall j, In j avail -> ~ first j)
      /\ ((exists i, o = Some i /\ In i avail /\ second i) \/ ((forall j, In j avail -> ~ second j) /\ o = rest))).

(** One slice follows another: it begins near a point that is the end of the other up to [eps]. *)
Definition follows (eps : T) (a b : boolean_slice T) : Prop :=
  exists q, (q = slice_end a \/ v2fuzzy_eq_eps q (slice_end a) eps = true) /\ within eps q (slice_begin b) = true.

(** Each follows the one before, and the first follows the last. *)
Definition cycle (eps : T) (l : list (boolean_slice T)) : Prop :=
  l <> [] /\ (forall i a b, nth_error l i = Some a -> nth_error l (S i) = Some b -> follows eps a b)
  /\ (forall a z, hd_error l = Some a -> hd_error (rev l) = Some z -> follows eps z a).

(** For a union or intersection the path changes to the other polyline where it can. *)
Definition joining (ps : pruned_slices T) (select : nat -> list nat -> res (option nat)) : Prop :=
  forall cur l, l <> [] -> exists o, select cur l = Ret o
  /\ (of_pline1 ps cur \/ of_overlap1 ps cur -> preference (of_pline2 ps) (of_pline1 ps) (hd_error l) l o)
  /\ (~ (of_pline1 ps cur \/ of_overlap1 ps cur) -> preference (of_pline1 ps) (of_pline2 ps) (hd_error l) l o).

(** For a difference also, but it does not go from one overlap to another. *)
Definition subtracting (ps : pruned_slices T) (select : nat -> list nat -> res (option nat)) : Prop :=
  forall cur l, l <> [] -> exists o, select cur l = Ret o
  /\ (of_pline1 ps cur -> preference (of_pline2 ps) (fun _ => False) (hd_error l) l o)
  /\ (of_pline2 ps cur -> preference (of_pline1 ps) (fun _ => False) (hd_error l) l o)
  /\ (of_overlap1 ps cur -> preference (of_pline2 ps) (of_pline1 ps) None l o)
  /\ (of_overlap2 ps cur -> preference (of_pline1 ps) (of_pline2 ps) None l o).

Definition prefers (op : boolean_op) (ps : pruned_slices T) (select : nat -> list nat -> res (option nat)) : Prop :=
  match op with BOr | BAnd => joining ps select | BNot | BXor => subtracting ps select end.
End SpecStitch.

Section SpecLoop.
Context {T : Type} {N : Num T}.

(** The loop of the slices with the indexes [c]: closed, at least two vertexes, none at the position of the
    one before, and each slice follows the one before. *)
Definition loop_ok (slices : list (boolean_slice T)) (eps : T) (r : boolean_result_pline T) (c : list nat) : Prop :=
  is_closed (brp_pline r) = true /\ 2 <= vertex_count (brp_pline r)
  /\ no_repeat (close_by eps) (vtx (brp_pline r))
  /\ map (@Some _) (brp_subslices r) = map (nth_error slices) c /\ cycle eps (brp_subslices r).
End SpecLoop.
