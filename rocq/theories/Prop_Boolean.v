(** C30, C31, C32 and C45: boolean operations on closed polylines. *)
From Coq Require Import Reals ZArith List Bool PrimFloat Permutation Sorted.
From Verif Require Import Num RNum FNum Res ModelMath ModelSeg ModelPline ModelView ModelIndex ModelIntersects ModelBoolean.
From Verif Require Import Spec SpecView SpecIndex SpecIntersects SpecJoin SpecBoolean SpecStitch SpecPrune SpecPruneR.
From Verif Require Import ProofBoolean ProofStitch2 ProofPrune2 ProofPruneR ProofJoinF ProofBooleanF.
Import ListNotations.

(** ** C30 *)

(** Anything but closed polylines with at least two vertexes is rejected. *)
Theorem C30_invalid {T} {N : Num T} mk (p1 p2 : pline T) op idx eps : ~ (valid_loop p1 /\ valid_loop p2) ->
  polyline_boolean mk p1 p2 op idx eps = Ret (BR [] [] InvalidInput).
Proof. exact (boolean_invalid mk p1 p2 op idx eps). Qed.
Print Assumptions C30_invalid.

(** The same loops, and loops that do not meet, give whole loops by the table. *)
Theorem C30_whole {T} {N : Num T} mk (p1 p2 : pline T) op idx eps boxes :
  index_of boxes idx -> length boxes = length (spec_segs (vtx p1) (is_closed p1)) -> valid_loop p1 -> valid_loop p2 ->
  exists bs os slices v1 v2 w12 w21, find_intersects p1 p2 idx eps = Ret (bs, os)
  /\ sort_and_join_overlapping_intersects os p1 p2 eps = Ret slices
  /\ nth_error (vtx p1) 0 = Some v1 /\ nth_error (vtx p2) 0 = Some v2
  /\ winding_number p2 (pos v1) = Ret w12 /\ winding_number p1 (pos v2) = Ret w21
  /\ let result info := let '(ps, ns) := whole_loops op info p1 p2 in
       Ret (BR (map (fun p => BRP p []) ps) (map (fun p => BRP p []) ns) info) in
     (forall s, slices = [s] -> os_is_loop s = true -> polyline_boolean mk p1 p2 op idx eps = result Overlapping)
  /\ (bs = [] -> slices = [] -> polyline_boolean mk p1 p2 op idx eps = result (relation w12 w21)).
Proof. exact (fun IO BL => boolean_whole mk p1 p2 op idx eps boxes IO BL). Qed.
Print Assumptions C30_whole.

(** The loops of the table give the region of the operation, if the loops are related as reported. *)
Theorem C30_region {T P} (ins : pline T -> P -> Prop) op info (p1 p2 : pline T) : related ins info p1 p2 ->
  forall x, (ins p1 x \/ ~ ins p1 x) -> (ins p2 x \/ ~ ins p2 x) ->
  (region ins (let '(ps, ns) := whole_loops op info p1 p2 in
               BR (map (fun p => BRP p []) ps) (map (fun p => BRP p []) ns) info) x
   <-> operation op (ins p1 x) (ins p2 x)).
Proof. exact (whole_region ins op info p1 p2). Qed.
Print Assumptions C30_region.

Example C30_example :
  map (outcome (square 0 0 4) (square 1 1 2)) [BOr; BAnd; BNot; BXor]
  = [Ret ([[(0, 0); (4, 0); (4, 4); (0, 4)]], [], Pline2InsidePline1);
     Ret ([[(1, 1); (3, 1); (3, 3); (1, 3)]], [], Pline2InsidePline1);
     Ret ([[(0, 0); (4, 0); (4, 4); (0, 4)]], [[(1, 1); (3, 1); (3, 3); (1, 3)]], Pline2InsidePline1);
     Ret ([[(0, 0); (4, 0); (4, 4); (0, 4)]], [[(1, 1); (3, 1); (3, 3); (1, 3)]], Pline2InsidePline1)]%float
  /\ map (outcome (square 0 0 4) (square 5 1 2)) [BOr; BAnd; BNot; BXor]
  = [Ret ([[(0, 0); (4, 0); (4, 4); (0, 4)]; [(5, 1); (7, 1); (7, 3); (5, 3)]], [], Disjoint);
     Ret ([], [], Disjoint);
     Ret ([[(0, 0); (4, 0); (4, 4); (0, 4)]], [], Disjoint);
     Ret ([[(0, 0); (4, 0); (4, 4); (0, 4)]; [(5, 1); (7, 1); (7, 3); (5, 3)]], [], Disjoint)]%float
  /\ map (outcome (square 0 0 4) (square 0 0 4)) [BOr; BAnd; BNot; BXor]
  = [Ret ([[(0, 0); (4, 0); (4, 4); (0, 4)]], [], Overlapping);
     Ret ([[(0, 0); (4, 0); (4, 4); (0, 4)]], [], Overlapping);
     Ret ([], [], Overlapping); Ret ([], [], Overlapping)]%float.
Proof. exact squares_whole. Qed.

(** ** C31 *)

(** Stitching slices that refer to vertexes ends, however the index orders its answers and whichever the
    selector picks: every slice is used in exactly one chain, and each result is the closed loop of one
    chain. *)
Theorem C31_stitching {T} {N : Num T} (p1 p2 : pline T) slices select eps mk :
  makes_index mk -> picks select -> Forall (slice_fits p1 p2) slices ->
  exists chains rs cs, stitch_slices_into_closed_polylines mk slices p1 p2 select eps = Ret rs
  /\ stitching (slice_path_is p1 p2) slices select eps chains rs /\ Permutation (concat chains) (seq 0 (length slices))
  /\ incl cs chains /\ NoDup (concat cs) /\ Forall2 (loop_ok slices eps) rs cs.
Proof. exact (stitch_ok p1 p2 slices select eps mk). Qed.
Print Assumptions C31_stitching.

(** Both selectors pick one of the slices offered, and change to the other polyline where they can. *)
Theorem C31_or_and_selector {T} {N : Num T} (ps : pruned_slices T) : picks (or_and_select ps) /\ joining ps (or_and_select ps).
Proof. exact (conj (or_and_picks ps) (or_and_prefers ps)). Qed.
Print Assumptions C31_or_and_selector.

Theorem C31_not_xor_selector {T} {N : Num T} (ps : pruned_slices T) :
  (ps_start2 ps <= ps_start1_overlapping ps <= ps_start2_overlapping ps)%nat ->
  picks (not_xor_select ps) /\ subtracting ps (not_xor_select ps).
Proof. exact (fun O => conj (not_xor_picks ps) (fun cur l NE => not_xor_prefers ps cur l NE O)). Qed.
Print Assumptions C31_not_xor_selector.

(** A slice that follows another begins within twice epsilon of its end. *)
Theorem C31_follows eps (a b : boolean_slice R) : (0 < eps)%R -> follows eps a b ->
  (Rabs (vx (slice_begin b) - vx (slice_end a)) < 2 * eps /\ Rabs (vy (slice_begin b) - vy (slice_end a)) < 2 * eps)%R
  \/ (Rabs (vx (slice_begin b) - vx (slice_end a)) <= eps /\ Rabs (vy (slice_begin b) - vy (slice_end a)) <= eps)%R.
Proof. exact (follows_R eps a b). Qed.
Print Assumptions C31_follows.

(** Two crossing squares give one or two loops; a cup and its lid give two. *)
Example C31_example :
  map (outcome (square 0 0 4) (square 2 2 4)) [BOr; BAnd; BNot; BXor]
  = [Ret ([[(2, 4); (0, 4); (0, 0); (4, 0); (4, 2); (6, 2); (6, 6); (2, 6)]], [], Intersected);
     Ret ([[(4, 2); (4, 4); (2, 4); (2, 2)]], [], Intersected);
     Ret ([[(4, 2); (4, 0); (0, 0); (0, 4); (2, 4); (2, 2)]], [], Intersected);
     Ret ([[(4, 2); (4, 0); (0, 0); (0, 4); (2, 4); (2, 2)]; [(2, 4); (4, 4); (4, 2); (6, 2); (6, 6); (2, 6)]], [], Intersected)]%float.
Proof. exact squares_cross. Qed.

(** ** C32 *)

(** Each polyline is divided into candidates, each with the middle of its first segment as test point, and
    those are kept that satisfy the predicate. *)
Theorem C32_kept {T} {N : Num T} (p1 p2 : pline T) (second : bool) eps bs os o1 o2 :
  let p := if second then p2 else p1 in
  (2 <= vertex_count p)%nat ->
  (forall b, In b bs -> ((if second then bi_index2 b else bi_index1 b) < vertex_count p)%nat) ->
  (forall s, In s os -> ((if second then snd (os_start_indexes s) else fst (os_start_indexes s)) < vertex_count p)%nat
                        /\ ((if second then snd (os_end_indexes s) else fst (os_end_indexes s)) < vertex_count p)%nat) ->
  exists cs, Forall (candidate p1 p2 second) cs /\ forall pred g, (forall x, pred x = Ret (g x)) ->
    slice_at_intersects p (BInfo os bs o1 o2) second pred eps = Ret (map fst (filter (fun c => g (snd c)) cs)).
Proof. exact (fun VC => slice_at_candidates p1 p2 second eps VC bs os o1 o2). Qed.
Print Assumptions C32_kept.

(** In real arithmetic the candidates run from each cut point to the next along the polyline, those excepted
    that start where an overlap starts, and each is tested in the middle of its first piece. *)
Theorem C32_between (p1 p2 : pline R) (second : bool) eps bs os o1 o2 :
  let p := if second then p2 else p1 in
  (0 < eps)%R -> (2 <= vertex_count p)%nat -> is_closed p = true -> clear_pline eps p ->
  (forall b, In b bs -> ((if second then bi_index2 b else bi_index1 b) < vertex_count p)%nat) ->
  (forall s, In s os -> ((if second then snd (os_start_indexes s) else fst (os_start_indexes s)) < vertex_count p)%nat
                        /\ ((if second then snd (os_end_indexes s) else fst (os_end_indexes s)) < vertex_count p)%nat) ->
  clear_cuts eps p (cut_points p eps second bs os) ->
  exists order cs, Permutation (map (fun x : place => (fst (fst x), snd x)) order) (cut_points p eps second bs os)
  /\ Forall (placed p) order /\ StronglySorted along order
  /\ Forall (candidate p1 p2 second) cs /\ Forall2 (between p) (filter free_gap (gaps order)) cs
  /\ forall pred g, (forall x, pred x = Ret (g x)) ->
     slice_at_intersects p (BInfo os bs o1 o2) second pred eps = Ret (map fst (filter (fun c => g (snd c)) cs)).
Proof. exact (slices_between p1 p2 second eps bs os o1 o2). Qed.
Print Assumptions C32_between.

Example C32_example_cuts :
  let p := PL [Vtx 0 0 0; Vtx 4 0 0; Vtx 4 4 0; Vtx 0 4 0]%R true in
  let bs := [BI 1 0 (V2 4 3)%R; BI 1 1 (V2 4 1)%R; BI 2 1 (V2 2 4)%R] in
  clear_pline (1 / 100000)%R p
  /\ cut_points p (1 / 100000)%R false bs [] = [(1%nat, SP (V2 4 3)%R false); (1%nat, SP (V2 4 1)%R false); (2%nat, SP (V2 2 4)%R false)]
  /\ clear_cuts (1 / 100000)%R p (cut_points p (1 / 100000)%R false bs []).
Proof. exact square_cuts. Qed.

(** The whole operation on loops that meet: the slices inside or outside the other loop as wanted, with those
    of the first loop reversed as needed, and the overlaps, are stitched to the loops of the result. *)
Theorem C32_boolean {T} {N : Num T} mk (p1 p2 : pline T) op idx eps : makes_index mk -> forall boxes,
  index_of boxes idx -> length boxes = length (spec_segs (vtx p1) (is_closed p1)) -> valid_loop p1 -> valid_loop p2 ->
  exists bs ovs os o1 o2 cs1 cs2, find_intersects p1 p2 idx eps = Ret (bs, ovs)
  /\ sort_and_join_overlapping_intersects ovs p1 p2 eps = Ret os
  /\ orientation p1 = Ret o1 /\ orientation p2 = Ret o2
  /\ Forall (candidate p1 p2 false) cs1 /\ Forall (candidate p1 p2 true) cs2
  /\ ((bs <> [] \/ os <> []) -> (forall s, os = [s] -> os_is_loop s = false) ->
      (forall s, In s os -> (vd_end_index_offset (os_view s) <= vertex_count p2)%nat) ->
      exists loops, Forall2 (traced p1 p2 op o1 o2 eps cs1 cs2 os) (wanted op) loops
      /\ polyline_boolean mk p1 p2 op idx eps = Ret (sorted_out op o2 (concat loops))).
Proof. exact (boolean_crossing mk p1 p2 op idx eps). Qed.
Print Assumptions C32_boolean.

(** The union of a shape with a second that has an additional vertex on a common arc: the area of the result
    is smaller than that of the second shape. *)
Theorem C32_union_area_refuted : exists (p1 p2 : pline float) a b,
  vtx p2 = [Vtx 0 0 0; Vtx 4 0 1; Vtx 4 4 0; Vtx 0 4 0]%float
  /\ area p2 = Ret a /\ areas p1 p2 BOr = Ret ([b], []) /\ (b + 3 <? a)%float = true.
Proof.
  exact (ex_intro _ split_disc (ex_intro _ half_disc (match union_small with
    ex_intro _ a (ex_intro _ b H) => ex_intro _ a (ex_intro _ b (conj eq_refl H)) end))).
Qed.
Print Assumptions C32_union_area_refuted.

Example C32_example : map (outcome cup lid) [BOr; BAnd]
  = [Ret ([[(0, 3); (0, 0); (6, 0); (6, 3); (7, 3); (7, 5); (-1, 5); (-1, 3)]], [[(4, 3); (4, 2); (2, 2); (2, 3)]], Intersected);
     Ret ([[(6, 3); (6, 4); (4, 4); (4, 3)]; [(2, 3); (2, 4); (0, 4); (0, 3)]], [], Intersected)]%float.
Proof. exact cup_and_lid. Qed.

(** ** C45 *)

(** No operation panics, if no joined overlap is longer than the second polyline. *)
Theorem C45_boolean {T} {N : Num T} mk (p1 p2 : pline T) op idx eps : makes_index mk -> forall boxes,
  index_of boxes idx -> length boxes = length (spec_segs (vtx p1) (is_closed p1)) ->
  exists bs ovs os, find_intersects p1 p2 idx eps = Ret (bs, ovs)
  /\ sort_and_join_overlapping_intersects ovs p1 p2 eps = Ret os
  /\ ((forall s, In s os -> (vd_end_index_offset (os_view s) <= vertex_count p2)%nat) ->
      exists r, polyline_boolean mk p1 p2 op idx eps = Ret r).
Proof. exact (boolean_total mk p1 p2 op idx eps). Qed.
Print Assumptions C45_boolean.

(** That holds unless a run of overlaps that closes is joined to another. *)
Theorem C45_overlaps {T} {N : Num T} (p1 p2 : pline T) eps ovs : Forall (overlap_ok p1 p2 eps) ovs -> exists sorted runs os,
  Permutation ovs sorted /\ StronglySorted le (map (@oi_index2 T) sorted) /\ joined_runs eps sorted runs
  /\ sort_and_join_overlapping_intersects ovs p1 p2 eps = Ret os
  /\ Forall (overlap_fits p1 p2) os
  /\ ((forall r, In r runs -> closed_run eps r -> runs = [r]) ->
      Forall (fun s => (vd_end_index_offset (os_view s) <= vertex_count p2)%nat) os).
Proof. exact (overlaps_spec p1 p2 eps ovs). Qed.
Print Assumptions C45_overlaps.

(** Otherwise there may be a panic: the second polyline touches itself at (0, 0). *)
Theorem C45_self_touching_refuted : exists p1 p2 : pline float,
  vtx p2 = [Vtx 0 0 0; Vtx 4 0 0; Vtx 6 2 0; Vtx 6 4 0; Vtx 4 6 0; Vtx 0 4 0; Vtx 0 0 0; Vtx (-4) 0 0; Vtx (-4) (-4) 0]%float
  /\ map (run_boolean p1 p2) [BOr; BAnd; BNot; BXor]
     = [Panic IndexOutOfBounds; Panic IndexOutOfBounds; Panic IndexOutOfBounds; Panic IndexOutOfBounds].
Proof. exact (ex_intro _ wide_knot (ex_intro _ knot (conj eq_refl knot_panics))). Qed.
Print Assumptions C45_self_touching_refuted.

(** Squares with a common part of an edge: the overlap fits, and there is a result. *)
Example C45_example :
  (exists s, join_run (square 0 0 4) (square 4 1 2) = Ret [s] /\ vd_end_index_offset (os_view s) = 0%nat /\ os_opposing s = true)
  /\ outcome (square 0 0 4) (square 4 1 2) BAnd = Ret ([[(4, 1); (4, 3)]], [], Intersected)%float.
Proof. exact (conj shared_overlap shared_edge). Qed.
