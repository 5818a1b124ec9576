(** How the raw offset of a polyline should be cut into slices, and which slices should be kept (C49).

    What a raw offset is, the events of a polyline with itself and with another one, slices between two points
    and the intersections of lines and circles are those of C33, C47, C24, C25, C28, C21 and C22. *)
From Coq Require Import List Bool Arith Permutation Sorted.
From Verif Require Import Num Res ModelMath ModelIntr ModelSeg ModelPline ModelView ModelSegIntr ModelIndex ModelIntersects ModelBoolean ModelOffset.
From Verif Require Import Spec SpecPline SpecView SpecIndex SpecIntersects SpecChain SpecShape.
Import ListNotations.

Section SpecCuts.
Context {T : Type} {N : Num T}.
Local Open Scope num_scope.

(** ** Where it is cut *)

Definition boxes_of (p : pline T) : list (aabb T) :=
  map (fun s => seg_fast_approx_bounding_box (fst s) (snd s)) (spec_segs (vtx p) (is_closed p)).

(** Where the polyline meets itself in single points, on both of the segments. *)
Definition self_cuts (raw : pline T) (eps : T) (pairs : list (nat * nat)) : list (nat * vec2 T) :=
  flat_map (fun b => [(bi_index1 b, bi_point b); (bi_index2 b, bi_point b)])
           (basics (local_events raw eps ++ flat_map (global_pair raw eps) pairs)).

(** Where it meets another one in single points that are not the end of an overlap. *)
Definition dual_cuts (raw dual : pline T) (eps : T) (pairs : list (nat * nat)) : list (nat * vec2 T) :=
  let l := flat_map (cross_pair raw dual eps) pairs in
  map (fun b => (bi_index1 b, bi_point b)) (filter (fun b => negb (repeats raw dual eps (overlaps l) b)) (basics l)).

(** Where a segment meets a circle, other than at its start. *)
Definition circle_points (c : vec2 T) (r eps : T) (v1 v2 : vertex T) : list (vec2 T) :=
  if bulge_is_zero v1 then
    let ts := match line_circle_intr (pos v1) (pos v2) r c eps with
              | LCNoIntersect => []
              | LCTangentIntersect t => [t]
              | LCTwoIntersects t0 t1 => [t0; t1]
              end in
    map (point_from_parametric (pos v1) (pos v2))
        (filter (fun t => negb (t <? nzero) && negb (none_ <? t) && (eps <? nabs t)) ts)
  else
    let ps := match circle_circle_intr (fst (seg_arc_radius_and_center v1 v2)) (snd (seg_arc_radius_and_center v1 v2)) r c eps with
              | CCNoIntersect | CCOverlapping => []
              | CCTangentIntersect q => [q]
              | CCTwoIntersects q1 q2 => [q1; q2]
              end in
    filter (fun q => negb (v2fuzzy_eq_eps (pos v1) q eps)
                     && point_within_arc_sweep (snd (seg_arc_radius_and_center v1 v2)) (pos v1) (pos v2) (pbulge v1 <? nzero) q eps) ps.

Definition circle_cuts (raw : pline T) (c : vec2 T) (r eps : T) (hits : list nat) : list (nat * vec2 T) :=
  flat_map (fun i => match nth_error (spec_segs (vtx raw) (is_closed raw)) i with
                     | Some (v1, v2) => map (pair i) (circle_points c r eps v1 v2)
                     | None => []
                     end) hits.

(** The segments to look at: those whose boxes overlap that of the circle, each once. *)
Definition circle_hits (raw : pline T) (c : vec2 T) (r : T) (hits : list nat) : Prop :=
  NoDup hits /\ forall i, In i hits <-> exists b, nth_error (boxes_of raw) i = Some b
    /\ aabb_overlaps b (AABB (vx c - r) (vy c - r) (vx c + r) (vy c + r)) = true.

(** ** Which slices are kept *)

(** No segment of [p] near [pt] is too close to it. *)
Definition clear_point (p : pline T) (offset : T) (o : offset_options T) (pt : vec2 T) : Prop :=
  let d := nabs offset - oo_offset_dist_eps o in
  forall v1 v2, In (v1, v2) (spec_segs (vtx p) (is_closed p)) ->
    aabb_overlaps (seg_fast_approx_bounding_box v1 v2) (AABB (vx pt - d) (vy pt - d) (vx pt + d) (vy pt + d)) = true ->
    (d * d <? dist_squared (seg_closest_point v1 v2 pt (oo_pos_equal_eps o)) pt) = true.

(** No segment of [p] near the segment from [w1] to [w2] meets it. *)
Definition clear_seg (p : pline T) (o : offset_options T) (w1 w2 : vertex T) : Prop :=
  forall v1 v2, In (v1, v2) (spec_segs (vtx p) (is_closed p)) ->
    aabb_overlaps (seg_fast_approx_bounding_box v1 v2) (aabb_grow (seg_fast_approx_bounding_box w1 w2) nfuzzy_epsilon) = true ->
    pline_seg_intr w1 w2 v1 v2 (oo_pos_equal_eps o) = SINoIntersect.

(** The vertexes of the path and the middles of its first and last segment are not too close, and no segment
    meets [p]. *)
Definition clear_of (p : pline T) (offset : T) (o : offset_options T) (l : list (vertex T)) : Prop :=
  (forall w, In w l -> clear_point p offset o (pos w))
  /\ (forall w1 w2, In (w1, w2) (spec_segs l false) -> clear_seg p o w1 w2)
  /\ (forall k w1 w2, k = 0%nat \/ (k + 2 = length l)%nat -> nth_error (spec_segs l false) k = Some (w1, w2) ->
        clear_point p offset o (seg_midpoint w1 w2)).

(** ** The slices *)

(** From each point to the next; round the end if [round], otherwise with the ends of the polyline. *)
Definition stretches (round : bool) (raw : pline T) (order : list (nat * vec2 T)) : list ((nat * vec2 T) * (nat * vec2 T)) :=
  if round then combine order (tl order ++ firstn 1 order)
  else
    let ends v k := match v with Some v => [(k, pos v)] | None => [] end in
    let all := ends (hd_error (vtx raw)) 0%nat ++ order ++ ends (hd_error (rev (vtx raw))) (vertex_count raw - 1)%nat in
    combine all (tl all).

(** The slices of [raw] to be kept when it is cut at [cuts]: those between neighbouring points that are clear of
    [p]; without cuts the whole of it, if its first vertex is. *)
Definition cut_slices (p : pline T) (offset : T) (o : offset_options T) (round : bool) (raw : pline T)
    (cuts : list (nat * vec2 T)) (slices : list (view_data T)) : Prop :=
  (cuts = [] -> exists d (b : bool), view_from_entire_pline raw = Ret d /\ slices = (if b then [d] else [])
     /\ (b = true <-> forall v, hd_error (vtx raw) = Some v -> clear_point p offset o (pos v)))
  /\ (cuts <> [] -> exists order vos, Permutation order cuts
     /\ Sorted (fun x y => (fst x <= fst y)%nat) order /\ (comparable -> Sorted (not_before raw) order)
     /\ Forall2 (fun xy vo => view_from_slice_points raw (snd (fst xy)) (fst (fst xy)) (snd (snd xy)) (fst (snd xy))
                                (oo_pos_equal_eps o) = Ret vo) (stretches round raw order) vos
     /\ kept (fun d b => b = true <-> clear_of p offset o (view_path_of raw d)) vos slices).

(** The cuts and slices of the raw offset [raw] of [p] if only [raw] is used. *)
Definition raw_sliced (p raw : pline T) (offset : T) (o : offset_options T) (slices : list (view_data T)) : Prop :=
  exists pairs, pairs_ok raw (oo_pos_equal_eps o) (boxes_of raw) pairs
  /\ cut_slices p offset o true raw (self_cuts raw (oo_pos_equal_eps o) pairs) slices.

(** With the raw offset [dual] to the other side, and for an open polyline the circles about its ends. *)
Definition dual_sliced (p raw dual : pline T) (offset : T) (o : offset_options T) (slices : list (view_data T)) : Prop :=
  let eps := oo_pos_equal_eps o in
  exists pairs cross ends, pairs_ok raw eps (boxes_of raw) pairs /\ cross_ok dual eps (boxes_of raw) cross
  /\ (if is_closed p then ends = []
      else exists v w h1 h2, hd_error (vtx p) = Some v /\ hd_error (rev (vtx p)) = Some w
           /\ circle_hits raw (pos v) (nabs offset) h1 /\ circle_hits raw (pos w) (nabs offset) h2
           /\ ends = circle_cuts raw (pos v) (nabs offset) eps h1 ++ circle_cuts raw (pos w) (nabs offset) eps h2)
  /\ cut_slices p offset o (is_closed p) raw (ends ++ self_cuts raw eps pairs ++ dual_cuts raw dual eps cross) slices.

(** What is stitched together (C35) to give the offset of [p]. *)
Definition offset_slices (p : pline T) (offset : T) (o : offset_options T) (raw : pline T) (slices : list (view_data T)) : Prop :=
  if is_closed p && negb (oo_handle_self_intersects o) then raw_sliced p raw offset o slices
  else exists dual, create_raw_offset_polyline p (nneg offset) (oo_pos_equal_eps o) = Ret dual /\ dual_sliced p raw dual offset o slices.
End SpecCuts.
