(** C24, C25: the pairs of segments examined for intersections and what is reported for them. *)
From Coq Require Import Reals List PrimFloat.
From Verif Require Import Num RNum FNum Res ModelMath ModelSeg ModelPline ModelSegIntr ModelIndex ModelIntersects.
From Verif Require Import Spec SpecGeom SpecIndex SpecIntersects ProofSelf ProofFind ProofFindR ProofFindF.
Import ListNotations.

(** With an index of one box per segment, in any order, there are pairs of segments to examine, and any
    visitor is given the events of those pairs in turn until it asks to stop: for consecutive segments,
    for the others, or for the first and then the second. *)
Theorem C24_visits {T} {N : Num T} (p : pline T) eps boxes idx :
  index_of boxes idx -> length boxes = length (spec_segs (vtx p) (is_closed p)) ->
  exists pairs, pairs_ok p eps boxes pairs
  /\ forall S (visit : S -> intr_event T -> S * bool) s inc,
       visit_self_intersects visit p idx inc eps s
       = Ret (feed visit s (match inc with
                            | IncludeLocal => local_events p eps
                            | IncludeGlobal => flat_map (global_pair p eps) pairs
                            | IncludeAll => local_events p eps ++ flat_map (global_pair p eps) pairs
                            end)).
Proof. exact (visits_pairs p eps boxes idx). Qed.
Print Assumptions C24_visits.

(** All self intersects as single points, an overlap giving its two ends or nothing. *)
Theorem C24_as_basic {T} {N : Num T} (p : pline T) eps boxes idx both :
  index_of boxes idx -> length boxes = length (spec_segs (vtx p) (is_closed p)) ->
  exists pairs, pairs_ok p eps boxes pairs
  /\ all_self_intersects_as_basic p idx both eps
     = Ret (flat_map (fun e => match e with
                               | EvBasic b => [b]
                               | EvOverlap o => if both then [BI (oi_index1 o) (oi_index2 o) (oi_point1 o);
                                                              BI (oi_index1 o) (oi_index2 o) (oi_point2 o)] else []
                               end)
                     (local_events p eps ++ flat_map (global_pair p eps) pairs)).
Proof. exact (as_basic_pairs p eps boxes idx both). Qed.
Print Assumptions C24_as_basic.

(** Over the reals, with the boxes the code makes, segments that have a point in common are among the
    pairs. *)
Theorem C24_meeting_examined (p : pline R) eps pairs i j v1 v2 u1 u2 q : (0 <= eps)%R -> 3 <= vertex_count p ->
  pairs_ok p eps (map (fun s => seg_fast_approx_bounding_box (fst s) (snd s)) (spec_segs (vtx p) (is_closed p))) pairs ->
  nth_error (spec_segs (vtx p) (is_closed p)) i = Some (v1, v2) ->
  nth_error (spec_segs (vtx p) (is_closed p)) j = Some (u1, u2) ->
  seg_ok v1 v2 -> seg_ok u1 u2 -> on_seg v1 v2 q -> on_seg u1 u2 q -> apart p i j ->
  In (i, j) pairs \/ In (j, i) pairs.
Proof. exact (self_meet_examined p eps pairs i j v1 v2 u1 u2 q). Qed.
Print Assumptions C24_meeting_examined.

(** A bow tie with a spike: local only, all, all with the index reversed, and stopped after two. *)
Example C24_example :
  visit_run (@list_index float _) IncludeLocal 10 = Ret ([(3, 4)], false)
  /\ visit_run (@list_index float _) IncludeAll 10 = Ret ([(3, 4); (0, 2); (2, 5); (3, 5)], false)
  /\ visit_run rev_index IncludeAll 10 = Ret ([(3, 4); (5, 3); (5, 2); (2, 0)], false)
  /\ visit_run (@list_index float _) IncludeAll 2 = Ret ([(3, 4); (0, 2)], true).
Proof. exact bow_tie_runs. Qed.

(** The search between two polylines examines the pairs whose boxes overlap and reports all overlaps,
    and the single points that are not the end of an overlap. *)
Theorem C25_search {T} {N : Num T} (p1 p2 : pline T) eps boxes idx :
  index_of boxes idx -> length boxes = length (spec_segs (vtx p1) (is_closed p1)) ->
  exists pairs, cross_ok p2 eps boxes pairs
  /\ let l := flat_map (cross_pair p1 p2 eps) pairs in
     find_intersects p1 p2 idx eps = Ret (filter (fun b => negb (repeats p1 p2 eps (overlaps l) b)) (basics l), overlaps l).
Proof. exact (find_intersects_pairs p1 p2 eps boxes idx). Qed.
Print Assumptions C25_search.

(** Every intersect reported is one of its two segments, not at the end of a segment that another one
    follows, and not at the end of a reported overlap. *)
Theorem C25_reported {T} {N : Num T} (p1 p2 : pline T) eps boxes idx :
  index_of boxes idx -> length boxes = length (spec_segs (vtx p1) (is_closed p1)) ->
  exists bs os, find_intersects p1 p2 idx eps = Ret (bs, os)
  /\ Forall (fun b => basic_ok p1 p2 eps b /\ repeats p1 p2 eps os b = false) bs
  /\ Forall (overlap_ok p1 p2 eps) os.
Proof. exact (find_intersects_each p1 p2 eps boxes idx). Qed.
Print Assumptions C25_reported.

(** Over the reals, segments that have a point in common are among the pairs. *)
Theorem C25_meeting_examined (p1 p2 : pline R) eps pairs i j v1 v2 u1 u2 q : (0 <= eps)%R ->
  cross_ok p2 eps (map (fun s => seg_fast_approx_bounding_box (fst s) (snd s)) (spec_segs (vtx p1) (is_closed p1))) pairs ->
  nth_error (spec_segs (vtx p1) (is_closed p1)) i = Some (v1, v2) ->
  nth_error (spec_segs (vtx p2) (is_closed p2)) j = Some (u1, u2) ->
  seg_ok v1 v2 -> seg_ok u1 u2 -> on_seg v1 v2 q -> on_seg u1 u2 q -> In (i, j) pairs.
Proof. exact (cross_meet_examined p1 p2 eps pairs i j v1 v2 u1 u2 q). Qed.
Print Assumptions C25_meeting_examined.

(** A path along the bottom side of a square and then through it: one overlap, one point. *)
Example C25_example : find_run square4 along = Ret ([(2, 1)], [(0, 0)]).
Proof. exact along_run. Qed.
