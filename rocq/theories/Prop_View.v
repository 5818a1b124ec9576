(** C26, C27, C28: views. *)
From Coq Require Import List Arith Bool Reals Floats.
From Verif Require Import Num Res RNum FNum ModelMath ModelSeg ModelPline ModelView Spec SpecPline SpecGeom SpecView
  ProofView ProofView2 ProofSlice2 ProofViewEx.
Import ListNotations.

(** A forward view within its bounds holds the updated start, the following source vertexes, the last of them
    with the updated bulge, and the end point; indexes above give nothing. *)
Theorem C26_forward :
  forall (T : Type) (N : Num T) (d : view_data T) (p : pline T),
  vd_start_index d < vertex_count p -> vd_end_index_offset d <= vertex_count p -> vd_inverted d = false ->
  let l := spec_view (vd_updated_start d)
             (spec_following (vtx p) (vd_start_index d) (vd_end_index_offset d))
             (vd_updated_end_bulge d) (vd_end_point d) in
  (forall i, view_get_vertex d p i = Ret (nth_error l i))
  /\ view_vertexes d p = Ret l
  /\ length l = vd_end_index_offset d + 2.
Proof. intros T N d p. exact (view_forward_spec d p). Qed.
Print Assumptions C26_forward.

(** An inverted view draws the reversed segments of the forward view travelled backwards. *)
Theorem C26_inverted :
  forall (T : Type) (N : Num T) (d : view_data T) (p : pline T),
  vd_start_index d < vertex_count p -> vd_end_index_offset d <= vertex_count p -> vd_inverted d = true ->
  (vd_end_index_offset d = 0 -> vd_updated_end_bulge d = pbulge (vd_updated_start d)) ->
  exists l, (forall i, view_get_vertex d p i = Ret (nth_error l i))
    /\ view_vertexes d p = Ret l
    /\ length l = vd_end_index_offset d + 2
    /\ map seg_data (spec_segs l false)
       = rev (map (fun s => seg_reverse (seg_data s))
           (spec_segs (spec_view (vd_updated_start d)
             (spec_following (vtx p) (vd_start_index d) (vd_end_index_offset d))
             (vd_updated_end_bulge d) (vd_end_point d)) false))
    /\ nth_error l (vd_end_index_offset d + 1)
       = Some (Vtx (px (vd_updated_start d)) (py (vd_updated_start d)) nzero).
Proof. intros T N d p. exact (view_inverted_spec d p). Qed.
Print Assumptions C26_inverted.

Example C26_example :
  let v x y b := Vtx x y b : vertex float in
  let p := (PL [v 0 0 0; v 4 0 0.5; v 4 4 0.25; v 0 4 0] true)%float in
  (view_vertexes (VD 1%nat 2%nat (v 4 2 0.1) 0.2 (V2 0 2) false) p
   = Ret [v 4 2 0.1; v 4 4 0.25; v 0 4 0.2; v 0 2 0]
   /\ view_vertexes (VD 1%nat 2%nat (v 4 2 0.1) 0.2 (V2 0 2) true) p
   = Ret [v 0 2 (-0.2); v 0 4 (-0.25); v 4 4 (-0.1); v 4 2 0])%float.
Proof. split; vm_compute; reflexivity. Qed.

(** A view of the entire polyline has exactly its segments. *)
Theorem C27_entire :
  forall (T : Type) (N : Num T) (p : pline T), 2 <= vertex_count p ->
  exists d l, view_from_entire_pline p = Ret d /\ view_vertexes d p = Ret l
    /\ vd_start_index d < vertex_count p /\ vd_end_index_offset d <= vertex_count p
    /\ vd_inverted d = false
    /\ (vd_end_index_offset d = 0 -> vd_updated_end_bulge d = pbulge (vd_updated_start d))
    /\ map seg_data (spec_segs l false) = map seg_data (spec_segs (vtx p) (is_closed p)).
Proof. intros T N p. exact (entire_view_spec p). Qed.
Print Assumptions C27_entire.

(** From a new start point of a closed polyline: the rest of its segment, every other segment and the
    beginning of its segment. *)
Theorem C27_new_start_closed :
  forall (p : pline R) (eps : R) (i : nat) (t : R) (sp : vec2 R),
  (0 < eps)%R -> is_closed p = true -> clear_pline eps p -> point_at p i t sp -> crisp_vertexes eps p sp ->
  exists d, view_from_new_start p sp i eps = Ret (Some d)
    /\ view_path p d sp sp (slice_pieces (vertex_count p) i t i t).
Proof. exact new_start_closed. Qed.
Print Assumptions C27_new_start_closed.

(** On an open polyline the remainder from the point, or nothing at the very end. *)
Theorem C27_new_start_open :
  forall (p : pline R) (eps : R) (i : nat) (t : R) (sp : vec2 R) (l : vertex R),
  (0 < eps)%R -> is_closed p = false -> clear_pline eps p -> point_at p i t sp -> crisp_vertexes eps p sp ->
  crisp_vertexes eps p (pos l) -> nth_error (vtx p) (vertex_count p - 1) = Some l ->
  (sp = pos l /\ i + 2 = vertex_count p -> view_from_new_start p sp i eps = Ret None)
  /\ (~ (sp = pos l /\ i + 2 = vertex_count p) ->
      exists d, view_from_new_start p sp i eps = Ret (Some d)
        /\ view_path p d sp (pos l) (slice_pieces (vertex_count p) i t (vertex_count p - 1) 0)).
Proof. exact new_start_open. Qed.
Print Assumptions C27_new_start_open.

Example C27_example :
  let v x y b := Vtx x y b : vertex float in
  let p := (PL [v 0 0 0; v 4 0 0; v 4 4 0; v 0 4 0] true)%float in
  ((let! o := view_from_new_start p (V2 4 1) 1 0.125 in let! d := unwrap o in view_vertexes d p)
   = Ret [v 4 1 0; v 4 4 0; v 0 4 0; v 0 0 0; v 4 0 0; v 4 1 0]
   /\ (let! d := view_from_entire_pline p in view_vertexes d p)
   = Ret [v 0 0 0; v 4 0 0; v 4 4 0; v 0 4 0; v 0 0 0])%float.
Proof. split; vm_compute; reflexivity. Qed.

(** A slice is nothing or a view from the first to the second point whose segments are the pieces of the
    source between them, wrapping around a closed polyline when the second point comes first. *)
Theorem C28_slice :
  forall (p : pline R) (eps : R) (i : nat) (t : R) (sp : vec2 R) (j : nat) (u : R) (ep : vec2 R),
  (0 < eps)%R -> clear_pline eps p -> point_at p i t sp -> end_at p j u ep ->
  crisp_vertexes eps p sp -> crisp_vertexes eps p ep -> crisp eps sp ep ->
  (is_closed p = false -> i < j \/ i = j /\ (t <= u)%R) ->
  (i = j -> (t < u)%R -> forall a, nth_error (vtx p) i = Some a -> rest_ok a t) ->
  (slice_empty p i t j u -> view_from_slice_points p sp i ep j eps = Ret None)
  /\ (~ slice_empty p i t j u -> exists d, view_from_slice_points p sp i ep j eps = Ret (Some d)
        /\ view_path p d sp ep (slice_pieces (vertex_count p) i t j u)).
Proof. exact slice_main. Qed.
Print Assumptions C28_slice.

(** Start and end at the same place do not always give nothing: given as the end of the same segment of a
    closed polyline, the whole loop is returned. *)
Theorem C28_same_place_refuted :
  exists (p : pline float) (q : vec2 float) (eps : float) (d : view_data float) (l : list (vertex float)),
    view_from_slice_points p q 0 q 0 eps = Ret (Some d) /\ view_vertexes d p = Ret l
    /\ length l = vertex_count p + 1.
Proof. exact same_place_whole_loop. Qed.
Print Assumptions C28_same_place_refuted.

Example C28_example :
  let v x y b := Vtx x y b : vertex float in
  let p := (PL [v 0 0 0; v 4 0 0; v 4 4 0; v 0 4 0] true)%float in
  let run sp i ep j := (let! o := view_from_slice_points p sp i ep j 0.125%float in
                        match o with None => Ret [] | Some d => view_vertexes d p end) in
  (run (V2 1 0) 0%nat (V2 4 1) 1%nat = Ret [v 1 0 0; v 4 0 0; v 4 1 0]
   /\ run (V2 4 1) 1%nat (V2 1 0) 0%nat = Ret [v 4 1 0; v 4 4 0; v 0 4 0; v 0 0 0; v 1 0 0]
   /\ run (V2 1 0) 0%nat (V2 2 0) 0%nat = Ret [v 1 0 0; v 2 0 0]
   /\ run (V2 2 0) 0%nat (V2 1 0) 0%nat = Ret [v 2 0 0; v 4 0 0; v 4 4 0; v 0 4 0; v 0 0 0; v 1 0 0]
   /\ run (V2 4 0) 0%nat (V2 4 0) 1%nat = Ret [])%float.
Proof. repeat split; vm_compute; reflexivity. Qed.

(** The assumptions of C28 hold for a square and two points of different sides. *)
Example C28_assumptions :
  let p := (PL [Vtx 0 0 0; Vtx 4 0 0; Vtx 4 4 0; Vtx 0 4 0] true)%R in
  clear_pline (1 / 100000) p /\ point_at p 0 (1 / 4) (V2 1 0)%R /\ end_at p 1 (1 / 2) (V2 4 2)%R
  /\ crisp_vertexes (1 / 100000) p (V2 1 0)%R /\ crisp_vertexes (1 / 100000) p (V2 4 2)%R
  /\ crisp (1 / 100000) (V2 1 0)%R (V2 4 2)%R.
Proof. exact square_slice_ok. Qed.
