(** Model of /repo/cavalier_contours_ui/src: what the demo scenes compute from polylines, what they draw and what
    they leave out.

    Simplifications: coordinates and angles are not rounded to [f32]; the plot transform of egui_plot is given as a
    function [tr] on points and the factor [k] by which lengths along x are multiplied; [empty_aabb]
    (plotting/mod.rs:43-50, infinite bounds that overlap nothing) is [None]; colours, widgets, pointer events, filling
    and tessellation are left out. External crates: [rect_intersects] is egui's [Rect::intersects], the path commands
    and events are those of lyon ([arc] starts at the current position). *)
From Coq Require Import ZArith Bool List Arith.
From Verif Require Import Num Res ModelMath ModelIntr ModelSeg ModelPline ModelView ModelIndex ModelIntersects ModelBoolean ModelOffset ModelShape.
Import ListNotations.

(** lyon's [PathEvent] *)
Inductive path_event (T : Type) :=
| PEBegin (at_pt : vec2 T)
| PELine (from to : vec2 T)
| PEQuadratic (from ctrl to : vec2 T)
| PECubic (from ctrl1 ctrl2 to : vec2 T)
| PEEnd (last first : vec2 T) (close : bool).
Arguments PEBegin {T} _.
Arguments PELine {T} _ _.
Arguments PEQuadratic {T} _ _ _.
Arguments PECubic {T} _ _ _ _.
Arguments PEEnd {T} _ _ _.

(** The calls of lyon's [SvgPathBuilder]; radii and rotation of arcs: both radii are the given one, the rotation is 0. *)
Inductive path_cmd (T : Type) :=
| PCMove (to : vec2 T)
| PCLine (to : vec2 T)
| PCArc (center : vec2 T) (radius sweep : T).
Arguments PCMove {T} _.
Arguments PCLine {T} _.
Arguments PCArc {T} _ _ _.

(** plotting/mod.rs:54-55: the iterator and the event to return next, if any *)
Record cull_state (T : Type) := CS { cs_events : list (path_event T); cs_queued : option (path_event T) }.
Arguments CS {T} _ _.
Arguments cs_events {T} _.
Arguments cs_queued {T} _.

(** scenes/pline_boolean_scene.rs: Mode *)
Inductive scene_mode := ModeNone | ModeOr | ModeAnd | ModeNot | ModeXor.

Section Ui.
Context {T : Type} {N : Num T}.
Local Open Scope num_scope.

(** plotting/plines.rs:69-83 *)
Definition plot_data_bounds (p : pline T) : res (option (aabb T)) :=
  match vertex_count p with
  | O => Ret None
  | S O => let! v := at_ p 0 in Ret (Some (AABB (px v) (py v) (px v) (py v)))
  | _ => extents p
  end.

(** plotting/plines.rs:100-121: the polylines of a shape with their bounds, and all bounds *)
Definition shape_plines (s : shape T) : list (pline T * option (aabb T)) :=
  map (fun ip => (ip_pline ip, index_bounds (ip_index ip))) (sh_ccw s ++ sh_cw s).
Definition shape_bounds (s : shape T) : option (aabb T) := index_bounds (sh_index s).

(** [overlaps_aabb] with bounds that may be empty *)
Definition overlaps_bounds (a : aabb T) (b : option (aabb T)) : bool :=
  match b with Some b => aabb_overlaps a b | None => false end.
Definition bounds_overlap (b : option (aabb T)) (a : aabb T) : bool :=
  match b with Some b => aabb_overlaps b a | None => false end.

(** plotting/mod.rs:18-23 *)
Definition plot_bounds_valid (b : aabb T) : bool :=
  (nlit 1 5 <=? bmax_x b - bmin_x b) && (nlit 1 5 <=? bmax_y b - bmin_y b).

(** plotting/plines.rs:190-217: the calls for one polyline *)
Definition seg_cmd (tr : vec2 T -> vec2 T) (k : T) (s : vertex T * vertex T) : path_cmd T :=
  let '(v1, v2) := s in
  if bulge_is_zero v1 then PCLine (tr (pos v2))
  else
    let '(r, c) := seg_arc_radius_and_center v1 v2 in
    PCArc (tr c) (k * r) (- angle_from_bulge (pbulge v1)).
Definition pline_cmds (tr : vec2 T -> vec2 T) (k : T) (p : pline T) : res (list (path_cmd T)) :=
  let! segs := iter_segments p in
  Ret (match segs with
       | [] => []
       | (v1, _) :: _ => PCMove (tr (pos v1)) :: map (seg_cmd tr k) segs
       end).

(** plotting/plines.rs:169-222: the path built for the polylines [data] with bounds [total] within the plot's bounds *)
Definition build_path (tr : vec2 T -> vec2 T) (k : T) (plot : aabb T) (data : list (pline T * option (aabb T)))
    (total : option (aabb T)) : res (list (path_cmd T)) :=
  if negb (plot_bounds_valid plot) then Ret []
  else if negb (overlaps_bounds plot total) then Ret []
  else
    let! l := rmapM (fun pb => if negb (bounds_overlap (snd pb) plot) then Ret [] else pline_cmds tr k (fst pb)) data in
    Ret (concat l).

(** plotting/plines.rs:277-293: the vertexes drawn *)
Definition drawn_vertexes (plot : aabb T) (plines : list (pline T)) : list (vertex T) :=
  filter (fun v => negb ((px v <? bmin_x plot) || (px v >? bmax_x plot) || (py v <? bmin_y plot) || (py v >? bmax_y plot)))
         (flat_map vtx plines).

(** egui's [Rect::intersects] *)
Definition rect_intersects (a b : aabb T) : bool :=
  (bmin_x a <=? bmax_x b) && (bmin_x b <=? bmax_x a) && (bmin_y a <=? bmax_y b) && (bmin_y b <=? bmax_y a).

(** plotting/mod.rs:66-67, 81-87 and 107-113: the box of the points of an event *)
Definition points_box (p : vec2 T) (l : list (vec2 T)) : aabb T :=
  AABB (fold_left nmin (map vx l) (vx p)) (fold_left nmin (map vy l) (vy p))
       (fold_left nmax (map vx l) (vx p)) (fold_left nmax (map vy l) (vy p)).

(** plotting/mod.rs:57-129 *)
Definition cull_next (bounds : aabb T) (st : cull_state T) : option (path_event T) * cull_state T :=
  match cs_queued st with
  | Some e => (Some e, CS (cs_events st) None)
  | None =>
    match cs_events st with
    | [] => (None, st)
    | e :: rest =>
      let check (from : vec2 T) (to : vec2 T) (box : aabb T) :=
        if negb (rect_intersects bounds box)
        then (Some (PEEnd from from false), CS rest (Some (PEBegin to)))
        else (Some e, CS rest None) in
      match e with
      | PEBegin _ => (Some e, CS rest None)
      | PELine from to => check from to (points_box from [to])
      | PEQuadratic from ctrl to => check from to (points_box from [ctrl; to])
      | PECubic from ctrl1 ctrl2 to => check from to (points_box from [ctrl1; ctrl2; to])
      | PEEnd _ _ _ => (Some e, CS rest None)
      end
    end
  end.

(** All events the iterator returns; [fuel] bounds the number of calls. *)
Fixpoint cull_collect (fuel : nat) (bounds : aabb T) (st : cull_state T) : res (list (path_event T)) :=
  match fuel with
  | O => Panic OutOfFuel
  | S f =>
    match cull_next bounds st with
    | (None, _) => Ret []
    | (Some e, st') => let! rest := cull_collect f bounds st' in Ret (e :: rest)
    end
  end.
Definition cull_path (path : list (path_event T)) (bounds : aabb T) : res (list (path_event T)) :=
  cull_collect (2 * length path + 1) bounds (CS path None).

Section WithIndex.
Context (mk : list (aabb T) -> sindex T).

(** scenes/pline_boolean_scene.rs:310-328 *)
Definition build_boolean_result (p1 p2 : pline T) (mode : scene_mode) : res (option (boolean_result T)) :=
  if (vertex_count p1 <? 2)%nat || (vertex_count p2 <? 2)%nat || negb (is_closed p1) || negb (is_closed p2) then Ret None
  else
    let run op := let! r := boolean_constructed mk p1 p2 op (nlit 1 5) in Ret (Some r) in
    match mode with
    | ModeNone => Ret None
    | ModeOr => run BOr
    | ModeAnd => run BAnd
    | ModeNot => run BNot
    | ModeXor => run BXor
    end.

(** scenes/pline_offset_scene.rs:326-329 *)
Definition scene_offset_options (handle_self_intersects : bool) : offset_options T :=
  OO (nlit 1 5) (nlit 1 4) (nlit 1 4) handle_self_intersects.

(** 341-348: the polylines with and without the orientation [o] *)
Fixpoint split_same (o : orientation_t) (l : list (pline T)) : res (list (pline T) * list (pline T)) :=
  match l with
  | [] => Ret ([], [])
  | p :: t =>
    let! o' := orientation p in
    let! r := split_same o t in
    if orientation_eqb o' o then Ret (p :: fst r, snd r) else Ret (fst r, p :: snd r)
  end.

(** 340-358: one round; the state is the current offset polylines and all results so far *)
Definition offset_round (o : orientation_t) (offset : T) (opt : offset_options T)
    (st : list (pline T) * list (pline T * bool)) : res (list (pline T) * list (pline T * bool)) :=
  let! sd := split_same o (fst st) in
  let! next := rmapM (fun p => parallel_offset_constructed mk p offset opt) (fst sd) in
  Ret (concat next, snd st ++ map (fun p => (p, true)) (fst sd) ++ map (fun p => (p, false)) (snd sd)).
Fixpoint offset_rounds (n : nat) (o : orientation_t) (offset : T) (opt : offset_options T)
    (st : list (pline T) * list (pline T * bool)) : res (list (pline T) * list (pline T * bool)) :=
  match n with
  | O => Ret st
  | S n' => let! st' := offset_round o offset opt st in offset_rounds n' o offset opt st'
  end.

(** 319-369 *)
Definition build_offset (p : pline T) (offset : T) (handle_self_intersects : bool) (max_offset_count : nat)
  : res (list (pline T * bool)) :=
  let opt := scene_offset_options handle_self_intersects in
  let! o := orientation p in
  let! first := parallel_offset_constructed mk p offset opt in
  let! st := offset_rounds (max_offset_count - 1) o offset opt (first, []) in
  let! last := rmapM (fun q => let! o' := orientation q in Ret (q, orientation_eqb o' o)) (fst st) in
  Ret (snd st ++ last).

(** 371-378 *)
Definition build_raw_offset (p : pline T) (offset : T) : res (pline T) := create_raw_offset_polyline p offset (nlit 1 5).

Definition scene_shape_options : shape_options T := SO (nlit 1 5) (nlit 1 4) (nlit 1 4).
Definition shape_is_empty (s : shape T) : bool :=
  match sh_ccw s, sh_cw s with [], [] => true | _, _ => false end.

(** scenes/multi_pline_offset_scene.rs:277-286; [left] is how many more may be pushed *)
Fixpoint offset_shapes_loop (left : nat) (offset : T) (cur : shape T) : res (list (shape T)) :=
  match left with
  | O => Ret []
  | S left' =>
    if shape_is_empty cur then Ret []
    else if Nat.eqb left' 0 then Ret [cur]
    else
      let! next := shape_parallel_offset mk cur offset scene_shape_options in
      let! rest := offset_shapes_loop left' offset next in
      Ret (cur :: rest)
  end.

(** 263-289 *)
Definition build_offsets (plines : list (pline T)) (offset : T) (max_offset_count : nat)
  : res (shape T * list (shape T)) :=
  let! s := shape_from_plines mk plines in
  if Nat.eqb max_offset_count 0 then Ret (s, [])
  else
    let! first := shape_parallel_offset mk s offset scene_shape_options in
    let! l := offset_shapes_loop max_offset_count offset first in
    Ret (s, l).

End WithIndex.
End Ui.
