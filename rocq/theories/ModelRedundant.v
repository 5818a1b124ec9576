(** Model of [PlineSource::remove_redundant],
    /repo/cavalier_contours/src/polyline/traits.rs:503-800. *)
From Coq Require Import ZArith Bool List Arith.
From Verif Require Import Num Res ModelMath ModelSeg ModelPline.
Import ListNotations.

(** traits.rs:575-585 *)
Inductive redundant_case (T : Type) :=
| IncludeVertex
| DiscardVertex
| UpdateV1BulgeForArc (bulge : T).
Arguments IncludeVertex {T}.
Arguments DiscardVertex {T}.
Arguments UpdateV1BulgeForArc {T} _.

(** The mutable variables of the main loop (traits.rs:540-571). *)
Record redundant_state (T : Type) := RS {
  rs_v1 : vertex T;
  rs_v2 : vertex T;
  rs_arc : option (T * vec2 T);      (* v1_v2_arc *)
  rs_v1_zero : bool;                 (* v1_bulge_is_zero *)
  rs_v2_zero : bool;                 (* v2_bulge_is_zero *)
  rs_v1_pos : bool;                  (* v1_bulge_is_pos *)
  rs_v2_pos : bool;                  (* v2_bulge_is_pos *)
  rs_result : option (pline T)
}.
Arguments RS {T} _ _ _ _ _ _ _ _.
Arguments rs_v1 {T} _.
Arguments rs_v2 {T} _.
Arguments rs_arc {T} _.
Arguments rs_v1_zero {T} _.
Arguments rs_v2_zero {T} _.
Arguments rs_v1_pos {T} _.
Arguments rs_v2_pos {T} _.
Arguments rs_result {T} _.

Section Redundant.
Context {T : Type} {N : Num T}.
Local Open Scope num_scope.

(** traits.rs:522-538 *)
Definition is_collinear_same_dir (eps : T) (v1 v2 v3 : vertex T) : bool :=
  if v2fuzzy_eq_eps (pos v2) (pos v3) eps then true
  else
    let collinear :=
      fuzzy_eq_zero_eps
        (px v1 * (py v2 - py v3) + px v2 * (py v3 - py v1) + px v3 * (py v1 - py v2)) eps in
    let same_direction :=
      v2dot (v2sub (pos v3) (pos v2)) (v2sub (pos v2) (pos v1)) >? - eps in
    collinear && same_direction.

(** traits.rs:544-553: removal of repeat positions at the start; returns (v1, v2, i). Each iteration
    increments [i] or leaves the loop, so [fuel] = vertex count suffices. *)
Fixpoint redundant_start_loop (p : pline T) (eps : T) (fuel i : nat) (v1 v2 : vertex T)
  : res (vertex T * vertex T * nat) :=
  match fuel with
  | O => Panic OutOfFuel
  | S f =>
    if v2fuzzy_eq_eps (pos v1) (pos v2) eps then
      let v1 := with_bulge v1 (pbulge v2) in
      if (vertex_count p <=? i)%nat then Ret (v1, v2, i)
      else
        let! v2 := at_ p i in
        redundant_start_loop p eps f (i + 1)%nat v1 v2
    else Ret (v1, v2, i)
  end.

(** traits.rs:613-651 and 746-771: whether two arcs in a row can be merged, and the merged bulge; the first
    component is the updated [v1_v2_arc] cache *)
Definition merge_arcs (eps : T) (v1 v2 v3 : vertex T) (v1_bulge_is_pos : bool)
    (arc : option (T * vec2 T)) : (T * vec2 T) * option T :=
  let arc1 := match arc with Some a => a | None => seg_arc_radius_and_center v1 v2 end in
  let '(arc_radius1, arc_center1) := arc1 in
  let '(arc_radius2, arc_center2) := seg_arc_radius_and_center v2 v3 in
  (arc1,
   if fuzzy_eq_eps arc_radius1 arc_radius2 eps && v2fuzzy_eq_eps arc_center1 arc_center2 eps then
     let angle1 := angle arc_center1 (pos v1) in
     let angle2 := angle arc_center1 (pos v2) in
     let angle3 := angle arc_center1 (pos v3) in
     let total_sweep := nabs (delta_angle angle1 angle2) + nabs (delta_angle angle2 angle3) in
     let avg_radius := (arc_radius1 + arc_radius2) / ntwo in
     if fuzzy_lt_eps (avg_radius * total_sweep) (avg_radius * npi) eps then
       Some (if v1_bulge_is_pos then bulge_from_angle total_sweep
             else - bulge_from_angle total_sweep)
     else None
   else None).

(** traits.rs:596-651: the case for the middle vertex; also returns the updated arc cache *)
Definition redundant_classify (p : pline T) (eps : T) (st : redundant_state T) (i : nat)
    (v3 : vertex T) : redundant_case T * option (T * vec2 T) :=
  let '(RS v1 v2 arc z1 z2 p1 p2 _) := st in
  if v2fuzzy_eq_eps (pos v2) (pos v3) eps then (DiscardVertex, arc)
  else if z1 && z2 then
    let is_final_vertex_for_open := negb (is_closed p) && Nat.eqb i (vertex_count p) in
    if negb is_final_vertex_for_open && is_collinear_same_dir eps v1 v2 v3
    then (DiscardVertex, arc) else (IncludeVertex, arc)
  else if negb z1 && negb z2 && Bool.eqb p1 p2
          && negb (v2fuzzy_eq_eps (pos v2) (pos v3) eps) then
    let '(arc1, m) := merge_arcs eps v1 v2 v3 p1 arc in
    match m with
    | Some b => (UpdateV1BulgeForArc b, Some arc1)
    | None => (IncludeVertex, Some arc1)
    end
  else (IncludeVertex, arc).

(** traits.rs:588-692: one iteration *)
Definition redundant_step (p : pline T) (eps : T) (st : redundant_state T) (iv : nat * vertex T)
  : res (redundant_state T) :=
  let '(i, v3) := iv in
  let '(case, arc) := redundant_classify p eps st i v3 in
  let '(RS v1 v2 _ z1 z2 p1 p2 result) := st in
  match case with
  | IncludeVertex =>
    let result := match result with Some r => Some (add_vertex r v2) | None => None end in
    Ret (RS v2 v3 None z2 (bulge_is_zero v3) p2 (bulge_is_pos v3) result)
  | DiscardVertex =>
    let! result := match result with
                   | Some r => Ret r
                   | None => let! n := usub i 1 in Ret (PL (firstn n (vtx p)) (is_closed p))
                   end in
    Ret (RS v1 v3 None z1 (bulge_is_zero v3) p1 (bulge_is_pos v3) (Some result))
  | UpdateV1BulgeForArc bulge =>
    let! r := match result with
              | Some r => Ret r
              | None => let! n := usub i 1 in Ret (PL (firstn n (vtx p)) (is_closed p))
              end in
    let! lo := last_ r in
    let! last := unwrap lo in
    let! r := set_last r (with_bulge last bulge) in
    Ret (RS (with_bulge v1 bulge) v3 arc z2 (bulge_is_zero v3) p2 (bulge_is_pos v3) (Some r))
  end.

(** traits.rs:588-593: [iter_vertexes().cycle().enumerate().skip(i).take(n)] *)
Definition cycle_enumerate_skip_take (p : pline T) (i n : nat) : res (list (nat * vertex T)) :=
  rmapM (fun j => let! v := index (vtx p) (j mod vertex_count p) in Ret (j, v)) (seq i n).

(** traits.rs:694-777: closed polyline, wrap around at the start *)
Definition redundant_finish_closed (p : pline T) (eps : T) (st : redundant_state T)
  : res (option (pline T)) :=
  let '(RS v1 v2 arc z1 z2 p1 p2 result) := st in
  let! result :=
    match result with
    | Some pl =>
      let! lo := last_ pl in
      let! last := unwrap lo in
      let! v0 := at_ pl 0 in
      if v2fuzzy_eq_eps (pos last) (pos v0) eps then
        let! vr := remove_last pl in Ret (Some (snd vr))
      else Ret (Some pl)
    | None =>
      let! lo := last_ p in
      let! last := unwrap lo in
      let! v0 := at_ p 0 in
      if v2fuzzy_eq_eps (pos last) (pos v0) eps then
        let! vr := remove_last (PL (vtx p) (is_closed p)) in Ret (Some (snd vr))
      else Ret None
    end in
  let! v3 := match result with Some pl => at_ pl 1 | None => at_ p 1 end in
  let get_or_copy := match result with Some pl => pl | None => PL (vtx p) (is_closed p) end in
  if z1 && z2 && is_collinear_same_dir eps v1 v2 v3 then
    let! vr := remove_last get_or_copy in
    let '(last, pl) := vr in
    let! pl := set_vertex pl 0 last in
    Ret (Some pl)
  else if negb z1 && negb z2 && Bool.eqb p1 p2
          && negb (v2fuzzy_eq_eps (pos v2) (pos v3) eps) then
    match merge_arcs eps v1 v2 v3 p1 arc with
    | (_, Some bulge) =>
      let! vr := remove_last get_or_copy in
      let '(last, pl) := vr in
      let! pl := set_vertex pl 0 (with_bulge last bulge) in
      Ret (Some pl)
    | (_, None) => Ret result
    end
  else Ret result.

(** traits.rs:778-797: open polyline, adding the last vertex *)
Definition redundant_finish_open (p : pline T) (eps : T) (st : redundant_state T)
  : res (option (pline T)) :=
  match rs_result st with
  | Some pl =>
    let! lo := last_ p in
    let! last := unwrap lo in
    Ret (Some (add_or_replace_vertex pl last eps))
  | None =>
    let! i2 := usub (vertex_count p) 2 in
    let! i1 := usub (vertex_count p) 1 in
    let! a := at_ p i2 in
    let! b := at_ p i1 in
    if vfuzzy_eq_eps a b eps then
      let! vr := remove_last (PL (vtx p) (is_closed p)) in Ret (Some (snd vr))
    else Ret None
  end.

(** traits.rs:503-800 *)
Definition remove_redundant (p : pline T) (eps : T) : res (option (pline T)) :=
  let vc := vertex_count p in
  if (vc <? 2)%nat then Ret None
  else if Nat.eqb vc 2 then
    let! v1 := at_ p 0 in
    let! v2 := at_ p 1 in
    if v2fuzzy_eq_eps (pos v1) (pos v2) eps then Ret (Some (PL [v2] (is_closed p)))
    else Ret None
  else
    let! v1 := at_ p 0 in
    let! v2 := at_ p 1 in
    let! start := redundant_start_loop p eps vc 2 v1 v2 in
    let '(v1, v2, i) := start in
    let result := if Nat.eqb i 2 then None else Some (PL [v1] (is_closed p)) in
    if (vc <=? i)%nat then Ret result
    else
      let iter_count := if is_closed p then (vc - 1)%nat else (vc - 2)%nat in
      let! ivs := cycle_enumerate_skip_take p i iter_count in
      let! st := rfold (redundant_step p eps) ivs
                   (RS v1 v2 None (bulge_is_zero v1) (bulge_is_zero v2)
                       (bulge_is_pos v1) (bulge_is_pos v2) result) in
      if is_closed p then redundant_finish_closed p eps st
      else redundant_finish_open p eps st.

End Redundant.
