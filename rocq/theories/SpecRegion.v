(** When a boolean operation on two loops can be expected to give the right region (C51). *)
From Coq Require Import List Bool Arith ZArith Reals.
From Verif Require Import Num RNum Res ModelMath ModelSeg ModelPline ModelView ModelIntersects ModelBoolean.
From Verif Require Import Spec SpecGeom SpecBox SpecView SpecPruneR SpecPrune.
Import ListNotations.
Local Open Scope R_scope.

(** Every point of [p] (with its segment) that is also on [p'] is in the list. *)
Definition all_found (p p' : pline R) (found : list (nat * vec2 R)) : Prop :=
  forall k t q, t < 1 -> point_at p k t q -> on_path p' q -> In (k, q) found.

(** The part of an arc before a cut has a bulge that does not count as zero. *)
Definition heads_ok (p : pline R) (cuts : list (nat * slice_point R)) : Prop :=
  forall k sp t v, In (k, sp) cuts -> placed p (k, t, sp) -> 0 < t -> nth_error (vtx p) k = Some v -> part_ok v 0 t.

(** Different points are further than [eps] apart in a coordinate. *)
Definition spread (eps : R) (bs : list (basic_intr R)) : Prop :=
  forall b b', In b bs -> In b' bs ->
    bi_point b = bi_point b' \/ eps < Rabs (vx (bi_point b) - vx (bi_point b')) \/ eps < Rabs (vy (bi_point b) - vy (bi_point b')).

(** The points [bs] are all common points of the two loops, and clearly away from each other and from vertexes
    that are not at the same place. *)
Definition clean_crossing (eps : R) (p1 p2 : pline R) (bs : list (basic_intr R)) : Prop :=
  clear_cuts eps p1 (cut_points p1 eps false bs []) /\ clear_cuts eps p2 (cut_points p2 eps true bs [])
  /\ heads_ok p1 (cut_points p1 eps false bs []) /\ heads_ok p2 (cut_points p2 eps true bs [])
  /\ all_found p1 p2 (map (fun b => (bi_index1 b, bi_point b)) bs)
  /\ all_found p2 p1 (map (fun b => (bi_index2 b, bi_point b)) bs)
  /\ spread eps bs.

(** The loop goes around every point not on it once, in the direction of its orientation, or not at all. *)
Definition once (o : orientation_t) : Z := match o with Clockwise => (-1)%Z | _ => 1%Z end.
Definition simple_loop (p : pline R) (o : orientation_t) : Prop :=
  orientation p = Ret o /\ forall x w, ~ on_path p x -> winding_number p x = Ret w -> w = 0%Z \/ w = once o.

(** The winding numbers of the loops around [x] add up to [w]. *)
Definition wind_together (loops : list (pline R)) (x : vec2 R) (w : Z) : Prop :=
  exists ws, Forall2 (fun l w => winding_number l x = Ret w) loops ws /\ w = fold_right Z.add 0%Z ws.

(** How often the loops of a result go around a point inside or not inside the two given loops, counted in the
    direction of the second loop: for a difference they run against it. *)
Definition times_around (op : boolean_op) (in1 in2 : bool) : Z :=
  match op, in1, in2 with
  | BOr, true, _ | BOr, _, true | BAnd, true, true | BXor, false, true => 1%Z
  | BNot, true, false | BXor, true, false => (-1)%Z
  | _, _, _ => 0%Z
  end.

(** The insides of two loops overlap: there are points inside both, points inside only the first and points inside
    only the second. *)
Definition overlap (p1 p2 : pline R) : Prop :=
  (exists x, ~ on_path p1 x /\ ~ on_path p2 x /\ inside p1 x = true /\ inside p2 x = true)
  /\ (exists x, ~ on_path p1 x /\ ~ on_path p2 x /\ inside p1 x = true /\ inside p2 x = false)
  /\ (exists x, ~ on_path p1 x /\ ~ on_path p2 x /\ inside p1 x = false /\ inside p2 x = true).
