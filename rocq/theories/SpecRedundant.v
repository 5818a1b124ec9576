(** What dropping redundant vertexes one after another may do to a path.

    A path is a list of vertexes, each marked with the way its segment turns, which a merged arc inherits,
    and with the circle that the arcs merged into it were compared with, if any. The circle of an arc and
    angles are those of C11 and C18. *)
From Coq Require Import List Bool Arith Reals.
From Verif Require Import Num RNum ModelMath ModelSeg ModelPline SpecPline.
Import ListNotations.

Record mark (T : Type) := MK { mk_v : vertex T; mk_turn : option bool; mk_circle : option (T * vec2 T) }.
Arguments MK {T} _ _ _.
Arguments mk_v {T} _.
Arguments mk_turn {T} _.
Arguments mk_circle {T} _.

Section SpecRedundant.
Context {T : Type} {N : Num T}.
Local Open Scope num_scope.

(** [None] for a line, [Some true] for a counter-clockwise and [Some false] for a clockwise arc. *)
Definition turn_of (v : vertex T) : option bool :=
  if nabs (pbulge v) <? nfuzzy_epsilon then None else Some (pbulge v >? nzero).
Definition marked (v : vertex T) : mark T := MK v (turn_of v) None.

(** The middle of three points is on the line of the others and the way does not turn back there. *)
Definition straight (eps : T) (v1 v2 v3 : vertex T) : bool :=
  (nabs (px v1 * (py v2 - py v3) + px v2 * (py v3 - py v1) + px v3 * (py v1 - py v2)) <? eps)
  && ((px v3 - px v2) * (px v2 - px v1) + (py v3 - py v2) * (py v2 - py v1) >? - eps).

Definition circle_of (m1 m2 : mark T) : T * vec2 T :=
  match mk_circle m1 with Some c => c | None => seg_arc_radius_and_center (mk_v m1) (mk_v m2) end.

(** The two turns seen from the centre of [c]. *)
Definition turns (c : vec2 T) (v1 v2 v3 : vertex T) : T :=
  nabs (delta_angle (angle c (pos v1)) (angle c (pos v2)))
  + nabs (delta_angle (angle c (pos v2)) (angle c (pos v3))).

(** The arcs [m1] and [m2], ending at [v3], are on the same circle and turn the same way, at most half
    around together; [b] is the bulge of both. *)
Definition one_arc (eps : T) (m1 m2 : mark T) (v3 : vertex T) (b : T) : Prop :=
  exists s, mk_turn m1 = Some s /\ mk_turn m2 = Some s
  /\ let '(r1, c1) := circle_of m1 m2 in
     let '(r2, c2) := seg_arc_radius_and_center (mk_v m2) v3 in
     nabs (r1 - r2) <? eps = true
     /\ (nabs (vx c1 - vx c2) <? eps) && (nabs (vy c1 - vy c2) <? eps) = true
     /\ let t := turns c1 (mk_v m1) (mk_v m2) v3 in
        let r := (r1 + r2) / ntwo in
        r * t <? r * npi + eps = true
        /\ b = if s then ntan (t / nfour) else - ntan (t / nfour).

(** [m1], [m2], [v3] in a row: [m2] may be dropped, [m1] becoming the other mark. *)
Inductive drops (eps : T) (m1 m2 : mark T) (v3 : vertex T) : mark T -> Prop :=
| drops_repeat : same_place eps v3 (mk_v m2) = true ->
    drops eps m1 m2 v3 (MK (mk_v m1) (mk_turn m1) None)
| drops_straight : same_place eps v3 (mk_v m2) = false ->
    mk_turn m1 = None -> mk_turn m2 = None -> straight eps (mk_v m1) (mk_v m2) v3 = true ->
    drops eps m1 m2 v3 (MK (mk_v m1) None None)
| drops_arc b : same_place eps v3 (mk_v m2) = false -> one_arc eps m1 m2 v3 b ->
    drops eps m1 m2 v3
      (MK (Vtx (px (mk_v m1)) (py (mk_v m1)) b) (mk_turn m1) (Some (circle_of m1 m2))).

(** A path with one vertex dropped. *)
Inductive drop1 (eps : T) : list (mark T) -> list (mark T) -> Prop :=
| drop1_intro l1 m1 m2 m3 m1' l2 : drops eps m1 m2 (mk_v m3) m1' ->
    drop1 eps (l1 ++ m1 :: m2 :: m3 :: l2) (l1 ++ m1' :: m3 :: l2).

(** A path with any number of vertexes dropped. *)
Inductive dropped (eps : T) : list (mark T) -> list (mark T) -> Prop :=
| dropped_none l : dropped eps l l
| dropped_more l l1 l2 : dropped eps l l1 -> drop1 eps l1 l2 -> dropped eps l l2.

(** No three vertexes in a row of which the middle one may be dropped. *)
Definition needed (eps : T) (l : list (mark T)) : Prop := forall l', ~ drop1 eps l l'.

(** The path [l] followed by the vertex [e], which gives only its bulge when it is at the last place. *)
Definition ends_with (eps : T) (l : list (vertex T)) (e : vertex T) (q : list (vertex T)) : Prop :=
  exists l' x, l = l' ++ [x]
  /\ q = if same_place eps e x then l' ++ [Vtx (px x) (py x) (pbulge e)] else l ++ [e].

End SpecRedundant.

(** A drop whose tests hold exactly, over the reals: the repeated positions are the same, the three points are
    on a line in order, or the arcs are on the same circle and do not go around it together. *)
Definition exact_drop (eps : R) (m1 m2 : mark R) (v3 : vertex R) : Prop :=
  mk_turn m1 = turn_of (mk_v m1) /\ mk_turn m2 = turn_of (mk_v m2)
  /\ (same_place eps v3 (mk_v m2) = true -> pos (mk_v m2) = pos v3)
  /\ (mk_turn m1 = None -> straight eps (mk_v m1) (mk_v m2) v3 = true ->
      ((px v3 - px (mk_v m2)) * (py (mk_v m2) - py (mk_v m1)) = (py v3 - py (mk_v m2)) * (px (mk_v m2) - px (mk_v m1))
       /\ 0 <= (px v3 - px (mk_v m2)) * (px (mk_v m2) - px (mk_v m1)) + (py v3 - py (mk_v m2)) * (py (mk_v m2) - py (mk_v m1)))%R)
  /\ (forall b, one_arc eps m1 m2 v3 b ->
      circle_of m1 m2 = seg_arc_radius_and_center (mk_v m1) (mk_v m2)
      /\ circle_of m1 m2 = seg_arc_radius_and_center (mk_v m2) v3
      /\ (turns (snd (circle_of m1 m2)) (mk_v m1) (mk_v m2) v3 < 2 * PI)%R).
