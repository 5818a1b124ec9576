(** What the raw offset of a segment should be (C33). *)
From Coq Require Import Reals List.
From Verif Require Import ModelMath ModelSeg ModelPline ModelOffset Spec SpecGeom SpecIntr.
Import ListNotations.
Local Open Scope R_scope.

(** [n] is the unit vector pointing to the left of the direction from [p] to [q]. *)
Definition left_normal (p q n : vec2 R) : Prop :=
  vx n * vx n + vy n * vy n = 1
  /\ vx (vec p q) * vx n + vy (vec p q) * vy n = 0
  /\ 0 < cross (vec p q) n.

Definition moved (p n : vec2 R) (d : R) : vec2 R := V2 (vx p + d * vx n) (vy p + d * vy n).

(** A line moved to the left by [offset]. *)
Definition line_moved (offset : R) (v1 v2 w1 w2 : vertex R) : Prop :=
  pbulge w1 = 0 /\ forall n, left_normal (pos v1) (pos v2) n ->
    pos w1 = moved (pos v1) n offset /\ pos w2 = moved (pos v2) n offset.

(** The radius of an arc moved to the left: nearer to the centre if it turns left. *)
Definition moved_radius (offset b r : R) : R := if Rlt_dec 0 b then r - offset else r + offset.

(** An arc moved to the left: its ends are in the same directions from the same centre. *)
Definition ends_moved (offset : R) (v1 v2 w1 w2 : vertex R) : Prop :=
  forall c r a, is_arc (pos v1) (pos v2) (pbulge v1) c r a ->
    pos w1 = circle_pt c (moved_radius offset (pbulge v1) r) a
    /\ pos w2 = circle_pt c (moved_radius offset (pbulge v1) r) (a + sweep (pbulge v1)).

(** Every point of the arc is at the distance |offset| of the corresponding point of the moved arc,
    which has the same sweep. *)
Definition arc_moved (offset : R) (v1 v2 w1 w2 : vertex R) : Prop :=
  pbulge w1 = pbulge v1
  /\ (forall c r a, is_arc (pos v1) (pos v2) (pbulge v1) c r a ->
        is_arc (pos w1) (pos w2) (pbulge w1) c (moved_radius offset (pbulge v1) r) a)
  /\ (forall t q q', seg_at v1 v2 t q -> seg_at w1 w2 t q' -> dist q q' = Rabs offset).

(** The moved radius is below the tolerance. *)
Definition collapses (offset : R) (v1 v2 : vertex R) : Prop :=
  forall c r a, is_arc (pos v1) (pos v2) (pbulge v1) c r a -> moved_radius offset (pbulge v1) r < 1 / 100000000.

(** The raw offset of the segment [s]. *)
Definition raw_ok (offset : R) (s : vertex R * vertex R) (r : raw_seg R) : Prop :=
  rs_orig_v2_pos r = pos (snd s)
  /\ (pbulge (fst s) = 0 -> line_moved offset (fst s) (snd s) (rs_v1 r) (rs_v2 r) /\ rs_collapsed_arc r = false)
  /\ (pbulge (fst s) <> 0 ->
        ends_moved offset (fst s) (snd s) (rs_v1 r) (rs_v2 r)
        /\ (rs_collapsed_arc r = true <-> collapses offset (fst s) (snd s))
        /\ (rs_collapsed_arc r = true -> pbulge (rs_v1 r) = 0)
        /\ (rs_collapsed_arc r = false -> arc_moved offset (fst s) (snd s) (rs_v1 r) (rs_v2 r))).
