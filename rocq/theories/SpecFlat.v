(** Replacing an arc by chords (C17). *)
From Coq Require Import Reals ZArith List.
From Verif Require Import ModelMath ModelSeg ModelPline Spec SpecGeom.
Import ListNotations.
Local Open Scope R_scope.

(** The segment is cut into [n] parts of equal sweep; every point of a part is within [e] of the chord
    between the ends of that part. *)
Definition good_cut (v1 v2 : vertex R) (n : Z) (e : R) : Prop :=
  forall i t a b q, (0 <= i < n)%Z -> IZR i / IZR n <= t <= (IZR i + 1) / IZR n ->
    seg_at v1 v2 (IZR i / IZR n) a -> seg_at v1 v2 ((IZR i + 1) / IZR n) b -> seg_at v1 v2 t q ->
    exists s, 0 <= s <= 1 /\ dist q (line_pt a b s) <= e.

(** The vertexes of [vs] are on the segment at [0], [1/n], [2/n], ... and start straight segments. *)
Definition equal_parts (v1 v2 : vertex R) (vs : list (vertex R)) : Prop :=
  forall i w, nth_error vs i = Some w ->
    pbulge w = 0 /\ seg_at v1 v2 (INR i / INR (length vs)) (pos w).

(** [vs] replaces the start vertex of the segment: a line stays as it is; an arc is cut into the least
    number of parts that stay within [e] of their chords (a single chord also serves if it is within
    the code's tolerance of that). *)
Definition flattened (e : R) (s : vertex R * vertex R) (vs : list (vertex R)) : Prop :=
  let '(v1, v2) := s in
  (pbulge v1 = 0 -> vs = [v1])
  /\ (pbulge v1 <> 0 ->
      let n := Z.of_nat (length vs) in
      equal_parts v1 v2 vs /\ (1 <= n)%Z
      /\ (good_cut v1 v2 n e \/ (n = 1%Z /\ good_cut v1 v2 1 (e + 1 / 100000000)))
      /\ (n <> 1%Z -> ~ good_cut v1 v2 (n - 1) e)).

(** A negative error distance does not exceed the diameter of an arc. *)
Definition error_fits (e : R) (s : vertex R * vertex R) : Prop :=
  let '(v1, v2) := s in
  pbulge v1 <> 0 -> 0 < e \/ forall c r a, is_arc (pos v1) (pos v2) (pbulge v1) c r a -> - e <= 2 * r.
