(** What a view denotes, independently of the modelled functions. *)
From Coq Require Import List Bool Arith Reals.
From Verif Require Import Num RNum Res ModelMath ModelSeg ModelPline ModelView Spec SpecPline SpecGeom.
Import ListNotations.

Section SpecView.
Context {T : Type} {N : Num T}.

(** The last vertex of a list given another bulge. *)
Fixpoint rebulge_last (l : list (vertex T)) (b : T) : list (vertex T) :=
  match l with
  | [] => []
  | [v] => [Vtx (px v) (py v) b]
  | v :: t => v :: rebulge_last t b
  end.

(** A path from [first] through [mid] to the point [e]; the last piece has bulge [b] if [mid] is not
    empty. *)
Definition spec_view (first : vertex T) (mid : list (vertex T)) (b : T) (e : vec2 T)
  : list (vertex T) :=
  first :: rebulge_last mid b ++ [Vtx (vx e) (vy e) nzero].

(** The [k] elements following position [i], wrapping around. *)
Definition spec_following {A} (l : list A) (i k : nat) : list A := firstn k (spec_rotate (i + 1) l).

End SpecView.

(** [w1], [w2] is the piece of the segment [v1], [v2] between the parameters [t] and [u]. *)
Definition piece (v1 v2 : vertex R) (t u : R) (w1 w2 : vertex R) : Prop :=
  forall s q, seg_at w1 w2 s q <-> seg_at v1 v2 (t + s * (u - t))%R q.

(** The pieces of the path of [n] vertexes from parameter [t] of segment [i] on to parameter [u] of
    segment [j]: a part of one segment, or the rest of segment [i], the whole segments between and
    the beginning of segment [j]; empty pieces are left out. *)
Definition slice_pieces (n i : nat) (t : R) (j : nat) (u : R) : list (nat * R * R) :=
  let rest := (if Rlt_dec t 1 then [(i, t, 1%R)] else [])
              ++ map (fun k => ((i + 1 + k) mod n, 0%R, 1%R)) (seq 0 ((j + n - (i + 1)) mod n))
              ++ (if Rlt_dec 0 u then [(j, 0%R, u)] else []) in
  if Nat.eqb i j then if Rlt_dec t u then [(i, t, u)] else rest else rest.

(** [p] and [q] are the same point or differ by at least [eps] in a coordinate. *)
Definition crisp (eps : R) (p q : vec2 R) : Prop :=
  p = q \/ (eps <= Rabs (vx p - vx q) \/ eps <= Rabs (vy p - vy q))%R.

(** The drawn segment [s] is the described piece of the path with vertexes [l]. *)
Definition is_piece (l : list (vertex R)) (x : nat * R * R) (s : vertex R * vertex R) : Prop :=
  let '(k, t, u) := x in
  exists a b, nth_error l k = Some a /\ nth_error l ((k + 1) mod length l) = Some b
              /\ piece a b t u (fst s) (snd s).

(** The rest of the arc starting at [a] after parameter [t] has a bulge that does not count as zero. *)
Definition rest_ok (a : vertex R) (t : R) : Prop :=
  (pbulge a = 0 \/ 1 / 100000000 <= Rabs (tan ((1 - t) * atan (pbulge a))))%R.

(** [d] is view data for [p] whose path from [sp] to [ep] consists of [pieces]; a path within one segment
    has one bulge, so that it can also be travelled backwards. *)
Definition view_path (p : pline R) (d : view_data R) (sp ep : vec2 R) (pieces : list (nat * R * R)) : Prop :=
  (vd_start_index d < vertex_count p)%nat /\ (vd_end_index_offset d <= vertex_count p)%nat
  /\ vd_inverted d = false
  /\ (vd_end_index_offset d = 0%nat -> vd_updated_end_bulge d = pbulge (vd_updated_start d))
  /\ exists l first last, view_vertexes d p = Ret l /\ Forall2 (is_piece (vtx p)) pieces (spec_segs l false)
     /\ hd_error l = Some first /\ pos first = sp
     /\ nth_error l (vd_end_index_offset d + 1) = Some last /\ pos last = ep.

(** Every segment is as documented and longer than [eps] in a coordinate. *)
Definition clear_pline (eps : R) (p : pline R) : Prop :=
  forall v1 v2, In (v1, v2) (spec_segs (vtx p) (is_closed p)) ->
    seg_ok v1 v2 /\ (eps <= Rabs (px v1 - px v2) \/ eps <= Rabs (py v1 - py v2))%R.

(** [q] is the point at parameter [t] of segment [i]; as an end, also the last vertex of an open
    polyline under its own index. *)
Definition point_at (p : pline R) (i : nat) (t : R) (q : vec2 R) : Prop :=
  exists a b, nth_error (spec_segs (vtx p) (is_closed p)) i = Some (a, b)
              /\ (0 <= t <= 1)%R /\ seg_at a b t q.
Definition end_at (p : pline R) (j : nat) (u : R) (q : vec2 R) : Prop :=
  point_at p j u q
  \/ (is_closed p = false /\ u = 0%R /\ S j = vertex_count p
      /\ exists c, nth_error (vtx p) j = Some c /\ q = pos c).

(** [q] is at or clearly away from every vertex. *)
Definition crisp_vertexes (eps : R) (p : pline R) (q : vec2 R) : Prop :=
  forall v, In v (vtx p) -> crisp eps (pos v) q.

(** Nothing lies between the two points (on a closed polyline also when both are given as the same
    point of a segment other than its end). *)
Definition slice_empty (p : pline R) (i : nat) (t : R) (j : nat) (u : R) : Prop :=
  (i = j /\ t = u /\ (t < 1 \/ is_closed p = false)%R)
  \/ (t = 1%R /\ j = ((i + 1) mod vertex_count p)%nat /\ u = 0%R).
