(** Offsets of shapes whose offset loops do not meet, and of shapes of circles (C73).

    Offset loops of the inputs and whole loops are those of C37, circles those of C59, sizes those of C71. *)
From Coq Require Import Reals List Bool Arith.
From Verif Require Import Num RNum Res ModelMath ModelSeg ModelPline ModelView ModelIndex ModelIntersects ModelBoolean ModelOffset ModelShape.
From Verif Require Import Spec SpecPline SpecIndex SpecGeom SpecBox SpecPrune SpecOffset SpecOffsetJoin SpecCircle SpecPolyBool SpecCurve SpecShape.
Import ListNotations.

Section SpecApart.
Context {T : Type} {N : Num T}.

(** The middle of the first segment of the loop [snd x] passes the test of distance with every input but number
    [fst x], which it is an offset of. *)
Definition clear_start (inputs : list (indexed_pline T)) (offset : T) (o : shape_options T) (x : nat * pline T) : Prop :=
  forall v0 v1 t k ip, spec_segs (vtx (snd x)) (is_closed (snd x)) = (v0, v1) :: t ->
    nth_error inputs k = Some ip -> k <> fst x ->
    point_valid_for_offset (ip_pline ip) offset (ip_index ip) (seg_midpoint v0 v1)
      (so_pos_equal_eps o) (so_offset_dist_eps o) = Ret true.

(** Nothing is found where two different loops meet. *)
Definition never_meet (eps : T) (ps : list (pline T)) : Prop :=
  forall i j p q idx, nth_error ps i = Some p -> nth_error ps j = Some q -> i <> j -> pline_index p idx ->
    find_intersects p q idx eps = Ret ([], []).

(** The elements of [l] marked in [fs]. *)
Definition marked {A} (l : list A) (fs : list bool) : list A := map fst (filter snd (combine l fs)).
End SpecApart.

Local Open Scope R_scope.

(** A circle: centre, the direction in which it begins, radius and sense (1 is counterclockwise). *)
Record disc := Disc { dc : vec2 R; du : vec2 R; dr : R; db : R }.
Definition outline (d : disc) : pline R := circle (dc d) (du d) (dr d) (db d).
Definition is_disc (d : disc) : Prop := unit_vec (du d) /\ (db d = 1 \/ db d = -1) /\ 0 < dr d.
Definition resized (offset : R) (d : disc) : disc := Disc (dc d) (du d) (dr d - db d * offset) (db d).

(** The circles miss each other by [m]. *)
Definition miss (m : R) (d e : disc) : Prop :=
  dr d + dr e + m <= dist (dc d) (dc e) \/ dist (dc d) (dc e) + m <= Rabs (dr d - dr e).

(** What becomes of an input when a shape of circles is offset: it vanishes; the offset circle is too near to
    another input all along; or it is far enough from all other inputs. *)
Inductive fate := Gone | Hidden | Kept.
Definition has_fate (o : shape_options R) (offset : R) (ds : list disc) (i : nat) (d : disc) (f : fate) : Prop :=
  match f with
  | Gone => so_offset_dist_eps o <= 2 * dr d
      /\ 2 * so_pos_equal_eps o <= - dr (resized offset d) /\ so_offset_dist_eps o <= 2 * - dr (resized offset d)
  | Hidden => of_size (so_pos_equal_eps o) (dr (resized offset d)) /\ 1 / 100000000 <= dr (resized offset d)
      /\ exists j e, nth_error ds j = Some e /\ j <> i
         /\ dist (dc d) (dc e) + Rabs (dr (resized offset d) - dr e) + 3 * so_pos_equal_eps o + 1 / 5000 <= Rabs offset - so_offset_dist_eps o
  | Kept => of_size (so_pos_equal_eps o) (dr (resized offset d)) /\ 1 / 100000000 <= dr (resized offset d)
      /\ forall j e m, nth_error ds j = Some e -> j <> i -> m = Rabs offset - so_offset_dist_eps o ->
         dr (resized offset d) + dr e + m < dist (dc d) (dc e) \/ dist (dc d) (dc e) + m < Rabs (dr (resized offset d) - dr e)
  end.

Definition is_kept (f : fate) : bool := match f with Kept => true | _ => false end.
Definition is_left (f : fate) : bool := match f with Gone => false | _ => true end.
Definition sane (o : shape_options R) (offset : R) : Prop :=
  0 < so_pos_equal_eps o /\ 0 < so_slice_join_eps o /\ 0 < so_offset_dist_eps o <= Rabs offset.

(** The inputs [ds1] are counterclockwise, [ds2] clockwise, and become what [fs1] and [fs2] say; the offset circles
    that do not vanish miss each other. *)
Definition fated (o : shape_options R) (offset : R) (ds : list disc) (fs : list fate) : Prop :=
  length fs = length ds
  /\ (forall i d f, nth_error ds i = Some d -> nth_error fs i = Some f -> has_fate o offset ds i d f)
  /\ forall i j d e f g, nth_error ds i = Some d -> nth_error fs i = Some f -> nth_error ds j = Some e -> nth_error fs j = Some g ->
       i <> j -> f <> Gone -> g <> Gone -> miss (so_pos_equal_eps o) (resized offset d) (resized offset e).
Definition of_sense (b : R) (d : disc) : Prop := is_disc d /\ db d = b.
Definition survivors (offset : R) (ds : list disc) (fs : list fate) : list disc := map (resized offset) (marked ds (map is_kept fs)).

(** A plate: the discs of [ds1], which do not meet, with the holes [ds2], which do not meet, each within a disc. *)
Definition separate (ds : list disc) : Prop :=
  forall i j d e, nth_error ds i = Some d -> nth_error ds j = Some e -> i <> j -> dr d + dr e <= dist (dc d) (dc e).
Definition is_plate (ds1 ds2 : list disc) : Prop :=
  separate ds1 /\ separate ds2 /\ forall h, In h ds2 -> exists d, In d ds1 /\ dist (dc h) (dc d) + dr h <= dr d.
Definition in_plate (ds1 ds2 : list disc) (x : vec2 R) : Prop :=
  (exists d, In d ds1 /\ dist x (dc d) < dr d) /\ forall h, In h ds2 -> dr h < dist x (dc h).
(** How far [x] is from the circle. *)
Definition from_circle (x : vec2 R) (d : disc) : R := Rabs (dist x (dc d) - dr d).

(** Inside a counterclockwise loop of the shape and outside the others. *)
Definition in_shape (s : shape R) (x : vec2 R) : Prop :=
  (exists ip, In ip (sh_ccw s) /\ inside (ip_pline ip) x = true) /\ forall ip, In ip (sh_cw s) -> inside (ip_pline ip) x = false.
Definition off_shape (s : shape R) (x : vec2 R) : Prop := forall ip, In ip (sh_ccw s ++ sh_cw s) -> ~ on_path (ip_pline ip) x.

(** A disc with two holes, and a narrow ring. *)
Definition ex_disc : disc := Disc (V2 0 0) (V2 1 0) 10 1.
Definition ex_holes : list disc := [Disc (V2 (-4) 0) (V2 (3/5) (4/5)) 2 (-1); Disc (V2 5 0) (V2 0 1) 1 (-1)].
Definition ex_hole : disc := Disc (V2 0 0) (V2 1 0) 7 (-1).
Definition ex_ring_opts : shape_options R := SO (1/100000) (1/10000) (1/10000).
