(** What the demo scenes should compute and draw (C61, C62). *)
From Coq Require Import Reals List Bool Arith.
From Verif Require Import Num RNum Res ModelMath ModelSeg ModelPline ModelIndex ModelBoolean ModelOffset ModelShape ModelUi.
From Verif Require Import Spec SpecGeom SpecBox.
Import ListNotations.

(** ** Repeated offsets *)
Section Scenes.
Context {T : Type} {N : Num T}.
Context (mk : list (aabb T) -> sindex T) (offset : T) (opt : offset_options T).

(** [q] with the mark [b]: whether it turns like [p]. *)
Definition marked (p : pline T) (qb : pline T * bool) : Prop :=
  exists o o', orientation p = Ret o /\ orientation (fst qb) = Ret o' /\ (snd qb = true <-> o' = o).

(** [qs] are the polylines of one generation, [n] more follow: the next one is made of the offsets of those that turn
    like [p]. Marked, all of them are [rs]: in every generation but the last those that turn like [p] come first. *)
Inductive generations (p : pline T) : nat -> list (pline T) -> list (pline T * bool) -> Prop :=
| gen_last marks : Forall (marked p) marks -> generations p 0 (map fst marks) marks
| gen_more n marks nexts rs : Forall (marked p) marks ->
    Forall2 (fun q l => parallel_offset_constructed mk q offset opt = Ret l) (map fst (filter snd marks)) nexts ->
    generations p n (concat nexts) rs ->
    generations p (S n) (map fst marks) (filter snd marks ++ filter (fun qb => negb (snd qb)) marks ++ rs).

Definition empty_shape (s : shape T) : Prop := sh_ccw s = [] /\ sh_cw s = [].

(** Every shape is the offset of the one before it, the first one of [s]; they are not empty and at most [n]; if they
    are fewer the offset of the last one is empty. *)
Inductive offset_shapes (o : shape_options T) : nat -> shape T -> list (shape T) -> Prop :=
| os_stop s : offset_shapes o 0 s []
| os_empty n s s' : shape_parallel_offset mk s offset o = Ret s' -> empty_shape s' -> offset_shapes o (S n) s []
| os_next n s s' l : shape_parallel_offset mk s offset o = Ret s' -> ~ empty_shape s' -> offset_shapes o n s' l -> offset_shapes o (S n) s (s' :: l).
End Scenes.

(** ** Events of a path *)
Section Events.
Context {T : Type}.

(** Where a piece of a path begins and ends. *)
Definition piece_ends (e : path_event T) : option (vec2 T * vec2 T) :=
  match e with
  | PELine a b | PEQuadratic a _ b | PECubic a _ _ b => Some (a, b)
  | _ => None
  end.
Definition is_piece (e : path_event T) : bool := match piece_ends e with Some _ => true | None => false end.

(** Events in order: [pen] is where the pen is if it is down, and where it was put down. Every piece begins where the
    pen is, every end names that place; if [strict] an end that closes also names where the pen was put down. *)
Fixpoint ordered (strict : bool) (pen : option (vec2 T * vec2 T)) (l : list (path_event T)) : Prop :=
  match l with
  | [] => pen = None
  | PEBegin p :: t => pen = None /\ ordered strict (Some (p, p)) t
  | PEEnd z a c :: t => (exists s, pen = Some (z, s) /\ (strict = true -> c = true -> a = s)) /\ ordered strict None t
  | e :: t => exists s a b, piece_ends e = Some (a, b) /\ pen = Some (a, s) /\ ordered strict (Some (b, s)) t
  end.
End Events.

Local Open Scope R_scope.

(** The point at [t] of a piece, going from [0] to [1]. *)
Definition event_at (e : path_event R) (t : R) : option (vec2 R) :=
  let comb l := V2 (fold_right Rplus 0 (map (fun wp : R * vec2 R => fst wp * vx (snd wp)) l)) (fold_right Rplus 0 (map (fun wp : R * vec2 R => fst wp * vy (snd wp)) l)) in
  match e with
  | PELine a b => Some (comb [(1 - t, a); (t, b)])
  | PEQuadratic a c b => Some (comb [((1 - t) * (1 - t), a); (2 * t * (1 - t), c); (t * t, b)])
  | PECubic a c d b => Some (comb [((1 - t) * (1 - t) * (1 - t), a); (3 * t * (1 - t) * (1 - t), c); (3 * t * t * (1 - t), d); (t * t * t, b)])
  | _ => None
  end.

(** The points that shape a piece. *)
Definition piece_points {T} (e : path_event T) : list (vec2 T) :=
  match e with
  | PELine a b => [a; b]
  | PEQuadratic a c b => [a; c; b]
  | PECubic a c d b => [a; c; d; b]
  | _ => []
  end.

(** One side of the rectangle has all points strictly outside. *)
Definition apart (b : aabb R) (l : list (vec2 R)) : Prop :=
  Forall (fun p => vx p < bmin_x b) l \/ Forall (fun p => bmax_x b < vx p) l
  \/ Forall (fun p => vy p < bmin_y b) l \/ Forall (fun p => bmax_y b < vy p) l.

(** ** Drawing *)

(** The boxes have a point in common; nothing is the empty box. *)
Definition boxes_meet (a : aabb R) (b : option (aabb R)) : Prop := exists b' q, b = Some b' /\ inside a 0 q /\ inside b' 0 q.
Definition proper_box (b : aabb R) : Prop := bmin_x b <= bmax_x b /\ bmin_y b <= bmax_y b.

(** The bounds kept with a polyline hold all its points. *)
Definition bounded_by (p : pline R) (b : option (aabb R)) : Prop := forall q, on_path p q -> exists b', b = Some b' /\ inside b' 0 q.

(** Lengths are multiplied by [k] and the second axis points the other way. *)
Definition plot_transform (o : vec2 R) (k : R) (p : vec2 R) : vec2 R := V2 (vx o + k * vx p) (vy o - k * vy p).

(** The command, with the pen at [p], draws [q] after the part [t] of its way. *)
Definition draws_at (p : vec2 R) (c : path_cmd R) (t : R) (q : vec2 R) : Prop :=
  match c with
  | PCMove _ => False
  | PCLine b => q = line_pt p b t
  | PCArc m r s => exists a, p = circle_pt m r a /\ q = circle_pt m r (a + t * s)
  end.
