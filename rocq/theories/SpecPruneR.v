(** Where the slices of a polyline between its cut points run (C32). *)
From Coq Require Import List Bool Arith Reals Permutation Sorted.
From Verif Require Import Num RNum Res ModelMath ModelSeg ModelPline ModelView ModelIntersects ModelBoolean.
From Verif Require Import Spec SpecGeom SpecView.
Import ListNotations.
Local Open Scope R_scope.

(** A cut point with its place: segment and parameter. *)
Definition place : Type := (nat * R * slice_point R)%type.

Definition placed (p : pline R) (x : place) : Prop := let '(k, t, sp) := x in t < 1 /\ point_at p k t (sp_pos sp).

(** The part of the arc starting at [v] between two parameters has a bulge that does not count as zero. *)
Definition part_ok (v : vertex R) (t u : R) : Prop :=
  pbulge v = 0 \/ 1 / 100000000 <= Rabs (tan ((u - t) * atan (pbulge v))).

(** The cut points are on their segments, not at the end, at or clearly away from vertexes and from each other. *)
Definition clear_cuts (eps : R) (p : pline R) (cuts : list (nat * slice_point R)) : Prop :=
  (forall k sp, In (k, sp) cuts -> crisp_vertexes eps p (sp_pos sp)
     /\ exists t, placed p (k, t, sp) /\ forall v, nth_error (vtx p) k = Some v -> part_ok v t 1)
  /\ (forall k sp sp', In (k, sp) cuts -> In (k, sp') cuts -> crisp eps (sp_pos sp) (sp_pos sp')
      /\ forall t u v, placed p (k, t, sp) -> placed p (k, u, sp') -> t < u -> nth_error (vtx p) k = Some v -> part_ok v t u).

(** In order along the polyline. *)
Definition along (x y : place) : Prop :=
  let '(k, t, _) := x in let '(j, u, _) := y in (k < j)%nat \/ (k = j /\ t <= u).

Definition same_place (x y : place) : bool :=
  let '(k, t, _) := x in let '(j, u, _) := y in Nat.eqb k j && (if Req_EM_T t u then true else false).

(** Each cut point with the next one, leaving out those at the same place, and the last with the first. *)
Fixpoint gaps_to (first : place) (l : list place) : list (place * place) :=
  match l with
  | [] => []
  | x :: l' =>
    match l' with
    | [] => [(x, first)]
    | y :: _ => (if same_place x y then [] else [(x, y)]) ++ gaps_to first l'
    end
  end.
Definition gaps (l : list place) : list (place * place) := match l with [] => [] | x :: _ => gaps_to x l end.

(** No overlap starts here. *)
Definition free_gap (g : place * place) : bool := negb (sp_is_start (snd (fst g))).

(** The slice runs from one place to the other, and its test point is in the middle of its first piece. *)
Definition between (p : pline R) (g : place * place) (c : boolean_slice R * vec2 R) : Prop :=
  let '((k, t, sp), (j, u, sq)) := g in
  let pieces := slice_pieces (vertex_count p) k t j u in
  view_path p (bs_view (fst c)) (sp_pos sp) (sp_pos sq) pieces
  /\ exists a b e, nth_error (vtx p) k = Some a /\ nth_error (vtx p) ((k + 1) mod vertex_count p) = Some b
     /\ hd_error pieces = Some (k, t, e) /\ seg_at a b ((t + e) / 2) (snd c).
