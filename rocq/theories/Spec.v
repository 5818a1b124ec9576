(** Independent specifications on lists: nothing here mentions the model. *)
From Coq Require Import List Arith Bool ZArith.
Import ListNotations.

(** Neighbouring pairs of a list, plus (last, first) when [closed]; none for fewer than two
    elements. *)
Definition spec_segs {A} (l : list A) (closed : bool) : list (A * A) :=
  match l with
  | a :: _ :: _ => combine l (tl l ++ if closed then [a] else [])
  | _ => []
  end.

(** [l] starting from position [k], wrapping around. *)
Definition spec_rotate {A} (k : nat) (l : list A) : list A := skipn k l ++ firstn k l.

(** A list consumed from both ends, the specification of double-ended iteration. *)
Inductive deque_op := PopFront | PopBack | SizeHint.
Inductive deque_out (A : Type) := Item (a : option A) | Size (n : nat).
Arguments Item {A} _.
Arguments Size {A} _.

Fixpoint spec_deque {A} (ops : list deque_op) (l : list A) : list (deque_out A) :=
  match ops with
  | [] => []
  | PopFront :: t => Item (hd_error l) :: spec_deque t (tl l)
  | PopBack :: t => Item (hd_error (rev l)) :: spec_deque t (removelast l)
  | SizeHint :: t => Size (length l) :: spec_deque t l
  end.

(** [rs] is the division of [l] into runs: consecutive non-empty pieces, the members of a piece
    are close to its first element, and the first elements of neighbouring pieces are not close. *)
Definition is_runs {A} (close : A -> A -> bool) (l : list A) (rs : list (list A)) : Prop :=
  concat rs = l
  /\ (forall r, In r rs -> exists h t, r = h :: t /\ forall x, In x t -> close h x = true)
  /\ (forall i h1 t1 h2 t2, nth_error rs i = Some (h1 :: t1) -> nth_error rs (S i) = Some (h2 :: t2) ->
        close h1 h2 = false).

(** Every run has one element. *)
Definition all_single {A} (rs : list (list A)) : Prop := forall r, In r rs -> length r = 1.

(** No element is close to its successor. *)
Definition no_repeat {A} (close : A -> A -> bool) (l : list A) : Prop :=
  forall i a b, nth_error l i = Some a -> nth_error l (S i) = Some b -> close a b = false.
