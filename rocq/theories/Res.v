(** Results of code that may panic.

    A Rust panic is data here: [Panic k]. The kinds name the source of the panic.
    [OutOfFuel] is not a Rust panic: it marks that the bound put on a [loop]/[while] in the model was
    too small; theorems exclude it or prove it impossible. *)
From Coq Require Import List Arith.
Import ListNotations.

Inductive panic_kind :=
| IndexOutOfBounds   (* slice[i] / Vec::remove out of range *)
| Underflow          (* usize subtraction below zero (debug profile) *)
| UnwrapNone         (* Option::unwrap / expect on None *)
| Unreachable        (* unreachable!() *)
| AssertFailed       (* assert!() *)
| OutOfFuel.         (* model artefact, see above *)

Inductive res (A : Type) :=
| Ret (a : A)
| Panic (k : panic_kind).
Arguments Ret {A} a.
Arguments Panic {A} k.

Definition rbind {A B} (m : res A) (f : A -> res B) : res B :=
  match m with Ret a => f a | Panic k => Panic k end.

Definition rmap {A B} (f : A -> B) (m : res A) : res B :=
  match m with Ret a => Ret (f a) | Panic k => Panic k end.

Declare Scope res_scope.
Delimit Scope res_scope with res.
Notation "'let!' x := m 'in' f" := (rbind m (fun x => f))
  (at level 200, x pattern, f at level 200, right associativity) : res_scope.
Open Scope res_scope.

(** [slice[i]] *)
Definition index {A} (l : list A) (i : nat) : res A :=
  match nth_error l i with Some a => Ret a | None => Panic IndexOutOfBounds end.

(** [Option::unwrap] *)
Definition unwrap {A} (o : option A) : res A :=
  match o with Some a => Ret a | None => Panic UnwrapNone end.

(** usize subtraction [a - b], debug profile *)
Definition usub (a b : nat) : res nat :=
  if b <=? a then Ret (a - b) else Panic Underflow.

(** [list[i] = a] on an in-range index *)
Fixpoint list_set {A} (l : list A) (i : nat) (a : A) : list A :=
  match l, i with
  | [], _ => []
  | _ :: t, O => a :: t
  | h :: t, S j => h :: list_set t j a
  end.

(** [slice[i] = a] *)
Definition set_index {A} (l : list A) (i : nat) (a : A) : res (list A) :=
  if i <? length l then Ret (list_set l i a) else Panic IndexOutOfBounds.

(** [Vec::remove(i)] on an in-range index *)
Fixpoint list_remove {A} (l : list A) (i : nat) : list A :=
  match l, i with
  | [], _ => []
  | _ :: t, O => t
  | h :: t, S j => h :: list_remove t j
  end.

(** [for x in l { acc = f(acc, x)? }] where the body may panic *)
Fixpoint rfold {A B} (f : B -> A -> res B) (l : list A) (b : B) : res B :=
  match l with
  | [] => Ret b
  | a :: t => rbind (f b a) (rfold f t)
  end.

(** [iter.map(f).collect()] where [f] may panic *)
Fixpoint rmapM {A B} (f : A -> res B) (l : list A) : res (list B) :=
  match l with
  | [] => Ret []
  | a :: t => let! b := f a in let! bs := rmapM f t in Ret (b :: bs)
  end.
