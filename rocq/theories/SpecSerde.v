(** How the formats hold some numbers (C44). *)
From Coq Require Import List.
From Verif Require Import ModelSerde.
Import ListNotations.

Definition held {T : Type} (f : format) (xs : list T) : list (tok T) :=
  match f with
  | Delimited => [TOpen] ++ map TNum xs ++ [TClose]
  | Prefixed => [TCount (length xs)] ++ map TNum xs
  | Bare => map TNum xs
  end.
