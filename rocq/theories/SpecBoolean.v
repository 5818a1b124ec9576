(** What boolean operations on polylines should give (C30). *)
From Coq Require Import List Bool ZArith.
From Verif Require Import Num Res ModelMath ModelSeg ModelPline ModelView ModelIntersects ModelBoolean.
Import ListNotations.

(** A polyline that an operation accepts. *)
Definition valid_loop {T} (p : pline T) : Prop := 2 <= vertex_count p /\ is_closed p = true.

(** The loops to add and to subtract, if the boundaries do not meet or are the same. *)
Definition whole_loops {T} (op : boolean_op) (info : boolean_result_info) (p1 p2 : pline T) : list (pline T) * list (pline T) :=
  match op, info with
  | BOr, Disjoint => ([p1; p2], [])
  | BOr, Pline2InsidePline1 => ([p1], [])
  | BOr, (Pline1InsidePline2 | Overlapping) => ([p2], [])
  | BAnd, Pline1InsidePline2 => ([p1], [])
  | BAnd, (Pline2InsidePline1 | Overlapping) => ([p2], [])
  | BNot, Disjoint => ([p1], [])
  | BNot, Pline2InsidePline1 => ([p1], [p2])
  | BXor, Disjoint => ([p1; p2], [])
  | BXor, Pline1InsidePline2 => ([p2], [p1])
  | BXor, Pline2InsidePline1 => ([p1], [p2])
  | _, _ => ([], [])
  end.

(** The relation of two loops whose boundaries do not meet, from the winding numbers of each around the
    first vertex of the other. *)
Definition relation (w12 w21 : Z) : boolean_result_info :=
  if negb (Z.eqb w12 0) then Pline1InsidePline2 else if negb (Z.eqb w21 0) then Pline2InsidePline1 else Disjoint.

Definition operation (op : boolean_op) (a b : Prop) : Prop :=
  match op with
  | BOr => a \/ b
  | BAnd => a /\ b
  | BNot => a /\ ~ b
  | BXor => (a /\ ~ b) \/ (b /\ ~ a)
  end.

Section Region.
Context {T P : Type} (ins : pline T -> P -> Prop).

(** The region given by a result: in a loop to add and in no loop to subtract. *)
Definition region (r : boolean_result T) (x : P) : Prop :=
  (exists a, In a (br_pos r) /\ ins (brp_pline a) x) /\ ~ exists s, In s (br_neg r) /\ ins (brp_pline s) x.

(** The two loops are related as [info] says. *)
Definition related (info : boolean_result_info) (p1 p2 : pline T) : Prop :=
  match info with
  | Pline1InsidePline2 => forall x, ins p1 x -> ins p2 x
  | Pline2InsidePline1 => forall x, ins p2 x -> ins p1 x
  | Disjoint => forall x, ~ (ins p1 x /\ ins p2 x)
  | Overlapping => forall x, ins p1 x <-> ins p2 x
  | _ => False
  end.
End Region.
