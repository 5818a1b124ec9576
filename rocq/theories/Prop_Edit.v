(** Property C58: reading and editing vertexes. *)
From Coq Require Import List Arith PrimFloat.
From Verif Require Import Num FNum Res ModelMath ModelSeg ModelPline ProofEdit.
Import ListNotations.

(** Reading, replacing and removing a vertex touches that vertex only. *)
Theorem C58_at {T} (a : list (vertex T)) x b c v : let p := PL (a ++ x :: b) c in let i := length a in
  vertex_count p = length a + 1 + length b /\ get p i = Some x /\ at_ p i = Ret x
  /\ set_vertex p i v = Ret (PL (a ++ v :: b) c) /\ remove p i = Ret (x, PL (a ++ b) c).
Proof. exact (edit_at a x b c v). Qed.
Print Assumptions C58_at.

Theorem C58_last {T} (a : list (vertex T)) x c v : let p := PL (a ++ [x]) c in
  last_ p = Ret (Some x) /\ set_last p v = Ret (PL (a ++ [v]) c) /\ remove_last p = Ret (x, PL a c).
Proof. exact (edit_last a x c v). Qed.
Print Assumptions C58_last.

Theorem C58_insert {T} (a b : list (vertex T)) c v : insert_vertex (PL (a ++ b) c) (length a) v = Ret (PL (a ++ v :: b) c).
Proof. exact (edit_insert a b c v). Qed.
Print Assumptions C58_insert.

Theorem C58_end {T} (a b : list (vertex T)) c c' v : add_vertex (PL a c) v = PL (a ++ [v]) c /\ extend_vertexes (PL a c) b = PL (a ++ b) c
  /\ clear (PL a c) = PL [] c /\ set_is_closed (PL a c) c' = PL a c' /\ @empty_pline T = PL [] false
  /\ (is_empty (PL a c) = true <-> a = []).
Proof. exact (edit_end a b c c' v). Qed.
Print Assumptions C58_end.

(** Out of range, and on an empty polyline, they panic; [get] returns nothing. *)
Theorem C58_range {T} (p : pline T) i v :
  (vertex_count p <= i -> get p i = None /\ at_ p i = Panic IndexOutOfBounds /\ set_vertex p i v = Panic IndexOutOfBounds
    /\ remove p i = Panic IndexOutOfBounds)
  /\ (vertex_count p < i -> insert_vertex p i v = Panic IndexOutOfBounds)
  /\ (vertex_count p = 0 -> last_ p = Panic Underflow /\ set_last p v = Panic Underflow /\ remove_last p = Panic Underflow).
Proof. exact (edit_range p i v). Qed.
Print Assumptions C58_range.

Example C58_example : let p := PL [Vtx 1 2 0; Vtx 3 4 1]%float true in
  insert_vertex p 1 (Vtx 5 6 0)%float = Ret (PL [Vtx 1 2 0; Vtx 5 6 0; Vtx 3 4 1]%float true)
  /\ remove p 0 = Ret (Vtx 1 2 0, PL [Vtx 3 4 1] true)%float /\ insert_vertex p 3 (Vtx 5 6 0)%float = Panic IndexOutOfBounds.
Proof. repeat split. Qed.
