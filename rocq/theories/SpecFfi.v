(** What callers of the C API are told: which handles a call takes, which objects it may change, and who
    owns which object. *)
From Coq Require Import ZArith Bool List Arith Reals.
From Verif Require Import Num Res ModelMath ModelSeg ModelPline ModelIndex ModelFfi.
Import ListNotations.
Open Scope nat_scope.

Section SpecFfi.
Context {T : Type}.

(** Handles a call must be given for it to have something to work on. *)
Definition handles (c : call T) : list ptr :=
  match c with
  | COffsetInit _ | CBooleanInit _ | CCreate _ _ _ => []
  | CPlineFree h | CReserve h _ | CClone h | CGetClosed h | CSetClosed h _ | CGetCount h | CGetData h _
  | CSetData h _ _ | CClear h | CAdd h _ _ _ | CGetVertex h _ | CSetVertex h _ _ | CRemove h _
  | CPathLength h | CArea h | CWinding h _ _ | CInvert h | CScale h _ | CTranslate h _ _
  | CRemoveRepeat h _ | CRemoveRedundant h _ | CExtents h | COffset h _ _ | CApproxIndex h | CIndex h
  | CIndexFree h | CIndexExtents h | CListFree h | CListCount h | CListGet h _ | CListPop h
  | CListTake h _ => [h]
  | CBoolean h1 h2 _ _ => [h1; h2]
  end.

(** Functions that free return no code; the others return 1 for a null handle. *)
Definition null_code (c : call T) : Z :=
  match c with CPlineFree _ | CIndexFree _ | CListFree _ => 0 | _ => 1 end.

(** Handles taken as pointers to mutable objects. *)
Definition changes (c : call T) : list ptr :=
  match c with
  | CPlineFree h | CReserve h _ | CSetClosed h _ | CSetData h _ _ | CClear h | CAdd h _ _ _ | CSetVertex h _ _
  | CRemove h _ | CInvert h | CScale h _ | CTranslate h _ _ | CRemoveRepeat h _ | CRemoveRedundant h _
  | CIndexFree h | CListFree h | CListPop h | CListTake h _ => [h]
  | _ => []
  end.

(** The polyline, list or index behind an address. *)
Definition is_pline (m : mem T) (a : nat) (p : pline T) : Prop := nth_error m a = Some (Some (OPline p)).
Definition is_list (m : mem T) (a : nat) (l : list nat) : Prop := nth_error m a = Some (Some (OList l)).
Definition is_index (m : mem T) (a : nat) (x : sindex T) : Prop := nth_error m a = Some (Some (OIndex x)).

(** The list behind an address holds these polylines, in order. *)
Definition holds (m : mem T) (a : nat) (l : list (pline T)) : Prop :=
  exists ids, is_list m a ids /\ Forall2 (is_pline m) ids l.

(** Everything that was there is still there, unchanged. *)
Definition kept (m m1 : mem T) : Prop := forall b, b < length m -> nth_error m1 b = nth_error m b.
(** Only the polyline behind [a] changed. *)
Definition changed_to (m m1 : mem T) (a : nat) (p : pline T) : Prop :=
  is_pline m1 a p /\ length m1 = length m /\ forall b, b <> a -> nth_error m1 b = nth_error m b.
(** Only the object behind [a] is gone. *)
Definition only_freed (m m1 : mem T) (a : nat) : Prop :=
  nth_error m1 a = Some None /\ length m1 = length m /\ forall b, b <> a -> nth_error m1 b = nth_error m b.

(** Ownership as documented for the caller: polylines to be freed by the caller, live lists with the
    polylines they own, indexes to be freed by the caller, and polylines nobody can free any more because
    the list owning them was freed. *)
Record owner := OW {
  ow_plines : list nat;
  ow_lists : list (nat * list nat);
  ow_indexes : list nat;
  ow_lost : list nat }.

Definition all_plines (o : owner) : list nat := ow_plines o ++ concat (map snd (ow_lists o)) ++ ow_lost o.

(** Memory holds exactly the objects accounted for, every polyline under one owner only. *)
Record accounts (m : mem T) (o : owner) : Prop := {
  ac_plines : forall a, (exists p, is_pline m a p) <-> In a (all_plines o);
  ac_lists : forall a l, is_list m a l <-> In (a, l) (ow_lists o);
  ac_indexes : forall a, (exists x, is_index m a x) <-> In a (ow_indexes o);
  ac_once : NoDup (all_plines o);
  ac_lists_once : NoDup (map fst (ow_lists o)) }.

(** A polyline the caller may use: their own or one in a live list. *)
Definition usable (o : owner) (h : ptr) : Prop :=
  match h with None => True | Some a => In a (ow_plines o) \/ In a (concat (map snd (ow_lists o))) end.
Definition owned (l : list nat) (h : ptr) : Prop := match h with None => True | Some a => In a l end.

(** The documented requirements on a call: handles are null or usable, only own objects are freed, buffers
    are as large as stated. *)
Definition allowed (m : mem T) (o : owner) (c : call T) : Prop :=
  match c with
  | COffsetInit _ | CBooleanInit _ => True
  | CCreate vs n _ => match vs with Some l => N.to_nat n <= length l | None => True end
  | CPlineFree h => owned (ow_plines o) h
  | CGetData h cap => usable o h
      /\ (forall a p, h = Some a -> is_pline m a p -> exists k, cap = Some k /\ length (vtx p) <= k)
  | CSetData h d n => usable o h /\ exists l, d = Some l /\ N.to_nat n <= length l
  | COffset h _ opts => usable o h
      /\ match opts with Some c => owned (ow_indexes o) (co_index c) | None => True end
  | CBoolean h1 h2 _ opts => usable o h1 /\ usable o h2
      /\ match opts with Some c => owned (ow_indexes o) (cb_index c) | None => True end
  | CIndexFree h | CIndexExtents h => owned (ow_indexes o) h
  | CListFree h | CListCount h | CListGet h _ | CListPop h | CListTake h _ => owned (map fst (ow_lists o)) h
  | CReserve h _ | CClone h | CGetClosed h | CSetClosed h _ | CGetCount h
  | CClear h | CAdd h _ _ _ | CGetVertex h _ | CSetVertex h _ _ | CRemove h _
  | CPathLength h | CArea h | CWinding h _ _ | CInvert h | CScale h _ | CTranslate h _ _
  | CRemoveRepeat h _ | CRemoveRedundant h _ | CExtents h | CApproxIndex h | CIndex h => usable o h
  end.

Definition drop (a : nat) (l : list nat) : list nat := filter (fun b => negb (Nat.eqb a b)) l.
Definition drop_list (a : nat) (l : list (nat * list nat)) : list (nat * list nat) :=
  filter (fun b => negb (Nat.eqb a (fst b))) l.
Definition drop_from (a x : nat) (l : list (nat * list nat)) : list (nat * list nat) :=
  map (fun b => if Nat.eqb a (fst b) then (fst b, drop x (snd b)) else b) l.
Definition owned_by (a : nat) (l : list (nat * list nat)) : list nat :=
  concat (map snd (filter (fun b => Nat.eqb a (fst b)) l)).
Definition listed (m : mem T) (a : nat) : list nat :=
  match nth_error m a with Some (Some (OList l)) => l | _ => [] end.

(** How ownership changes: new objects go to the caller, popping and taking move a polyline from the list
    to the caller, freeing a list loses what is still in it. [m] is the memory after the call. *)
Definition own_step (o : owner) (c : call T) (code : Z) (w : output T) (m : mem T) : owner :=
  match c, w with
  | (CCreate _ _ _ | CClone _), WPtr a => OW (a :: ow_plines o) (ow_lists o) (ow_indexes o) (ow_lost o)
  | CPlineFree (Some a), _ => OW (drop a (ow_plines o)) (ow_lists o) (ow_indexes o) (ow_lost o)
  | COffset _ _ _, WPtr a => OW (ow_plines o) ((a, listed m a) :: ow_lists o) (ow_indexes o) (ow_lost o)
  | CBoolean _ _ _ _, WPtrs a b =>
      OW (ow_plines o) ((a, listed m a) :: (b, listed m b) :: ow_lists o) (ow_indexes o) (ow_lost o)
  | (CApproxIndex _ | CIndex _), WPtr a => OW (ow_plines o) (ow_lists o) (a :: ow_indexes o) (ow_lost o)
  | CIndexFree (Some a), _ => OW (ow_plines o) (ow_lists o) (drop a (ow_indexes o)) (ow_lost o)
  | CListFree (Some a), _ =>
      OW (ow_plines o) (drop_list a (ow_lists o)) (ow_indexes o) (owned_by a (ow_lists o) ++ ow_lost o)
  | (CListPop (Some a) | CListTake (Some a) _), WPtr x =>
      OW (x :: ow_plines o) (drop_from a x (ow_lists o)) (ow_indexes o) (ow_lost o)
  | _, _ => o
  end.

End SpecFfi.

(** A list is only freed when it owns nothing any more. *)
Definition frees_empty_lists {T} (o : owner) (c : call T) : Prop :=
  match c with CListFree (Some a) => owned_by a (ow_lists o) = [] | _ => True end.

(** A history of allowed calls, all satisfying [also]. *)
Inductive history {T} {N : Num T} (mk : list (aabb T) -> sindex T) (also : owner -> call T -> Prop)
  : mem T -> owner -> mem T -> owner -> Prop :=
| H_none m o : history mk also m o m o
| H_call m o c code w m1 m2 o2 :
    allowed m o c -> also o c -> run_call mk m c = Done code w m1 ->
    history mk also m1 (own_step o c code w m1) m2 o2 -> history mk also m o m2 o2.

(** The smallest box around a list of boxes. *)
Definition around (l : list (aabb R)) (r : aabb R) : Prop :=
  ((forall c, In c l -> bmin_x r <= bmin_x c /\ bmin_y r <= bmin_y c /\ bmax_x c <= bmax_x r /\ bmax_y c <= bmax_y r)
   /\ (exists c, In c l /\ bmin_x r = bmin_x c) /\ (exists c, In c l /\ bmin_y r = bmin_y c)
   /\ (exists c, In c l /\ bmax_x r = bmax_x c) /\ (exists c, In c l /\ bmax_y r = bmax_y c))%R.

Definition nobody : owner := OW [] [] [] [].
