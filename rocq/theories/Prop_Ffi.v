(** C42, C43: the C API. *)
From Coq Require Import ZArith Bool List Arith Floats.
From Verif Require Import Num Res FNum ModelMath ModelSeg ModelPline ModelRedundant ModelIndex ModelBoolean ModelOffset ModelFfi SpecFfi
  ProofFfi2 ProofFfiEx TestFfi.
Import ListNotations.

(** A null handle gives the documented code and leaves memory alone. *)
Theorem C42_null :
  forall (T : Type) (N_ : Num T) (mk : list (aabb T) -> sindex T) (m : mem T) (c : call T),
  (exists h, In h (handles c) /\ h = None) -> run_call mk m c = Done (null_code c) WNothing m.
Proof. exact @null_handles. Qed.
Print Assumptions C42_null.

Theorem C42_init_null :
  forall (T : Type) (N_ : Num T) (mk : list (aabb T) -> sindex T) (m : mem T),
  run_call mk m (COffsetInit true) = Done 1 WNothing m /\ run_call mk m (CBooleanInit true) = Done 1 WNothing m.
Proof. exact @init_null. Qed.
Print Assumptions C42_init_null.

(** Positions in range read and write that vertex. *)
Theorem C42_get_vertex :
  forall (T : Type) (N_ : Num T) (mk : list (aabb T) -> sindex T) (m : mem T) a p i v,
  is_pline m a p -> (N.of_nat (length (vtx p)) < 4294967296)%N ->
  nth_error (vtx p) (N.to_nat i) = Some v -> run_call mk m (CGetVertex (Some a) i) = Done 0 (WVertex v) m.
Proof. exact @get_vertex_in. Qed.
Print Assumptions C42_get_vertex.

Theorem C42_set_vertex :
  forall (T : Type) (N_ : Num T) (mk : list (aabb T) -> sindex T) (m : mem T) a p i v,
  is_pline m a p -> (N.of_nat (length (vtx p)) < 4294967296)%N -> N.to_nat i < length (vtx p) ->
  exists m1 p1, run_call mk m (CSetVertex (Some a) i v) = Done 0 WNothing m1
    /\ is_pline m1 a p1 /\ is_closed p1 = is_closed p
    /\ (forall j, nth_error (vtx p1) j = if Nat.eqb j (N.to_nat i) then Some v else nth_error (vtx p) j)
    /\ run_call mk m1 (CGetVertex (Some a) i) = Done 0 (WVertex v) m1.
Proof. exact @set_vertex_in. Qed.
Print Assumptions C42_set_vertex.

Theorem C42_remove :
  forall (T : Type) (N_ : Num T) (mk : list (aabb T) -> sindex T) (m : mem T) a p i,
  is_pline m a p -> N.to_nat i < length (vtx p) ->
  exists m1 p1, run_call mk m (CRemove (Some a) i) = Done 0 WNothing m1
    /\ is_pline m1 a p1 /\ is_closed p1 = is_closed p
    /\ (forall j, nth_error (vtx p1) j = nth_error (vtx p) (if Nat.ltb j (N.to_nat i) then j else S j)).
Proof. exact @remove_in. Qed.
Print Assumptions C42_remove.

Theorem C42_vertex_data :
  forall (T : Type) (N_ : Num T) (mk : list (aabb T) -> sindex T) (m : mem T) a p l n cap,
  is_pline m a p -> N.to_nat n <= length l -> N.to_nat n <= cap ->
  exists m1, run_call mk m (CSetData (Some a) (Some l) n) = Done 0 WNothing m1
    /\ is_pline m1 a (PL (firstn (N.to_nat n) l) (is_closed p))
    /\ run_call mk m1 (CGetData (Some a) (Some cap)) = Done 0 (WVertexes (firstn (N.to_nat n) l)) m1.
Proof. exact @set_get_data. Qed.
Print Assumptions C42_vertex_data.

Theorem C42_is_closed :
  forall (T : Type) (N_ : Num T) (mk : list (aabb T) -> sindex T) (m : mem T) a p c,
  is_pline m a p ->
  exists m1, run_call mk m (CSetClosed (Some a) c) = Done 0 WNothing m1
    /\ is_pline m1 a (PL (vtx p) (negb (N.eqb c 0)))
    /\ run_call mk m1 (CGetClosed (Some a)) = Done 0 (WU32 (if N.eqb c 0 then 0%N else 1%N)) m1.
Proof. exact @set_get_closed. Qed.
Print Assumptions C42_is_closed.

(** Positions out of range return 2 and change nothing. *)
Theorem C42_out_of_range :
  forall (T : Type) (N_ : Num T) (mk : list (aabb T) -> sindex T) (m : mem T) a p i v,
  is_pline m a p -> (N.of_nat (length (vtx p)) < 4294967296)%N -> length (vtx p) <= N.to_nat i ->
  run_call mk m (CGetVertex (Some a) i) = Done 2 WNothing m
  /\ run_call mk m (CSetVertex (Some a) i v) = Done 2 WNothing m
  /\ run_call mk m (CRemove (Some a) i) = Done 2 WNothing m.
Proof. exact @positions_out. Qed.
Print Assumptions C42_out_of_range.

Theorem C42_lists :
  forall (T : Type) (N_ : Num T) (mk : list (aabb T) -> sindex T) (m : mem T) a l i,
  is_list m a l ->
  (forall x, nth_error l (N.to_nat i) = Some x ->
     run_call mk m (CListGet (Some a) i) = Done 0 (WPtr x) m
     /\ exists m1, run_call mk m (CListTake (Some a) i) = Done 0 (WPtr x) m1)
  /\ (length l <= N.to_nat i -> run_call mk m (CListGet (Some a) i) = Done 2 WNothing m
        /\ run_call mk m (CListTake (Some a) i) = Done 2 WNothing m)
  /\ (l = [] -> run_call mk m (CListPop (Some a)) = Done 2 WNothing m).
Proof. exact @list_positions. Qed.
Print Assumptions C42_lists.

Theorem C42_unknown_operation :
  forall (T : Type) (N_ : Num T) (mk : list (aabb T) -> sindex T) (m : mem T) a b op opts,
  (4 <= op)%N -> run_call mk m (CBoolean (Some a) (Some b) op opts) = Done 2 WNothing m.
Proof. exact @unknown_operation. Qed.
Print Assumptions C42_unknown_operation.

(** A panic inside becomes -1 and leaves memory alone. *)
Theorem C42_panics :
  forall (T : Type) (N_ : Num T) (mk : list (aabb T) -> sindex T) (m : mem T) a p k,
  is_pline m a p -> k <> OutOfFuel ->
  (forall eps, remove_redundant p eps = Panic k -> run_call mk m (CRemoveRedundant (Some a) eps) = Done (-1) WNothing m)
  /\ (forall eps, remove_repeat_pos p eps = Panic k -> run_call mk m (CRemoveRepeat (Some a) eps) = Done (-1) WNothing m)
  /\ (forall x y, winding_number p (V2 x y) = Panic k -> run_call mk m (CWinding (Some a) x y) = Done (-1) WNothing m)
  /\ (extents p = Panic k -> run_call mk m (CExtents (Some a)) = Done (-1) WNothing m)
  /\ (forall d, parallel_offset_constructed mk p d (OO (nlit 1 5) (nlit 1 4) (nlit 1 4) false) = Panic k ->
        run_call mk m (COffset (Some a) d None) = Done (-1) WNothing m)
  /\ (forall b q op o, boolean_op_from_u32 op = Some o -> is_pline m b q ->
        boolean_constructed mk p q o (nlit 1 5) = Panic k ->
        run_call mk m (CBoolean (Some a) (Some b) op None) = Done (-1) WNothing m)
  /\ ((4294967296 <= N.of_nat (length (vtx p)))%N -> run_call mk m (CGetCount (Some a)) = Done (-1) WNothing m).
Proof. exact @panics. Qed.
Print Assumptions C42_panics.

(** A call changes only objects it was given a mutable handle to. *)
Theorem C42_frames :
  forall (T : Type) (N_ : Num T) (mk : list (aabb T) -> sindex T) (m : mem T) (c : call T) code w m1,
  run_call mk m c = Done code w m1 ->
  forall a, a < length m -> ~ In (Some a) (changes c) -> nth_error m1 a = nth_error m a.
Proof. exact @call_frames. Qed.
Print Assumptions C42_frames.

(** With 2^32 vertexes the count is truncated and position 0 is reported out of range. *)
Theorem C42_huge_refuted :
  forall (T : Type) (N_ : Num T) (mk : list (aabb T) -> sindex T) (v : vertex T),
  exists m a p, is_pline m a p /\ nth_error (vtx p) 0 = Some v
    /\ run_call mk m (CGetVertex (Some a) 0) = Done 2 WNothing m.
Proof. exact @huge_get_vertex. Qed.
Print Assumptions C42_huge_refuted.

Example C42_example : check [] [create_circle;
  (CGetVertex p0 1%N, 0%Z, WVertex (Vtx 2 0 1)%float); (CGetVertex p0 2%N, 2%Z, WNothing); (CGetVertex None 0%N, 1%Z, WNothing);
  (CBoolean p0 p0 9%N None, 2%Z, WNothing); (CScale None 2%float, 1%Z, WNothing)] = true.
Proof. vm_compute. reflexivity. Qed.

(** Every allowed call in any history of allowed calls is free of undefined behaviour (no use after free, no
    double free), and memory holds exactly the objects the ownership rules account for, each once. *)
Theorem C43_ownership :
  forall (T : Type) (N_ : Num T) (mk : list (aabb T) -> sindex T) also m o m1 o1,
  accounts m o -> history mk also m o m1 o1 ->
  accounts m1 o1 /\ forall c, allowed m1 o1 c -> run_call mk m1 c <> UB.
Proof. exact @history_accounts. Qed.
Print Assumptions C43_ownership.

(** Popping and taking transfer exactly one polyline. *)
Theorem C43_pop :
  forall (T : Type) (N_ : Num T) (mk : list (aabb T) -> sindex T) (m : mem T) a l x,
  is_list m a (l ++ [x]) ->
  exists m1, run_call mk m (CListPop (Some a)) = Done 0 (WPtr x) m1
    /\ is_list m1 a l /\ length m1 = length m /\ forall b, b <> a -> nth_error m1 b = nth_error m b.
Proof. exact @pop_moves. Qed.
Print Assumptions C43_pop.

Theorem C43_take :
  forall (T : Type) (N_ : Num T) (mk : list (aabb T) -> sindex T) (m : mem T) a l1 x l2,
  is_list m a (l1 ++ x :: l2) ->
  exists m1, run_call mk m (CListTake (Some a) (N.of_nat (length l1))) = Done 0 (WPtr x) m1
    /\ is_list m1 a (l1 ++ l2) /\ length m1 = length m /\ forall b, b <> a -> nth_error m1 b = nth_error m b.
Proof. exact @take_moves. Qed.
Print Assumptions C43_take.

(** Lists emptied before they are freed: once the caller owns nothing, nothing is left. *)
Theorem C43_tidy :
  forall (T : Type) (N_ : Num T) (mk : list (aabb T) -> sindex T) m1 lost,
  history mk frees_empty_lists [] nobody m1 (OW [] [] [] lost) ->
  forall a, nth_error m1 a = None \/ nth_error m1 a = Some None.
Proof. exact @tidy_history_frees_all. Qed.
Print Assumptions C43_tidy.

(** Otherwise what stays alive is exactly what was in freed lists. *)
Theorem C43_lost :
  forall (T : Type) (N_ : Num T) (mk : list (aabb T) -> sindex T) also m1 lost,
  history mk also [] nobody m1 (OW [] [] [] lost) ->
  NoDup lost /\ forall a, In a lost <-> exists x, nth_error m1 a = Some (Some x).
Proof. exact @history_lost_live. Qed.
Print Assumptions C43_lost.

(** Freeing a list leaks the polylines in it: create, offset, free the list, free the polyline. *)
Theorem C43_list_free_refuted :
  exists m1 a x, history list_index (fun _ _ => True) [] nobody m1 (OW [] [] [] [a])
    /\ nth_error m1 a = Some (Some x).
Proof. exact leak_history. Qed.
Print Assumptions C43_list_free_refuted.

Example C43_example :
  exists m1, history list_index frees_empty_lists [] nobody m1 (OW [] [] [] []) /\ length m1 = 3.
Proof. exact tidy_example. Qed.
Example C43_start : accounts ([] : mem float) nobody.
Proof. exact nobody_accounts. Qed.
