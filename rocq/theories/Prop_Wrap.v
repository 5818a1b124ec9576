(** C52: C functions give what the functions they wrap give. *)
From Coq Require Import ZArith Bool List Arith Floats Reals.
From Verif Require Import Num Res RNum FNum ModelMath ModelSeg ModelPline ModelRedundant ModelIndex ModelBoolean ModelOffset ModelFfi
  SpecFfi ProofFfi3 TestFfi.
Import ListNotations.
Open Scope nat_scope.

Theorem C52_create :
  forall (T : Type) (N_ : Num T) (mk : list (aabb T) -> sindex T) (m : mem T) l n c,
  N.to_nat n <= length l ->
  exists a m1, run_call mk m (CCreate (Some l) n c) = Done 0 (WPtr a) m1
    /\ is_pline m1 a (PL (firstn (N.to_nat n) l) (negb (N.eqb c 0))) /\ length m <= a /\ kept m m1.
Proof. exact @create_wraps. Qed.
Print Assumptions C52_create.

Theorem C52_create_null :
  forall (T : Type) (N_ : Num T) (mk : list (aabb T) -> sindex T) (m : mem T) n c,
  exists a m1, run_call mk m (CCreate None n c) = Done 0 (WPtr a) m1
    /\ is_pline m1 a (PL [] (negb (N.eqb c 0))) /\ length m <= a /\ kept m m1.
Proof. exact @create_null_wraps. Qed.
Print Assumptions C52_create_null.

Theorem C52_clone :
  forall (T : Type) (N_ : Num T) (mk : list (aabb T) -> sindex T) (m : mem T) a p, is_pline m a p ->
  exists b m1, run_call mk m (CClone (Some a)) = Done 0 (WPtr b) m1 /\ is_pline m1 b p /\ length m <= b /\ kept m m1.
Proof. exact @clone_wraps. Qed.
Print Assumptions C52_clone.

(** Functions that only read. *)
Theorem C52_reads :
  forall (T : Type) (N_ : Num T) (mk : list (aabb T) -> sindex T) (m : mem T) a p, is_pline m a p ->
  run_call mk m (CGetClosed (Some a)) = Done 0 (WU32 (if is_closed p then 1%N else 0%N)) m
  /\ ((N.of_nat (length (vtx p)) < 4294967296)%N ->
        run_call mk m (CGetCount (Some a)) = Done 0 (WU32 (N.of_nat (length (vtx p)))) m)
  /\ (forall cap, length (vtx p) <= cap -> run_call mk m (CGetData (Some a) (Some cap)) = Done 0 (WVertexes (vtx p)) m)
  /\ (forall x, path_length p = Ret x -> run_call mk m (CPathLength (Some a)) = Done 0 (WF64 x) m)
  /\ (forall x, area p = Ret x -> run_call mk m (CArea (Some a)) = Done 0 (WF64 x) m)
  /\ (forall x y w, winding_number p (V2 x y) = Ret w -> run_call mk m (CWinding (Some a) x y) = Done 0 (WI32 w) m)
  /\ (forall b, extents p = Ret (Some b) -> run_call mk m (CExtents (Some a)) = Done 0 (WBox (Some b)) m)
  /\ (extents p = Ret None -> run_call mk m (CExtents (Some a)) = Done 2 WNothing m).
Proof. exact @measures_wrap. Qed.
Print Assumptions C52_reads.

(** Functions that change the polyline behind their handle. *)
Theorem C52_edits :
  forall (T : Type) (N_ : Num T) (mk : list (aabb T) -> sindex T) (m : mem T) a p, is_pline m a p ->
  (forall n, run_call mk m (CReserve (Some a) n) = Done 0 WNothing m)
  /\ (exists m1, run_call mk m (CClear (Some a)) = Done 0 WNothing m1 /\ changed_to m m1 a (PL [] (is_closed p)))
  /\ (forall x y b, exists m1, run_call mk m (CAdd (Some a) x y b) = Done 0 WNothing m1
        /\ changed_to m m1 a (PL (vtx p ++ [Vtx x y b]) (is_closed p)))
  /\ (forall q, invert_direction_mut p = Ret q ->
        exists m1, run_call mk m (CInvert (Some a)) = Done 0 WNothing m1 /\ changed_to m m1 a q)
  /\ (forall s q, scale_mut p s = Ret q ->
        exists m1, run_call mk m (CScale (Some a) s) = Done 0 WNothing m1 /\ changed_to m m1 a q)
  /\ (forall x y q, translate_mut p x y = Ret q ->
        exists m1, run_call mk m (CTranslate (Some a) x y) = Done 0 WNothing m1 /\ changed_to m m1 a q)
  /\ (forall eps r, remove_repeat_pos p eps = Ret r ->
        exists m1, run_call mk m (CRemoveRepeat (Some a) eps) = Done 0 WNothing m1
          /\ changed_to m m1 a (match r with Some q => q | None => p end))
  /\ (forall eps r, remove_redundant p eps = Ret r ->
        exists m1, run_call mk m (CRemoveRedundant (Some a) eps) = Done 0 WNothing m1
          /\ changed_to m m1 a (match r with Some q => q | None => p end)).
Proof. exact @edits_wrap. Qed.
Print Assumptions C52_edits.

Theorem C52_offset_default :
  forall (T : Type) (N_ : Num T) (mk : list (aabb T) -> sindex T) (m : mem T) a p d l, is_pline m a p ->
  parallel_offset_constructed mk p d (OO (nlit 1 5) (nlit 1 4) (nlit 1 4) false) = Ret l ->
  exists b m1, run_call mk m (COffset (Some a) d None) = Done 0 (WPtr b) m1 /\ holds m1 b l /\ length m <= b /\ kept m m1.
Proof. exact @offset_default_wraps. Qed.
Print Assumptions C52_offset_default.

Theorem C52_offset_options :
  forall (T : Type) (N_ : Num T) (mk : list (aabb T) -> sindex T) (m : mem T) a p d l h e1 e2 e3 f, is_pline m a p ->
  (h = None /\ parallel_offset_constructed mk p d (OO e1 e2 e3 (negb (N.eqb f 0))) = Ret l
   \/ exists i x, h = Some i /\ is_index m i x /\ parallel_offset mk p x d (OO e1 e2 e3 (negb (N.eqb f 0))) = Ret l) ->
  exists b m1, run_call mk m (COffset (Some a) d (Some (CO h e1 e2 e3 f))) = Done 0 (WPtr b) m1
    /\ holds m1 b l /\ length m <= b /\ kept m m1.
Proof. exact @offset_options_wraps. Qed.
Print Assumptions C52_offset_options.

(** Operations are numbered 0 to 3. *)
Theorem C52_boolean_default :
  forall (T : Type) (N_ : Num T) (mk : list (aabb T) -> sindex T) (m : mem T) a1 a2 p1 p2 op o r,
  is_pline m a1 p1 -> is_pline m a2 p2 ->
  nth_error [BOr; BAnd; BNot; BXor] (N.to_nat op) = Some o ->
  boolean_constructed mk p1 p2 o (nlit 1 5) = Ret r ->
  exists b1 b2 m1, run_call mk m (CBoolean (Some a1) (Some a2) op None) = Done 0 (WPtrs b1 b2) m1
    /\ holds m1 b1 (map brp_pline (br_pos r)) /\ holds m1 b2 (map brp_pline (br_neg r))
    /\ length m <= b1 /\ b1 < b2 /\ kept m m1.
Proof. exact @boolean_default_wraps. Qed.
Print Assumptions C52_boolean_default.

Theorem C52_boolean_options :
  forall (T : Type) (N_ : Num T) (mk : list (aabb T) -> sindex T) (m : mem T) a1 a2 p1 p2 op o h eps r,
  is_pline m a1 p1 -> is_pline m a2 p2 ->
  nth_error [BOr; BAnd; BNot; BXor] (N.to_nat op) = Some o ->
  (h = None /\ boolean_constructed mk p1 p2 o eps = Ret r
   \/ exists i x, h = Some i /\ is_index m i x /\ polyline_boolean mk p1 p2 o x eps = Ret r) ->
  exists b1 b2 m1, run_call mk m (CBoolean (Some a1) (Some a2) op (Some (CB h eps))) = Done 0 (WPtrs b1 b2) m1
    /\ holds m1 b1 (map brp_pline (br_pos r)) /\ holds m1 b2 (map brp_pline (br_neg r))
    /\ length m <= b1 /\ b1 < b2 /\ kept m m1.
Proof. exact @boolean_options_wraps. Qed.
Print Assumptions C52_boolean_options.

Theorem C52_index :
  forall (T : Type) (N_ : Num T) (mk : list (aabb T) -> sindex T) (m : mem T) a p boxes, is_pline m a p ->
  (create_approx_aabb_index p = Ret boxes ->
     exists b m1, run_call mk m (CApproxIndex (Some a)) = Done 0 (WPtr b) m1 /\ is_index m1 b (mk boxes) /\ length m <= b /\ kept m m1)
  /\ (create_aabb_index p = Ret boxes ->
     exists b m1, run_call mk m (CIndex (Some a)) = Done 0 (WPtr b) m1 /\ is_index m1 b (mk boxes) /\ length m <= b /\ kept m m1).
Proof. exact @index_wraps. Qed.
Print Assumptions C52_index.

(** The extents of an index: the smallest box around all boxes in it, or nothing (NaNs) without any. *)
Theorem C52_index_extents :
  forall mk (m : mem R) a x, is_index m a x ->
  exists r, run_call mk m (CIndexExtents (Some a)) = Done 0 (WBox r) m
    /\ match r with None => ix_boxes x = [] | Some b => around (ix_boxes x) b end.
Proof. exact index_extents. Qed.
Print Assumptions C52_index_extents.

Theorem C52_init :
  forall (T : Type) (N_ : Num T) (mk : list (aabb T) -> sindex T) (m : mem T),
  run_call mk m (COffsetInit false) = Done 0 (WOffsetOptions (CO None (nlit 1 5) (nlit 1 4) (nlit 1 4) 0%N)) m
  /\ run_call mk m (CBooleanInit false) = Done 0 (WBooleanOptions (CB None (nlit 1 5))) m.
Proof. exact @init_wraps. Qed.
Print Assumptions C52_init.

Theorem C52_free :
  forall (T : Type) (N_ : Num T) (mk : list (aabb T) -> sindex T) (m : mem T) a,
  ((exists p, is_pline m a p) -> exists m1, run_call mk m (CPlineFree (Some a)) = Done 0 WNothing m1 /\ only_freed m m1 a)
  /\ ((exists x, is_index m a x) -> exists m1, run_call mk m (CIndexFree (Some a)) = Done 0 WNothing m1 /\ only_freed m m1 a)
  /\ ((exists l, is_list m a l) -> exists m1, run_call mk m (CListFree (Some a)) = Done 0 WNothing m1 /\ only_freed m m1 a).
Proof. exact @free_wraps. Qed.
Print Assumptions C52_free.

Theorem C52_list_count :
  forall (T : Type) (N_ : Num T) (mk : list (aabb T) -> sindex T) (m : mem T) a l,
  is_list m a l -> (N.of_nat (length l) < 4294967296)%N ->
  run_call mk m (CListCount (Some a)) = Done 0 (WU32 (N.of_nat (length l))) m.
Proof. exact @list_count_wraps. Qed.
Print Assumptions C52_list_count.

Example C52_example : check [] [create_circle;
  (CGetClosed p0, 0%Z, WU32 1%N); (CGetCount p0, 0%Z, WU32 2%N); (CWinding p0 1%float 0%float, 0%Z, WI32 1%Z);
  (COffset p0 0.25%float None, 0%Z, WPtr 2); (CListCount (Some 2), 0%Z, WU32 1%N); (CListGet (Some 2) 0%N, 0%Z, WPtr 1);
  (CGetData (Some 1) (Some 2), 0%Z, WVertexes [Vtx 0.25 0 1; Vtx 1.75 0 1]%float);
  (CListFree (Some 2), 0%Z, WNothing); (CPlineFree p0, 0%Z, WNothing)] = true.
Proof. vm_compute. reflexivity. Qed.
