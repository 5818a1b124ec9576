(** Model of /repo/cavalier_contours_ffi/src/lib.rs, the C API.

    Memory is a list of objects; a handle is an address in it or null; a freed object leaves a hole, so
    addresses are never used again. Using a handle that does not refer to a live object of its type, or
    reading a buffer past its end, is undefined behaviour: [UB]. Out parameters must be valid to be
    written (documented for every function); what is written to them is the [output] of the call.
    Simplifications: a caught panic leaves memory as before the call (the only writes before a possible
    panic are those of the in-place operations, which do not panic half way in the model);
    [reserve] has no observable effect; allocation does not fail; C doubles are an abstract [T]. *)
From Coq Require Import ZArith Bool List Arith.
From Verif Require Import Num Res ModelMath ModelSeg ModelPline ModelRedundant ModelView ModelIndex ModelIntersects
  ModelBoolean ModelOffset.
Import ListNotations.

(** lib.rs:72, 215, 30: the objects behind handles *)
Inductive obj (T : Type) := OPline (p : pline T) | OList (l : list nat) | OIndex (ix : sindex T).
Arguments OPline {T} _.
Arguments OList {T} _.
Arguments OIndex {T} _.

Definition mem (T : Type) := list (option (obj T)).
Definition ptr := option nat.

(** lib.rs:77-83 *)
Record c_offset_options (T : Type) := CO {
  co_index : ptr; co_pos_equal_eps : T; co_slice_join_eps : T; co_offset_dist_eps : T; co_handle : N }.
Arguments CO {T} _ _ _ _ _.
Arguments co_index {T} _.
Arguments co_pos_equal_eps {T} _.
Arguments co_slice_join_eps {T} _.
Arguments co_offset_dist_eps {T} _.
Arguments co_handle {T} _.
(** lib.rs:143-146 *)
Record c_boolean_options (T : Type) := CB { cb_index : ptr; cb_pos_equal_eps : T }.
Arguments CB {T} _ _.
Arguments cb_index {T} _.
Arguments cb_pos_equal_eps {T} _.

(** What a call writes through its out parameters; [WBox None] stands for four NaNs. *)
Inductive output (T : Type) :=
| WNothing | WPtr (a : nat) | WPtrs (a b : nat) | WU32 (n : N) | WI32 (z : Z) | WF64 (x : T)
| WVertex (v : vertex T) | WVertexes (l : list (vertex T)) | WBox (b : option (aabb T))
| WOffsetOptions (o : c_offset_options T) | WBooleanOptions (o : c_boolean_options T).
Arguments WNothing {T}.
Arguments WPtr {T} _.
Arguments WPtrs {T} _ _.
Arguments WU32 {T} _.
Arguments WI32 {T} _.
Arguments WF64 {T} _.
Arguments WVertex {T} _.
Arguments WVertexes {T} _.
Arguments WBox {T} _.
Arguments WOffsetOptions {T} _.
Arguments WBooleanOptions {T} _.

(** Result of a call: return code (0 for functions returning nothing), output, memory. [Stuck]: the
    model ran out of fuel. *)
Inductive outcome (T : Type) := Done (code : Z) (out : output T) (m : mem T) | UB | Stuck.
Arguments Done {T} _ _ _.
Arguments UB {T}.
Arguments Stuck {T}.

Section Ffi.
Context {T : Type} {N_ : Num T}.
Variable mk : list (aabb T) -> sindex T.

Definition read_obj (m : mem T) (a : nat) : option (obj T) :=
  match nth_error m a with Some (Some o) => Some o | _ => None end.
Definition write_obj (m : mem T) (a : nat) (o : obj T) : mem T := list_set m a (Some o).
Definition free_obj (m : mem T) (a : nat) : mem T := list_set m a None.
(** [Box::into_raw(Box::new(o))] *)
Definition alloc (m : mem T) (o : obj T) : nat * mem T := (length m, m ++ [Some o]).

Definition ret (m : mem T) (code : Z) (w : output T) : outcome T := Done code w m.

(** lib.rs:16-23 *)
Definition catch (m : mem T) (r : res (outcome T)) : outcome T :=
  match r with
  | Ret o => o
  | Panic OutOfFuel => Stuck
  | Panic _ => Done (-1) WNothing m
  end.

(** [if pline.is_null() { return 1 }], then the polyline behind the handle *)
Definition with_pline (m : mem T) (h : ptr) (f : nat -> pline T -> outcome T) : outcome T :=
  match h with
  | None => Done 1 WNothing m
  | Some a => match read_obj m a with Some (OPline p) => f a p | _ => UB end
  end.
Definition with_list (m : mem T) (h : ptr) (f : nat -> list nat -> outcome T) : outcome T :=
  match h with
  | None => Done 1 WNothing m
  | Some a => match read_obj m a with Some (OList l) => f a l | _ => UB end
  end.
Definition with_index (m : mem T) (h : ptr) (f : nat -> sindex T -> outcome T) : outcome T :=
  match h with
  | None => Done 1 WNothing m
  | Some a => match read_obj m a with Some (OIndex x) => f a x | _ => UB end
  end.

(** [n as u32] and [u32::try_from(n).unwrap()] *)
Definition u32_max1 : N := 4294967296%N.
Definition as_u32 (n : nat) : N := (N.of_nat n mod u32_max1)%N.
Definition try_u32 (n : nat) : res N :=
  if (N.of_nat n <? u32_max1)%N then Ret (N.of_nat n) else Panic UnwrapNone.

(** [slice::from_raw_parts(data, n)] of a pointer to a buffer *)
Definition raw_parts {A} (data : option (list A)) (n : N) : option (list A) :=
  match data with
  | Some l => if (n <=? N.of_nat (length l))%N then Some (firstn (N.to_nat n) l) else None
  | None => None
  end.

(** lib.rs:103-113, 126-139 *)
Definition default_offset_options : c_offset_options T := CO None (nlit 1 5) (nlit 1 4) (nlit 1 4) 0%N.
Definition cavc_pline_parallel_offset_o_init (m : mem T) (options_is_null : bool) : outcome T :=
  if options_is_null then ret m 1 WNothing else ret m 0 (WOffsetOptions default_offset_options).
(** lib.rs:163-171, 183-195 *)
Definition default_boolean_options : c_boolean_options T := CB None (nlit 1 5).
Definition cavc_pline_boolean_o_init (m : mem T) (options_is_null : bool) : outcome T :=
  if options_is_null then ret m 1 WNothing else ret m 0 (WBooleanOptions default_boolean_options).

(** lib.rs:197-209 *)
Definition boolean_op_from_u32 (i : N) : option boolean_op :=
  if N.eqb i 0 then Some BOr else if N.eqb i 1 then Some BAnd else if N.eqb i 2 then Some BNot
  else if N.eqb i 3 then Some BXor else None.

(** lib.rs:217-229 *)
Fixpoint alloc_plines (m : mem T) (l : list (pline T)) : list nat * mem T :=
  match l with
  | [] => ([], m)
  | p :: t => let '(a, m1) := alloc m (OPline p) in
              let '(r, m2) := alloc_plines m1 t in (a :: r, m2)
  end.
Definition plinelist_from_internal (m : mem T) (l : list (pline T)) : nat * mem T :=
  let '(r, m1) := alloc_plines m l in alloc m1 (OList r).

(** lib.rs:244-270 *)
Definition cavc_pline_create (m : mem T) (vertexes : option (list (vertex T))) (n_vertexes closed : N)
  : outcome T :=
  let c := negb (N.eqb closed 0) in
  let new l := let '(a, m1) := alloc m (OPline (PL l c)) in ret m1 0 (WPtr a) in
  match vertexes with
  | Some _ =>
    if N.eqb n_vertexes 0 then new []
    else match raw_parts vertexes n_vertexes with Some l => new l | None => UB end
  | None => new []
  end.

(** lib.rs:280-287 *)
Definition cavc_pline_f (m : mem T) (h : ptr) : outcome T :=
  match h with
  | None => ret m 0 WNothing
  | Some a => match read_obj m a with Some (OPline _) => ret (free_obj m a) 0 WNothing | _ => UB end
  end.

(** lib.rs:300-313 *)
Definition cavc_pline_reserve (m : mem T) (h : ptr) (additional : N) : outcome T :=
  with_pline m h (fun _ _ => ret m 0 WNothing).

(** lib.rs:328-344 *)
Definition cavc_pline_clone (m : mem T) (h : ptr) : outcome T :=
  with_pline m h (fun _ p => let '(a, m1) := alloc m (OPline p) in ret m1 0 (WPtr a)).

(** lib.rs:360-375 *)
Definition cavc_pline_get_is_closed (m : mem T) (h : ptr) : outcome T :=
  with_pline m h (fun _ p => ret m 0 (WU32 (if is_closed p then 1%N else 0%N))).

(** lib.rs:389-401 *)
Definition cavc_pline_set_is_closed (m : mem T) (h : ptr) (closed : N) : outcome T :=
  with_pline m h (fun a p => ret (write_obj m a (OPline (set_is_closed p (negb (N.eqb closed 0))))) 0 WNothing).

(** lib.rs:417-433 *)
Definition cavc_pline_get_vertex_count (m : mem T) (h : ptr) : outcome T :=
  with_pline m h (fun _ p => catch m (let! c := try_u32 (vertex_count p) in Ret (ret m 0 (WU32 c)))).

(** lib.rs:453-469; the capacity of the caller's buffer, or null *)
Definition cavc_pline_get_vertex_data (m : mem T) (h : ptr) (capacity : option nat) : outcome T :=
  with_pline m h (fun _ p =>
    match capacity with
    | Some c => if (vertex_count p <=? c)%nat then ret m 0 (WVertexes (vtx p)) else UB
    | None => UB
    end).

(** lib.rs:487-509 *)
Definition cavc_pline_set_vertex_data (m : mem T) (h : ptr) (data : option (list (vertex T))) (n : N)
  : outcome T :=
  with_pline m h (fun a p =>
    match raw_parts data n with
    | Some l => ret (write_obj m a (OPline (extend_vertexes (clear p) l))) 0 WNothing
    | None => UB
    end).

(** lib.rs:522-534 *)
Definition cavc_pline_clear (m : mem T) (h : ptr) : outcome T :=
  with_pline m h (fun a p => ret (write_obj m a (OPline (clear p))) 0 WNothing).

(** lib.rs:546-558 *)
Definition cavc_pline_add (m : mem T) (h : ptr) (x y b : T) : outcome T :=
  with_pline m h (fun a p => ret (write_obj m a (OPline (add_vertex p (Vtx x y b)))) 0 WNothing).

(** lib.rs:575-598 *)
Definition cavc_pline_get_vertex (m : mem T) (h : ptr) (position : N) : outcome T :=
  with_pline m h (fun _ p =>
    if (as_u32 (vertex_count p) <=? position)%N then ret m 2 WNothing
    else catch m (let! v := at_ p (N.to_nat position) in Ret (ret m 0 (WVertex v)))).

(** lib.rs:614-636 *)
Definition cavc_pline_set_vertex (m : mem T) (h : ptr) (position : N) (v : vertex T) : outcome T :=
  with_pline m h (fun a p =>
    if (as_u32 (vertex_count p) <=? position)%N then ret m 2 WNothing
    else catch m (let! p' := set_vertex p (N.to_nat position) v in
                  Ret (ret (write_obj m a (OPline p')) 0 WNothing))).

(** lib.rs:651-668 *)
Definition cavc_pline_remove (m : mem T) (h : ptr) (position : N) : outcome T :=
  with_pline m h (fun a p =>
    if (N.of_nat (vertex_count p) <=? position)%N then ret m 2 WNothing
    else catch m (let! vp := remove p (N.to_nat position) in
                  Ret (ret (write_obj m a (OPline (snd vp))) 0 WNothing))).

(** lib.rs:684-697, 713-723, 739-754 *)
Definition cavc_pline_eval_path_length (m : mem T) (h : ptr) : outcome T :=
  with_pline m h (fun _ p => catch m (let! x := path_length p in Ret (ret m 0 (WF64 x)))).
Definition cavc_pline_eval_area (m : mem T) (h : ptr) : outcome T :=
  with_pline m h (fun _ p => catch m (let! x := area p in Ret (ret m 0 (WF64 x)))).
Definition cavc_pline_eval_wn (m : mem T) (h : ptr) (x y : T) : outcome T :=
  with_pline m h (fun _ p => catch m (let! w := winding_number p (V2 x y) in Ret (ret m 0 (WI32 w)))).

(** lib.rs:767-778, 791-802, 815-830 *)
Definition in_place (m : mem T) (h : ptr) (f : pline T -> res (pline T)) : outcome T :=
  with_pline m h (fun a p => catch m (let! p' := f p in Ret (ret (write_obj m a (OPline p')) 0 WNothing))).
Definition cavc_pline_invert_direction (m : mem T) (h : ptr) : outcome T := in_place m h invert_direction_mut.
Definition cavc_pline_scale (m : mem T) (h : ptr) (s : T) : outcome T := in_place m h (fun p => scale_mut p s).
Definition cavc_pline_translate (m : mem T) (h : ptr) (x y : T) : outcome T :=
  in_place m h (fun p => translate_mut p x y).

(** lib.rs:843-867, 880-904 *)
Definition or_unchanged (p : pline T) (r : res (option (pline T))) : res (pline T) :=
  let! o := r in Ret (match o with Some x => x | None => p end).
Definition cavc_pline_remove_repeat_pos (m : mem T) (h : ptr) (eps : T) : outcome T :=
  in_place m h (fun p => or_unchanged p (remove_repeat_pos p eps)).
Definition cavc_pline_remove_redundant (m : mem T) (h : ptr) (eps : T) : outcome T :=
  in_place m h (fun p => or_unchanged p (remove_redundant p eps)).

(** lib.rs:912-937 *)
Definition cavc_pline_eval_extents (m : mem T) (h : ptr) : outcome T :=
  with_pline m h (fun _ p => catch m (let! o := extents p in
    Ret (match o with Some b => ret m 0 (WBox (Some b)) | None => ret m 2 WNothing end))).

(** the index behind the pointer in the options; [None]: undefined behaviour *)
Definition option_index (m : mem T) (h : ptr) : option (option (sindex T)) :=
  match h with
  | None => Some None
  | Some a => match read_obj m a with Some (OIndex x) => Some (Some x) | _ => None end
  end.

(** lib.rs:86-100, 951-977 with traits.rs: parallel_offset(_opt) *)
Definition cavc_pline_parallel_offset (m : mem T) (h : ptr) (offset : T) (o : option (c_offset_options T))
  : outcome T :=
  with_pline m h (fun _ p =>
    let c := match o with Some c => c | None => default_offset_options end in
    match option_index m (co_index c) with
    | None => UB
    | Some ix =>
      let opts := OO (co_pos_equal_eps c) (co_slice_join_eps c) (co_offset_dist_eps c)
                     (negb (N.eqb (co_handle c) 0)) in
      catch m (let! l := match ix with
                         | Some x => parallel_offset mk p x offset opts
                         | None => parallel_offset_constructed mk p offset opts
                         end in
               let '(a, m1) := plinelist_from_internal m l in Ret (ret m1 0 (WPtr a)))
    end).

(** lib.rs:149-160, 998-1041 with traits.rs: boolean(_opt) *)
Definition cavc_pline_boolean (m : mem T) (h1 h2 : ptr) (operation : N) (o : option (c_boolean_options T))
  : outcome T :=
  match h1, h2 with
  | Some a1, Some a2 =>
    match boolean_op_from_u32 operation with
    | None => ret m 2 WNothing
    | Some op =>
      match read_obj m a1, read_obj m a2 with
      | Some (OPline p1), Some (OPline p2) =>
        let c := match o with Some c => c | None => default_boolean_options end in
        match option_index m (cb_index c) with
        | None => UB
        | Some ix =>
          catch m (let! r := match ix with
                             | Some x => polyline_boolean mk p1 p2 op x (cb_pos_equal_eps c)
                             | None => boolean_constructed mk p1 p2 op (cb_pos_equal_eps c)
                             end in
                   let '(a, m1) := plinelist_from_internal m (map brp_pline (br_pos r)) in
                   let '(b, m2) := plinelist_from_internal m1 (map brp_pline (br_neg r)) in
                   Ret (ret m2 0 (WPtrs a b)))
        end
      | _, _ => UB
      end
    end
  | _, _ => ret m 1 WNothing
  end.

(** lib.rs:1055-1073, 1087-1105 *)
Definition cavc_pline_create_approx_aabbindex (m : mem T) (h : ptr) : outcome T :=
  with_pline m h (fun _ p => catch m (let! boxes := create_approx_aabb_index p in
    let '(a, m1) := alloc m (OIndex (mk boxes)) in Ret (ret m1 0 (WPtr a)))).
Definition cavc_pline_create_aabbindex (m : mem T) (h : ptr) : outcome T :=
  with_pline m h (fun _ p => catch m (let! boxes := create_aabb_index p in
    let '(a, m1) := alloc m (OIndex (mk boxes)) in Ret (ret m1 0 (WPtr a)))).

(** lib.rs:1115-1119 *)
Definition cavc_aabbindex_f (m : mem T) (h : ptr) : outcome T :=
  match h with
  | None => ret m 0 WNothing
  | Some a => match read_obj m a with Some (OIndex _) => ret (free_obj m a) 0 WNothing | _ => UB end
  end.

(** StaticAABB2DIndex::bounds: the box around all boxes *)
Definition join_boxes (a b : aabb T) : aabb T :=
  AABB (if nltb (bmin_x b) (bmin_x a) then bmin_x b else bmin_x a)
       (if nltb (bmin_y b) (bmin_y a) then bmin_y b else bmin_y a)
       (if nltb (bmax_x a) (bmax_x b) then bmax_x b else bmax_x a)
       (if nltb (bmax_y a) (bmax_y b) then bmax_y b else bmax_y a).
Definition index_bounds (ix : sindex T) : option (aabb T) :=
  match ix_boxes ix with [] => None | b :: t => Some (fold_left join_boxes t b) end.

(** lib.rs:1131-1167 *)
Definition cavc_aabbindex_get_extents (m : mem T) (h : ptr) : outcome T :=
  with_index m h (fun _ ix => ret m 0 (WBox (index_bounds ix))).

(** lib.rs:1177-1181 *)
Definition cavc_plinelist_f (m : mem T) (h : ptr) : outcome T :=
  match h with
  | None => ret m 0 WNothing
  | Some a => match read_obj m a with Some (OList _) => ret (free_obj m a) 0 WNothing | _ => UB end
  end.

(** lib.rs:1195-1211 *)
Definition cavc_plinelist_get_count (m : mem T) (h : ptr) : outcome T :=
  with_list m h (fun _ l => catch m (let! c := try_u32 (length l) in Ret (ret m 0 (WU32 c)))).

(** lib.rs:1229-1254 *)
Definition cavc_plinelist_get_pline (m : mem T) (h : ptr) (position : N) : outcome T :=
  with_list m h (fun _ l =>
    if (N.of_nat (length l) <=? position)%N then ret m 2 WNothing
    else match nth_error l (N.to_nat position) with
         | Some a => ret m 0 (WPtr a)
         | None => ret m 2 WNothing
         end).

(** lib.rs:1270-1291 *)
Definition cavc_plinelist_pop (m : mem T) (h : ptr) : outcome T :=
  with_list m h (fun a l =>
    match rev l with
    | [] => ret m 2 WNothing
    | x :: r => ret (write_obj m a (OList (rev r))) 0 (WPtr x)
    end).

(** lib.rs:1307-1327 *)
Definition cavc_plinelist_take (m : mem T) (h : ptr) (position : N) : outcome T :=
  with_list m h (fun a l =>
    if (N.of_nat (length l) <=? position)%N then ret m 2 WNothing
    else match nth_error l (N.to_nat position) with
         | Some x => ret (write_obj m a (OList (list_remove l (N.to_nat position)))) 0 (WPtr x)
         | None => ret m 2 WNothing
         end).

(** A call of the C API. *)
Inductive call :=
| COffsetInit (is_null : bool) | CBooleanInit (is_null : bool)
| CCreate (vs : option (list (vertex T))) (n closed : N) | CPlineFree (h : ptr) | CReserve (h : ptr) (n : N)
| CClone (h : ptr) | CGetClosed (h : ptr) | CSetClosed (h : ptr) (c : N) | CGetCount (h : ptr)
| CGetData (h : ptr) (cap : option nat) | CSetData (h : ptr) (d : option (list (vertex T))) (n : N)
| CClear (h : ptr) | CAdd (h : ptr) (x y b : T) | CGetVertex (h : ptr) (i : N)
| CSetVertex (h : ptr) (i : N) (v : vertex T) | CRemove (h : ptr) (i : N)
| CPathLength (h : ptr) | CArea (h : ptr) | CWinding (h : ptr) (x y : T)
| CInvert (h : ptr) | CScale (h : ptr) (s : T) | CTranslate (h : ptr) (x y : T)
| CRemoveRepeat (h : ptr) (eps : T) | CRemoveRedundant (h : ptr) (eps : T) | CExtents (h : ptr)
| COffset (h : ptr) (d : T) (o : option (c_offset_options T))
| CBoolean (h1 h2 : ptr) (op : N) (o : option (c_boolean_options T))
| CApproxIndex (h : ptr) | CIndex (h : ptr) | CIndexFree (h : ptr) | CIndexExtents (h : ptr)
| CListFree (h : ptr) | CListCount (h : ptr) | CListGet (h : ptr) (i : N) | CListPop (h : ptr)
| CListTake (h : ptr) (i : N).

Definition run_call (m : mem T) (c : call) : outcome T :=
  match c with
  | COffsetInit b => cavc_pline_parallel_offset_o_init m b
  | CBooleanInit b => cavc_pline_boolean_o_init m b
  | CCreate vs n c => cavc_pline_create m vs n c
  | CPlineFree h => cavc_pline_f m h
  | CReserve h n => cavc_pline_reserve m h n
  | CClone h => cavc_pline_clone m h
  | CGetClosed h => cavc_pline_get_is_closed m h
  | CSetClosed h c => cavc_pline_set_is_closed m h c
  | CGetCount h => cavc_pline_get_vertex_count m h
  | CGetData h cap => cavc_pline_get_vertex_data m h cap
  | CSetData h d n => cavc_pline_set_vertex_data m h d n
  | CClear h => cavc_pline_clear m h
  | CAdd h x y b => cavc_pline_add m h x y b
  | CGetVertex h i => cavc_pline_get_vertex m h i
  | CSetVertex h i v => cavc_pline_set_vertex m h i v
  | CRemove h i => cavc_pline_remove m h i
  | CPathLength h => cavc_pline_eval_path_length m h
  | CArea h => cavc_pline_eval_area m h
  | CWinding h x y => cavc_pline_eval_wn m h x y
  | CInvert h => cavc_pline_invert_direction m h
  | CScale h s => cavc_pline_scale m h s
  | CTranslate h x y => cavc_pline_translate m h x y
  | CRemoveRepeat h eps => cavc_pline_remove_repeat_pos m h eps
  | CRemoveRedundant h eps => cavc_pline_remove_redundant m h eps
  | CExtents h => cavc_pline_eval_extents m h
  | COffset h d o => cavc_pline_parallel_offset m h d o
  | CBoolean h1 h2 op o => cavc_pline_boolean m h1 h2 op o
  | CApproxIndex h => cavc_pline_create_approx_aabbindex m h
  | CIndex h => cavc_pline_create_aabbindex m h
  | CIndexFree h => cavc_aabbindex_f m h
  | CIndexExtents h => cavc_aabbindex_get_extents m h
  | CListFree h => cavc_plinelist_f m h
  | CListCount h => cavc_plinelist_get_count m h
  | CListGet h i => cavc_plinelist_get_pline m h i
  | CListPop h => cavc_plinelist_pop m h
  | CListTake h i => cavc_plinelist_take m h i
  end.

End Ffi.
Arguments call T : clear implicits.
