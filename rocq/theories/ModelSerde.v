(** Model of the serde implementations (feature "serde").

    serde and the formats are external. A format is modelled as a way to put the calls of
    [Serializer] on a token stream and to answer the calls of [Deserializer] from one:
    - [Delimited] closes every compound value and stores no element counts (JSON);
    - [Prefixed] stores the announced element count of every compound value (CBOR, MessagePack) and
      refuses a count other than the expected one;
    - [Bare] stores only the elements of tuples and structs (bincode), sequences with their length.
    Derived implementations write the fields in declaration order under their renamed keys; reading
    back is modelled for this order only. *)
From Coq Require Import String List Arith Bool.
From Verif Require Import Num ModelMath ModelSeg ModelPline ModelView ModelIntersects ModelBoolean.
Import ListNotations.

Inductive format := Delimited | Prefixed | Bare.

Inductive tok (T : Type) :=
| TOpen | TClose | TCount (n : nat) | TKey (k : string) | TNum (x : T) | TNat (n : nat) | TBool (b : bool).
Arguments TOpen {T}.
Arguments TClose {T}.
Arguments TCount {T} _.
Arguments TKey {T} _.
Arguments TNum {T} _.
Arguments TNat {T} _.
Arguments TBool {T} _.

Section Serde.
Context {T : Type}.
Notation stream := (list (tok T)).
Notation reader A := (stream -> option (A * stream)).

(** [serialize_tuple(n)], elements, [end] *)
Definition ser_tuple (f : format) (n : nat) (elements : list stream) : stream :=
  match f with
  | Delimited => TOpen :: concat elements ++ [TClose]
  | Prefixed => TCount n :: concat elements
  | Bare => concat elements
  end.
(** [serialize_seq(Some(n))], elements, [end] *)
Definition ser_seq (f : format) (n : nat) (elements : list stream) : stream :=
  match f with
  | Delimited => TOpen :: concat elements ++ [TClose]
  | _ => TCount n :: concat elements
  end.
(** [serialize_struct(name, n)], fields, [end] *)
Definition ser_struct (f : format) (n : nat) (fields : list (string * stream)) : stream :=
  match f with
  | Bare => concat (map snd fields)
  | _ => ser_tuple f n (map (fun kv => TKey (fst kv) :: snd kv) fields)
  end.

Definition ser_num (x : T) : stream := [TNum x].
Definition ser_nat (n : nat) : stream := [TNat n].
Definition ser_bool (b : bool) : stream := [TBool b].

Definition de_num : reader T := fun s => match s with TNum x :: r => Some (x, r) | _ => None end.
Definition de_nat : reader nat := fun s => match s with TNat n :: r => Some (n, r) | _ => None end.
Definition de_bool : reader bool := fun s => match s with TBool b :: r => Some (b, r) | _ => None end.
Definition de_key (k : string) : reader unit :=
  fun s => match s with TKey k' :: r => if String.eqb k k' then Some (tt, r) else None | _ => None end.

Definition bind_r {A B} (m : reader A) (f : A -> reader B) : reader B :=
  fun s => match m s with Some (a, r) => f a r | None => None end.
Notation "x <- m ;; f" := (bind_r m (fun x => f)) (at level 61, m at next level, right associativity).
Definition ret_r {A} (a : A) : reader A := fun s => Some (a, s).

(** Opening and closing a compound value of an expected number of elements. *)
Definition de_open (f : format) (n : nat) : reader unit :=
  fun s => match f, s with
           | Delimited, TOpen :: r => Some (tt, r)
           | Prefixed, TCount k :: r => if Nat.eqb k n then Some (tt, r) else None
           | Bare, _ => Some (tt, s)
           | _, _ => None
           end.
Definition de_close (f : format) : reader unit :=
  fun s => match f, s with
           | Delimited, TClose :: r => Some (tt, r)
           | Delimited, _ => None
           | _, _ => Some (tt, s)
           end.

(** A sequence of unknown length: up to its end mark, or its count. *)
Fixpoint de_count {A} (n : nat) (rd : reader A) : reader (list A) :=
  match n with
  | O => ret_r []
  | S m => x <- rd ;; l <- de_count m rd ;; ret_r (x :: l)
  end.
Fixpoint de_until {A} (fuel : nat) (rd : reader A) : reader (list A) :=
  fun s => match s with
           | TClose :: r => Some ([], r)
           | _ => match fuel with
                  | O => None
                  | S m => (x <- rd ;; l <- de_until m rd ;; ret_r (x :: l)) s
                  end
           end.
Definition de_seq {A} (f : format) (rd : reader A) : reader (list A) :=
  fun s => match f, s with
           | Delimited, TOpen :: r => de_until (length r) rd r
           | Delimited, _ => None
           | _, TCount n :: r => de_count n rd r
           | _, _ => None
           end.

Definition de_field {A} (f : format) (k : string) (rd : reader A) : reader A :=
  match f with Bare => rd | _ => _ <- de_key k ;; rd end.

(** vector2.rs:119-133 *)
Definition ser_vec2 (f : format) (v : vec2 T) : stream :=
  ser_tuple f 3 [ser_num (vx v); ser_num (vy v)].
(** vector2.rs:135-146; [[T; 2]] is read as a tuple of 2 *)
Definition de_vec2 (f : format) : reader (vec2 T) :=
  _ <- de_open f 2 ;; x <- de_num ;; y <- de_num ;; _ <- de_close f ;; ret_r (V2 x y).

(** pline_vertex.rs:39-53 *)
Definition ser_vertex (f : format) (v : vertex T) : stream :=
  ser_tuple f 3 [ser_num (px v); ser_num (py v); ser_num (pbulge v)].
(** pline_vertex.rs:55-66 *)
Definition de_vertex (f : format) : reader (vertex T) :=
  _ <- de_open f 3 ;; x <- de_num ;; y <- de_num ;; b <- de_num ;; _ <- de_close f ;; ret_r (Vtx x y b).

(** pline.rs:11-23 (derived) *)
Definition ser_pline (f : format) (p : pline T) : stream :=
  ser_struct f 2 [("vertexes"%string, ser_seq f (length (vtx p)) (map (ser_vertex f) (vtx p)));
                  ("isClosed"%string, ser_bool (is_closed p))].
Definition de_pline (f : format) : reader (pline T) :=
  _ <- de_open f 2 ;; v <- de_field f "vertexes" (de_seq f (de_vertex f)) ;;
  c <- de_field f "isClosed" de_bool ;; _ <- de_close f ;; ret_r (PL v c).

(** pline_view.rs:76-80, 138-153 (derived) *)
Definition ser_view_data (f : format) (d : view_data T) : stream :=
  ser_struct f 6 [("startIndex"%string, ser_nat (vd_start_index d));
                  ("endIndexOffset"%string, ser_nat (vd_end_index_offset d));
                  ("updatedStart"%string, ser_vertex f (vd_updated_start d));
                  ("updatedEndBulge"%string, ser_num (vd_updated_end_bulge d));
                  ("endPoint"%string, ser_vec2 f (vd_end_point d));
                  ("invertedDirection"%string, ser_bool (vd_inverted d))].
Definition de_view_data (f : format) : reader (view_data T) :=
  _ <- de_open f 6 ;; a <- de_field f "startIndex" de_nat ;; b <- de_field f "endIndexOffset" de_nat ;;
  u <- de_field f "updatedStart" (de_vertex f) ;; e <- de_field f "updatedEndBulge" de_num ;;
  q <- de_field f "endPoint" (de_vec2 f) ;; i <- de_field f "invertedDirection" de_bool ;;
  _ <- de_close f ;; ret_r (VD a b u e q i).

(** pline_types.rs:510-527 (derived) *)
Definition ser_boolean_slice (f : format) (s : boolean_slice T) : stream :=
  ser_struct f 3 [("viewData"%string, ser_view_data f (bs_view s));
                  ("sourceIsPline1"%string, ser_bool (bs_source_is_pline1 s));
                  ("overlapping"%string, ser_bool (bs_overlapping s))].
Definition de_boolean_slice (f : format) : reader (boolean_slice T) :=
  _ <- de_open f 3 ;; d <- de_field f "viewData" (de_view_data f) ;;
  a <- de_field f "sourceIsPline1" de_bool ;; b <- de_field f "overlapping" de_bool ;;
  _ <- de_close f ;; ret_r (BS d a b).

(** pline_types.rs:107-126 (derived) *)
Definition ser_result_pline (f : format) (r : boolean_result_pline T) : stream :=
  ser_struct f 2 [("pline"%string, ser_pline f (brp_pline r));
                  ("subslices"%string, ser_seq f (length (brp_subslices r))
                                               (map (ser_boolean_slice f) (brp_subslices r)))].
Definition de_result_pline (f : format) : reader (boolean_result_pline T) :=
  _ <- de_open f 2 ;; p <- de_field f "pline" (de_pline f) ;;
  s <- de_field f "subslices" (de_seq f (de_boolean_slice f)) ;; _ <- de_close f ;; ret_r (BRP p s).

End Serde.
