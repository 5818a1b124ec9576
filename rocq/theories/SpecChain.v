(** What stitching slices at their ends should give (C35, C37). *)
From Coq Require Import List Bool Arith Permutation.
From Verif Require Import Num Res ModelMath ModelSeg ModelPline ModelView Spec SpecPline SpecView SpecStitch.
Import ListNotations.

Section SpecChain.
Context {T : Type} {N : Num T}.
Local Open Scope num_scope.

(** The squares of half width [eps] about the points meet. *)
Definition reaches (eps : T) (q r : vec2 T) : bool :=
  negb (vx q + eps <? vx r - eps) && negb (vy q + eps <? vy r - eps)
  && negb (vx q - eps >? vx r + eps) && negb (vy q - eps >? vy r + eps).

(** The slice refers to vertexes of the polyline, in its direction. *)
Definition view_fits (p : pline T) (d : view_data T) : Prop :=
  vd_start_index d < vertex_count p /\ vd_end_index_offset d <= vertex_count p /\ vd_inverted d = false.

(** The vertexes of a slice. *)
Definition view_path_of (p : pline T) (d : view_data T) : list (vertex T) :=
  spec_view (vd_updated_start d) (spec_following (vtx p) (vd_start_index d) (vd_end_index_offset d))
            (vd_updated_end_bulge d) (vd_end_point d).

(** Slices are numbers: [path i l] says that slice [i] runs along [l], [next i j] that [j] begins near the end
    of [i], [choice first cur avail j] that [j] is the one of [avail] to follow [cur] in a chain that begins with
    [first]. A slice replaces the last vertex of the chain if [replace]. *)
Section Chained.
Context (path : nat -> list (vertex T) -> Prop) (next : nat -> nat -> Prop)
        (choice : nat -> nat -> list nat -> nat -> Prop) (replace : bool) (eps : T).

(** The slices that may follow [cur], when those in [used] have been used. *)
Definition candidates (used : list nat) (cur : nat) (avail : list nat) : Prop :=
  NoDup avail /\ forall i, In i avail <-> (next cur i /\ ~ In i used).

(** [K] is the path of the slices [chain], which begins with [first], put together, leaving out repeated
    positions. [used] are the slices used before this chain. *)
Inductive chained (used : list nat) (first : nat) : list nat -> list (vertex T) -> Prop :=
| chained_one l rs : path first l -> is_runs (close_by eps) l rs -> chained used first [first] (flat_map run_rep rs)
| chained_more c cur K v avail b l rs : chained used first (c ++ [cur]) (K ++ [v]) ->
    candidates (used ++ c ++ [cur]) cur avail -> choice first cur avail b -> path b l ->
    is_runs (close_by eps) ((if replace then K else K ++ [v]) ++ l) rs ->
    chained used first ((c ++ [cur]) ++ [b]) (flat_map run_rep rs).

(** The chains begin with the slices in order as far as not yet used, and end when nothing follows. *)
Inductive all_chained : list (list nat) -> list (list (vertex T)) -> Prop :=
| all_chained_nil : all_chained [] []
| all_chained_more chains Ks first c cur K : all_chained chains Ks ->
    ~ In first (concat chains) -> (forall j, (j < first)%nat -> In j (concat chains)) ->
    chained (concat chains) first (c ++ [cur]) K -> candidates (concat chains ++ c ++ [cur]) cur [] ->
    all_chained (chains ++ [c ++ [cur]]) (Ks ++ [K]).
End Chained.

(** For offset polylines: how far [b] begins after [a], going round after segment [last]. *)
Definition ahead (last : nat) (a b : view_data T) : nat :=
  if (vd_start_index a <=? vd_start_index b)%nat then (vd_start_index b - vd_start_index a)%nat
  else (last - vd_start_index a + vd_start_index b)%nat.

(** The first ahead; of several at the same distance one that does not end where the chain began. *)
Definition nearest_ahead (slices : list (view_data T)) (last : nat) (eps : T) (first cur : nat) (avail : list nat) (b : nat) : Prop :=
  In b avail
  /\ forall i f c x y, In i avail -> nth_error slices first = Some f -> nth_error slices cur = Some c ->
       nth_error slices b = Some x -> nth_error slices i = Some y ->
       ahead last c x < ahead last c y
       \/ (ahead last c x = ahead last c y
           /\ (v2fuzzy_eq_eps (vd_end_point x) (pos (vd_updated_start f)) eps = true ->
               v2fuzzy_eq_eps (vd_end_point y) (pos (vd_updated_start f)) eps = true)).

Definition path_at (p : pline T) (slices : list (view_data T)) (i : nat) (l : list (vertex T)) : Prop :=
  exists d, nth_error slices i = Some d /\ l = view_path_of p d.
Definition next_at (slices : list (view_data T)) (eps : T) (i j : nat) : Prop :=
  exists a b, nth_error slices i = Some a /\ nth_error slices j = Some b
              /\ reaches eps (vd_end_point a) (pos (vd_updated_start b)) = true.

(** The result of a chain: closed if the ends are near each other, when the last vertex is not kept. *)
Definition close_path (closed : bool) (eps : T) (K : list (vertex T)) : pline T :=
  match hd_error K, hd_error (rev K) with
  | Some a, Some z => if closed && v2fuzzy_eq_eps (pos a) (pos z) eps then PL (removelast K) true else PL K false
  | _, _ => PL K false
  end.
End SpecChain.

Section SpecOffsetStitch.
Context {T : Type} {N : Num T}.

(** Chains of one vertex are dropped, except that a single slice always gives a polyline. *)
Definition offset_result (closed : bool) (eps : T) (K : list (vertex T)) : list (pline T) :=
  if 2 <=? length K then [close_path closed eps K] else [].
Definition offset_results (slices : list (view_data T)) (closed : bool) (eps join_eps : T) (Ks : list (list (vertex T))) : list (pline T) :=
  match slices with
  | [_] => map (close_path closed join_eps) Ks
  | _ => flat_map (offset_result closed eps) Ks
  end.
End SpecOffsetStitch.
