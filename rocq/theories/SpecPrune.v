(** Which slices a boolean operation should keep (C32). *)
From Coq Require Import List Bool Arith ZArith Permutation Sorted.
From Verif Require Import Num Res ModelMath ModelSeg ModelPline ModelView ModelIntersects ModelBoolean.
From Verif Require Import Spec SpecView SpecStitch.
Import ListNotations.

Section SpecPrune.
Context {T : Type} {N : Num T}.

(** A point near the end of its segment belongs to the next segment. *)
Definition located (p : pline T) (eps : T) (i : nat) (q : vec2 T) : nat :=
  let j := (i + 1) mod vertex_count p in
  match nth_error (vtx p) j with
  | Some v => if v2fuzzy_eq_eps q (pos v) eps then j else i
  | None => i
  end.

(** The points at which a polyline is to be cut, with their segments: the intersection points and the ends
    of overlaps. The flag says that an overlap starts there in the direction of the polyline. *)
Definition cut_points (p : pline T) (eps : T) (second : bool) (bs : list (basic_intr T)) (os : list (overlapping_slice T))
  : list (nat * slice_point T) :=
  map (fun b => (if second then bi_index2 b else bi_index1 b, SP (bi_point b) false)) bs
  ++ flat_map (fun s =>
       let which (ij : nat * nat) := if second then snd ij else fst ij in
       let starts := second || negb (os_opposing s) in
       let sp := pos (vd_updated_start (os_view s)) in
       let ep := vd_end_point (os_view s) in
       [(located p eps (which (os_start_indexes s)) sp, SP sp starts);
        (located p eps (which (os_end_indexes s)) ep, SP ep (negb starts))]) os.

(** The cut points by segment, in order of the segments. *)
Definition grouped (cuts : list (nat * slice_point T)) (m : list (nat * list (slice_point T))) : Prop :=
  StronglySorted lt (map fst m)
  /\ (forall k l, In (k, l) m -> l <> [] /\ Permutation l (map snd (filter (fun c => Nat.eqb (fst c) k) cuts)))
  /\ (forall k sp, In (k, sp) cuts -> exists l, In (k, l) m).

(** A slice with the point at which it is tested: the middle of its first segment. *)
Definition candidate (p1 p2 : pline T) (second : bool) (c : boolean_slice T * vec2 T) : Prop :=
  let s := fst c in
  slice_fits p1 p2 s /\ bs_source_is_pline1 s = negb second /\ bs_overlapping s = false /\ vd_inverted (bs_view s) = false
  /\ exists w, snd c = seg_midpoint (vd_updated_start (bs_view s)) w
     /\ (pos w = vd_end_point (bs_view s)
         \/ nth_error (vtx (slice_source p1 p2 s)) ((vd_start_index (bs_view s) + 1) mod vertex_count (slice_source p1 p2 s)) = Some w).
End SpecPrune.

Section SpecOperation.
Context {T : Type} {N : Num T}.
Local Open Scope nat_scope.

(** Whether the winding number of [p] around [q] is not zero. *)
Definition inside (p : pline T) (q : vec2 T) : bool :=
  match winding_number p q with Ret w => negb (Z.eqb w 0) | Panic _ => false end.

(** The boundaries traced by an operation: whether the slices of the first polyline inside the second are
    wanted or those outside, and whether the slices of the second inside the first are wanted. *)
Definition wanted (op : boolean_op) : list (bool * bool) :=
  match op with
  | BOr => [(false, false)]
  | BAnd => [(true, true)]
  | BNot => [(false, true)]
  | BXor => [(false, true); (true, false)]
  end.

(** Whether the slices of the first polyline are followed backwards: to run with those of the second for a
    union or intersection, against them for a difference. *)
Definition backward (op : boolean_op) (o1 o2 : orientation_t) : bool :=
  let same := match o1, o2 with
              | Open, Open | Clockwise, Clockwise | CounterClockwise, CounterClockwise => true
              | _, _ => false end in
  match op with BOr | BAnd => negb same | BNot | BXor => same end.

Definition turned (b : bool) (s : boolean_slice T) : boolean_slice T :=
  let d := bs_view s in
  BS (VD (vd_start_index d) (vd_end_index_offset d) (vd_updated_start d) (vd_updated_end_bulge d) (vd_end_point d)
         (b || vd_inverted d)) (bs_source_is_pline1 s) (bs_overlapping s).

(** An overlap as a slice of the second polyline. *)
Definition overlap_slice (inverted : bool) (s : overlapping_slice T) : boolean_slice T :=
  let d := os_view s in
  BS (VD (snd (os_start_indexes s)) (vd_end_index_offset d) (vd_updated_start d) (vd_updated_end_bulge d) (vd_end_point d) inverted) false true.

(** The slices to stitch for one boundary, given the slices kept of each polyline. *)
Definition boundary (back : bool) (k1 k2 : list (boolean_slice T)) (os : list (overlapping_slice T)) : pruned_slices T :=
  PS (map (turned back) k1 ++ k2 ++ map (fun s => overlap_slice (os_opposing s) s) os ++ map (overlap_slice false) os)
     (length k1) (length k1 + length k2) (length k1 + length k2 + length os).

(** The result: the loops to add and to subtract. For a union the loops that run against the second polyline
    are holes. *)
Definition sorted_out (op : boolean_op) (o2 : orientation_t) (loops : list (boolean_result_pline T)) : boolean_result T :=
  let hole r := match op with
                | BOr => negb (match orientation (brp_pline r), o2 with
                               | Ret Open, Open | Ret Clockwise, Clockwise | Ret CounterClockwise, CounterClockwise => true
                               | _, _ => false end)
                | _ => false end in
  BR (filter (fun r => negb (hole r)) loops) (filter hole loops) Intersected.

(** One boundary, traced along the slices of [cs1] and [cs2] with the test points as wanted and along the
    overlaps. *)
Definition traced (p1 p2 : pline T) (op : boolean_op) (o1 o2 : orientation_t) (eps : T)
    (cs1 cs2 : list (boolean_slice T * vec2 T)) (os : list (overlapping_slice T)) (w : bool * bool)
    (loops : list (boolean_result_pline T)) : Prop :=
  let k1 := map fst (filter (fun c => Bool.eqb (inside p2 (snd c)) (fst w)) cs1) in
  let k2 := map fst (filter (fun c => Bool.eqb (inside p1 (snd c)) (snd w)) cs2) in
  let ps := boundary (backward op o1 o2) k1 k2 os in
  exists select chains, picks select /\ prefers op ps select
  /\ stitching (slice_path_is p1 p2) (ps_slices ps) select eps chains loops
  /\ Permutation (concat chains) (seq 0 (length (ps_slices ps))).

(** The ends of a joined overlap refer to vertexes. *)
Definition overlap_fits (p1 p2 : pline T) (s : overlapping_slice T) : Prop :=
  fst (os_start_indexes s) < vertex_count p1 /\ fst (os_end_indexes s) < vertex_count p1
  /\ snd (os_start_indexes s) < vertex_count p2 /\ snd (os_end_indexes s) < vertex_count p2.

(** One run of several overlaps ends where it begins. *)
Definition closed_run (eps : T) (r : list (overlap_intr T)) : Prop :=
  1 < length r /\ exists a z, hd_error r = Some a /\ hd_error (rev r) = Some z /\ v2fuzzy_eq_eps (oi_point2 z) (oi_point1 a) eps = true.
End SpecOperation.
