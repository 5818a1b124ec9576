(** Properties C02 (reversal), C03 (start rotation), C40 (scaling, translating; pointwise part),
    C41 (total accessors), C38 (redundant-vertex removal; refutations). *)
From Coq Require Import List Arith Bool Floats.
From Verif Require Import Num Res FNum ModelMath ModelSeg ModelPline ModelRedundant Spec SpecPline
  ProofInvert ProofRepeat ProofRepeat2.
Import ListNotations.

(** C02: reversal never panics, keeps closedness, reverses the positions, and the drawn segments are the
    reversed segments travelled backwards (start, end swapped and bulge negated); on a closed polyline the
    first segment drawn is the one ending at the new second vertex, hence the rotation by one. *)
Theorem C02_reverse_segments :
  forall (T : Type) (N : Num T) (p : pline T),
  exists p', invert_direction_mut p = Ret p' /\ is_closed p' = is_closed p
    /\ vertex_count p' = vertex_count p
    /\ map position (vtx p') = rev (map position (vtx p))
    /\ map seg_data (spec_segs (vtx p') (is_closed p')) =
       spec_rotate (if is_closed p then 1 else 0)
         (rev (map (fun s => seg_reverse (seg_data s)) (spec_segs (vtx p) (is_closed p)))).
Proof. intros T N p. exact (invert_direction_segments p). Qed.
Print Assumptions C02_reverse_segments.

(** C02: reversing twice restores the polyline, except that the bulge of the last vertex of an open
    polyline (which starts no segment) may differ. *)
Theorem C02_reverse_twice :
  forall (T : Type) (N : Num T) (p : pline T),
  (forall x : T, nneg (nneg x) = x) ->
  exists p' p'', invert_direction_mut p = Ret p' /\ invert_direction_mut p' = Ret p''
    /\ is_closed p'' = is_closed p
    /\ map position (vtx p'') = map position (vtx p)
    /\ (is_closed p = true -> vtx p'' = vtx p)
    /\ (forall i, i + 1 < vertex_count p -> nth_error (vtx p'') i = nth_error (vtx p) i).
Proof. intros T N p. exact (invert_direction_twice p). Qed.
Print Assumptions C02_reverse_twice.

Example C02_example :
  let v x y b := Vtx x y b : vertex float in
  (invert_direction_mut (PL [v 0 0 1; v 4 0 (-0.5); v 4 4 0.25] true)
   = Ret (PL [v 4 4 0.5; v 4 0 (-1); v 0 0 (-0.25)] true)
   /\ invert_direction_mut (PL [v 0 0 1; v 4 0 (-0.5); v 4 4 0.25] false)
   = Ret (PL [v 4 4 0.5; v 4 0 (-1); v 0 0 1] false))%float.
Proof. split; vm_compute; reflexivity. Qed.

(** C03: nothing is returned exactly for open polylines, fewer than two vertexes or a start index out of
    range. *)
Theorem C03_none_iff :
  forall (T : Type) (N : Num T) (p : pline T) (i : nat) (pt : vec2 T) (eps : T),
  rotate_start p i pt eps = Ret None
  <-> is_closed p = false \/ vertex_count p < 2 \/ vertex_count p <= i.
Proof. intros T N p i pt eps. exact (rotate_start_none p i pt eps). Qed.
Print Assumptions C03_none_iff.

(** C03: otherwise the result is the rotation to the vertex the point is on, or the rotation starting at the
    point, with segment i replaced by its two halves: the first starts at vertex i (now last), the second at
    the point (now first). *)
Theorem C03_rotation :
  forall (T : Type) (N : Num T) (p : pline T) (i : nat) (pt : vec2 T) (eps : T) (a b : vertex T),
  is_closed p = true -> 2 <= vertex_count p ->
  nth_error (vtx p) i = Some a -> nth_error (vtx p) ((i + 1) mod vertex_count p) = Some b ->
  let at_pt := Vtx (vx pt) (vy pt) nzero in
  rotate_start p i pt eps =
  Ret (Some (PL (if same_place eps at_pt a then spec_rotate i (vtx p)
                 else if same_place eps b at_pt then spec_rotate ((i + 1) mod vertex_count p) (vtx p)
                 else let halves := seg_split_at_point a b pt eps in
                      split_vertex halves :: skipn (i + 1) (vtx p) ++ firstn i (vtx p)
                      ++ [updated_start halves]) true)).
Proof. intros T N p i pt eps a b. exact (rotate_start_some p i pt eps a b). Qed.
Print Assumptions C03_rotation.

Example C03_example :
  let v x y := Vtx x y 0%float : vertex float in
  (rotate_start (PL [v 0 0; v 4 0; v 4 4] true) 1%nat (V2 4 2) 0.125
   = Ret (Some (PL [v 4 2; v 4 4; v 0 0; v 4 0] true))
   /\ rotate_start (PL [v 0 0; v 4 0; v 4 4] true) 2%nat (V2 0 0) 0.125
   = Ret (Some (PL [v 0 0; v 4 0; v 4 4] true)))%float.
Proof. split; vm_compute; reflexivity. Qed.

(** C40: scaling and translating change every vertex by exactly that map and nothing else. *)
Theorem C40_scale_translate_pointwise :
  forall (T : Type) (N : Num T) (p : pline T) (s x y : T),
  scale_mut p s
    = Ret (PL (map (fun v => Vtx (nmul s (px v)) (nmul s (py v)) (pbulge v)) (vtx p)) (is_closed p))
  /\ translate_mut p x y
    = Ret (PL (map (fun v => Vtx (nadd (px v) x) (nadd (py v) y) (pbulge v)) (vtx p)) (is_closed p)).
Proof. intros T N p s x y. exact (conj (scale_mut_spec p s) (translate_mut_spec p x y)). Qed.
Print Assumptions C40_scale_translate_pointwise.

Example C40_example :
  let v x y b := Vtx x y b : vertex float in
  (scale_mut (PL [v 1 2 0.5; v 4 0 1] true) 2 = Ret (PL [v 2 4 0.5; v 8 0 1] true)
   /\ translate_mut (PL [v 1 2 0.5; v 4 0 1] true) 3 (-1) = Ret (PL [v 4 1 0.5; v 7 (-1) 1] true))%float.
Proof. split; vm_compute; reflexivity. Qed.

(** C41: [get] is absent exactly out of range; the measuring functions never panic, on any polyline. *)
Theorem C41_accessors_total :
  forall (T : Type) (N : Num T) (p : pline T) (eps : T) (pt : vec2 T),
  (forall i, get p i = None <-> vertex_count p <= i)
  /\ (exists x, closest_point p pt eps = Ret x) /\ (exists x, extents p = Ret x)
  /\ (exists x, area p = Ret x) /\ (exists x, winding_number p pt = Ret x)
  /\ (exists x, path_length p = Ret x) /\ (exists x, orientation p = Ret x)
  /\ (exists x, create_approx_aabb_index p = Ret x) /\ (exists x, create_aabb_index p = Ret x)
  /\ (forall e, exists x, arcs_to_approx_lines p e = Ret x)
  /\ (forall t, 0 < vertex_count p \/ nleb t nzero = false ->
                exists x, find_point_at_path_length p t = Ret x).
Proof. intros T N p eps pt. exact (conj (get_none_iff p) (accessors_total p eps pt)). Qed.
Print Assumptions C41_accessors_total.

(** C41 is false for [last] on the empty polyline (underflow in debug profile) and for
    [find_point_at_path_length] with a target length <= 0 on the empty polyline. *)
Theorem C41_last_of_empty_refuted :
  exists p : pline float, vertex_count p = 0 /\ last_ p = Panic Underflow.
Proof. exact (ex_intro _ (PL [] false) (conj eq_refl eq_refl)). Qed.
Print Assumptions C41_last_of_empty_refuted.

Theorem C41_find_point_of_empty_refuted :
  exists p : pline float, vertex_count p = 0 /\ find_point_at_path_length p 0%float = Panic IndexOutOfBounds.
Proof. exact (ex_intro _ (PL [] false) (conj eq_refl eq_refl)). Qed.
Print Assumptions C41_find_point_of_empty_refuted.

Example C41_example : get (PL [Vtx 1 2 3; Vtx 4 5 6] false) 2 = None.
Proof. reflexivity. Qed.

(** C38: "keeps the last vertex of an open polyline" is false when the polyline starts with a repeated
    position: the end point is lost. *)
Theorem C38_end_point_kept_refuted :
  exists (p q : pline float) (v : vertex float),
    remove_redundant p 0.0001%float = Ret (Some q)
    /\ is_closed p = false /\ nth_error (vtx p) (vertex_count p - 1) = Some v
    /\ forall w, In w (vtx q) -> same_place 0.0001%float v w = false.
Proof. exact redundant_drops_end_counterexample. Qed.
Print Assumptions C38_end_point_kept_refuted.

(** C38: "never panics" is false: a small closed triangle. *)
Theorem C38_never_panics_refuted :
  exists p : pline float, vertex_count p = 3 /\ is_closed p = true
    /\ remove_redundant p 0.00001%float = Panic IndexOutOfBounds.
Proof. exact redundant_panics_counterexample. Qed.
Print Assumptions C38_never_panics_refuted.
