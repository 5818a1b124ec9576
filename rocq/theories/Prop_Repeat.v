(** Properties C01 (repeat-position removal) and C39 (additions suppressing repeats). *)
From Coq Require Import List Arith Bool Floats.
From Verif Require Import Num Res FNum ModelMath ModelSeg ModelPline Spec SpecPline ProofRepeat ProofRepeat2.
Import ListNotations.

(** C01: no panic; nothing is returned below two vertexes. *)
Theorem C01_never_panics :
  forall (T : Type) (N : Num T) (p : pline T) (eps : T), exists r, remove_repeat_pos p eps = Ret r.
Proof. intros T N p eps. exact (remove_repeat_never_panics p eps). Qed.
Print Assumptions C01_never_panics.

(** C01: nothing is returned exactly when no vertex is at the place of its predecessor and, on a
    closed polyline, the last is not at the place of the first. *)
Theorem C01_none_iff_no_repeat :
  forall (T : Type) (N : Num T) (p : pline T) (eps : T) (first lst : vertex T),
  2 <= vertex_count p -> hd_error (vtx p) = Some first ->
  nth_error (vtx p) (vertex_count p - 1) = Some lst ->
  remove_repeat_pos p eps = Ret None
  <-> no_repeat (same_place eps) (vtx p) /\ (is_closed p = true -> same_place eps first lst = false).
Proof. intros T N p eps first lst. exact (remove_repeat_none_iff p eps first lst). Qed.
Print Assumptions C01_none_iff_no_repeat.

(** C01: otherwise the input is divided into its runs; each run is replaced by its first position with
    the bulge of its last vertex; when a closed polyline ends at the place of its first vertex the last
    run is dropped; no two neighbours of the result are at the same place. *)
Theorem C01_result_is_runs :
  forall (T : Type) (N : Num T) (p q : pline T) (eps : T),
  remove_repeat_pos p eps = Ret (Some q) ->
  exists rs first lst,
    is_runs (same_place eps) (vtx p) rs
    /\ hd_error (vtx p) = Some first /\ nth_error (vtx p) (vertex_count p - 1) = Some lst
    /\ is_closed q = is_closed p
    /\ vtx q = (if is_closed p && same_place eps first lst then removelast (flat_map run_rep rs)
                else flat_map run_rep rs)
    /\ no_repeat (same_place eps) (vtx q).
Proof. intros T N p q eps. exact (remove_repeat_result p q eps). Qed.
Print Assumptions C01_result_is_runs.

(** The division into runs is unique, so the previous theorem determines the result. *)
Theorem C01_runs_are_unique :
  forall (A : Type) (close : A -> A -> bool) (l : list A) (rs rs' : list (list A)),
  is_runs close l rs -> is_runs close l rs' -> rs = rs'.
Proof. intros A close l rs rs'. exact (runs_unique close l rs rs'). Qed.
Print Assumptions C01_runs_are_unique.

(** C01: when closeness is transitive on the given numbers, the result has no repeat around the end of
    a closed polyline either. *)
Theorem C01_no_repeat_around_the_end :
  forall (T : Type) (N : Num T) (p q : pline T) (eps : T) (a b : vertex T),
  (forall a, same_place eps a a = true) ->
  (forall a b, same_place eps a b = same_place eps b a) ->
  (forall a b c, same_place eps a b = true -> same_place eps b c = true -> same_place eps a c = true) ->
  is_closed p = true -> remove_repeat_pos p eps = Ret (Some q) -> 2 <= vertex_count q ->
  nth_error (vtx q) 0 = Some a -> nth_error (vtx q) (vertex_count q - 1) = Some b ->
  same_place eps a b = false.
Proof. intros T N p q eps a b. exact (remove_repeat_no_wrap p q eps a b). Qed.
Print Assumptions C01_no_repeat_around_the_end.

(** C01 is false around the end without transitivity: a result whose last vertex is at the place of its
    first. *)
Theorem C01_repeat_left_around_the_end_refuted :
  exists (p q : pline float) (a b : vertex float),
    remove_repeat_pos p 1%float = Ret (Some q)
    /\ nth_error (vtx q) 0 = Some a /\ nth_error (vtx q) (vertex_count q - 1) = Some b
    /\ 2 <= vertex_count q /\ same_place 1%float a b = true.
Proof. exact (ex_intro _ chain_wrap remove_repeat_wrap_counterexample). Qed.
Print Assumptions C01_repeat_left_around_the_end_refuted.

(** C01: "only repeats are removed" is false: a vertex is removed although no vertex of the result is at
    its place. *)
Theorem C01_only_repeats_removed_refuted :
  exists (p q : pline float) (v : vertex float),
    remove_repeat_pos p 1%float = Ret (Some q) /\ In v (vtx p)
    /\ forall w, In w (vtx q) -> same_place 1%float v w = false.
Proof. exact (ex_intro _ chain_lost remove_repeat_lost_counterexample). Qed.
Print Assumptions C01_only_repeats_removed_refuted.

(** C01: "at least one vertex is kept" is false: two equal vertexes, closed, give an empty polyline. *)
Theorem C01_one_vertex_kept_refuted :
  exists p : pline float, vertex_count p = 2 /\ remove_repeat_pos p 1%float = Ret (Some (PL [] true)).
Proof. exact remove_repeat_empty_counterexample. Qed.
Print Assumptions C01_one_vertex_kept_refuted.

Example C01_example :
  let v x y b := Vtx x y b : vertex float in
  (remove_repeat_pos (PL [v 0 0 1; v 0 0 2; v 4 0 3; v 4 0 4; v 4 4 0; v 0 0 9] true) 0.125
   = Ret (Some (PL [v 0 0 2; v 4 0 4; v 4 4 0] true)))%float.
Proof. vm_compute. reflexivity. Qed.

(** C39: a polyline built from nothing by adding any vertexes consists of the runs of the added list (each
    run: first position, last bulge). *)
Theorem C39_additions_are_runs :
  forall (T : Type) (N : Num T) (eps : T) (added : list (vertex T)) (closed : bool),
  exists rs,
    is_runs (fun a b => same_place eps b a) added rs
    /\ fold_left (fun p v => add_or_replace_vertex p v eps) added (PL [] closed)
       = PL (flat_map run_rep rs) closed.
Proof. intros T N eps added closed. exact (adds_runs eps added closed). Qed.
Print Assumptions C39_additions_are_runs.

(** C39: adding a vertex or extending by any polyline keeps a polyline free of neighbouring repeats. *)
Theorem C39_additions_keep_no_repeat :
  forall (T : Type) (N : Num T) (eps : T) (p q : pline T) (v : vertex T),
  no_repeat (fun a b => same_place eps b a) (vtx p) ->
  no_repeat (fun a b => same_place eps b a) (vtx (add_or_replace_vertex p v eps))
  /\ no_repeat (fun a b => same_place eps b a) (vtx (extend_remove_repeat p q eps)).
Proof.
  intros T N eps p q v H.
  exact (conj (add_or_replace_no_repeat eps p v H) (extend_remove_repeat_no_repeat eps p q H)).
Qed.
Print Assumptions C39_additions_keep_no_repeat.

(** C39: [create_from_remove_repeat] gives the runs of the source, without the last one when the polyline
    is closed, has at least two runs and the last is at the place of the first; so at least one vertex of a
    non-empty source is kept. *)
Theorem C39_create_from_remove_repeat_is_runs :
  forall (T : Type) (N : Num T) (eps : T) (p : pline T),
  exists rs, is_runs (fun a b => same_place eps b a) (vtx p) rs
    /\ let kept := flat_map run_rep rs in
       ((exists f l, hd_error kept = Some f /\ nth_error kept (length kept - 1) = Some l
            /\ is_closed p = true /\ 2 <= length kept /\ same_place eps f l = true
            /\ create_from_remove_repeat p eps = Ret (PL (removelast kept) true))
        \/ ((is_closed p = false \/ length kept < 2
             \/ exists f l, hd_error kept = Some f /\ nth_error kept (length kept - 1) = Some l
                            /\ same_place eps f l = false)
            /\ create_from_remove_repeat p eps = Ret (PL kept (is_closed p)))).
Proof. intros T N eps p. exact (create_from_remove_repeat_spec eps p). Qed.
Print Assumptions C39_create_from_remove_repeat_is_runs.

(** C39: "no repeat around the end of a closed result" is false. *)
Theorem C39_repeat_left_around_the_end_refuted :
  exists (p q : pline float) (a b : vertex float),
    create_from_remove_repeat p 1%float = Ret q
    /\ nth_error (vtx q) 0 = Some a /\ nth_error (vtx q) (vertex_count q - 1) = Some b
    /\ 2 <= vertex_count q /\ same_place 1%float a b = true.
Proof. exact (ex_intro _ chain_wrap create_remove_repeat_wrap_counterexample). Qed.
Print Assumptions C39_repeat_left_around_the_end_refuted.

Example C39_example :
  let v x y b := Vtx x y b : vertex float in
  no_repeat (fun a b => same_place 0.125%float b a) [v 0 0 2; v 4 0 4]%float
  /\ (add_or_replace_vertex (PL [v 0 0 2; v 4 0 4] false) (v 4 0 7) 0.125
      = PL [v 0 0 2; v 4 0 7] false)%float
  /\ (create_from_remove_repeat (PL [v 0 0 1; v 0 0 2; v 4 0 3; v 0 0 5] true) 0.125
      = Ret (PL [v 0 0 2; v 4 0 3] true))%float.
Proof.
  split; [|split; vm_compute; reflexivity]. intros [|[|i]] a b Ha Hb; cbn in *; try discriminate.
  - injection Ha as <-. injection Hb as <-. vm_compute. reflexivity.
Qed.
