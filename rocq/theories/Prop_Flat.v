(** C17: replacing arcs by chords. *)
From Coq Require Import Reals ZArith List PrimFloat.
From Verif Require Import Num RNum FNum Res ModelMath ModelSeg ModelPline Spec SpecGeom SpecFlat.
From Verif Require Import ProofMeasure ProofFlat ProofFlatF.
Import ListNotations.
Local Open Scope R_scope.

(** Either every segment is replaced in order by a run of vertexes as [flattened] describes, the last
    vertex of an open polyline is kept, and all segments of the result are straight; or the call
    reports failure and some arc needs more chords than an index can count. *)
Theorem C17_flatten (p : pline R) e : pline_ok p -> e <> 0 ->
  (forall v1 v2, In (v1, v2) (spec_segs (vtx p) (is_closed p)) -> error_fits e (v1, v2)) ->
  (exists p' parts, arcs_to_approx_lines p e = Ret (Some p')
     /\ Forall2 (flattened (Rabs e)) (spec_segs (vtx p) (is_closed p)) parts
     /\ is_closed p' = is_closed p
     /\ vtx p' = concat parts ++ (if is_closed p then [] else skipn (vertex_count p - 1) (vtx p))
     /\ forall v1 v2, In (v1, v2) (spec_segs (vtx p') (is_closed p')) -> pbulge v1 = 0)
  \/ (arcs_to_approx_lines p e = Ret None
      /\ exists v1 v2, In (v1, v2) (spec_segs (vtx p) (is_closed p)) /\ pbulge v1 <> 0
           /\ ~ good_cut v1 v2 (2 ^ 64 - 1) (Rabs e)).
Proof. exact (flat_pline p e). Qed.
Print Assumptions C17_flatten.

(** The vertex of a closed polyline with a single vertex is lost. *)
Theorem C17_single_vertex_refuted : exists p : pline R, vertex_count p = 1%nat
  /\ forall e, arcs_to_approx_lines p e = Ret (Some (PL [] true)).
Proof. exact flat_lost. Qed.
Print Assumptions C17_single_vertex_refuted.

(** In double precision the unit circle cannot be flattened with error distance 0 or -3, although it
    can with -1. *)
Theorem C17_negative_error_refuted : exists p : pline float,
  arcs_to_approx_lines p 0%float = Ret None /\ arcs_to_approx_lines p (-3)%float = Ret None
  /\ exists q, arcs_to_approx_lines p (-1)%float = Ret (Some q).
Proof. exact flat_fails. Qed.
Print Assumptions C17_negative_error_refuted.

(** The unit circle within one half: four chords. *)
Example C17_example : exists p', arcs_to_approx_lines ex_circle (1 / 2) = Ret (Some p')
  /\ is_closed p' = true /\ vertex_count p' = 4%nat.
Proof. exact ex_flat. Qed.
