(** C44: serialised values read back. *)
From Coq Require Import String List Arith Bool Floats.
From Verif Require Import Num ModelMath ModelSeg ModelPline ModelView ModelIntersects ModelBoolean ModelSerde SpecSerde ProofSerde.
Import ListNotations.

(** Vertexes and polylines read back in every format. *)
Theorem C44_vertex :
  forall (T : Type) (f : format) (v : vertex T) (rest : list (tok T)),
  de_vertex f (ser_vertex f v ++ rest) = Some (v, rest).
Proof. exact (@vertex_reads). Qed.
Print Assumptions C44_vertex.

Theorem C44_pline :
  forall (T : Type) (f : format) (p : pline T) (rest : list (tok T)),
  de_pline f (ser_pline f p ++ rest) = Some (p, rest).
Proof. exact (@pline_reads). Qed.
Print Assumptions C44_pline.

(** Points, view data, boolean slices and boolean results read back in formats that store no counts for
    tuples. *)
Theorem C44_point :
  forall (T : Type) (f : format) (v : vec2 T), f <> Prefixed -> forall rest : list (tok T),
  de_vec2 f (ser_vec2 f v ++ rest) = Some (v, rest).
Proof. exact (@vec2_reads). Qed.
Print Assumptions C44_point.

Theorem C44_view_data :
  forall (T : Type) (f : format) (d : view_data T), f <> Prefixed -> forall rest : list (tok T),
  de_view_data f (ser_view_data f d ++ rest) = Some (d, rest).
Proof. exact (@view_data_reads). Qed.
Print Assumptions C44_view_data.

Theorem C44_boolean_slice :
  forall (T : Type) (f : format) (s : boolean_slice T), f <> Prefixed -> forall rest : list (tok T),
  de_boolean_slice f (ser_boolean_slice f s ++ rest) = Some (s, rest).
Proof. exact (@boolean_slice_reads). Qed.
Print Assumptions C44_boolean_slice.

Theorem C44_boolean_result :
  forall (T : Type) (f : format) (r : boolean_result_pline T), f <> Prefixed -> forall rest : list (tok T),
  de_result_pline f (ser_result_pline f r ++ rest) = Some (r, rest).
Proof. exact (@result_pline_reads). Qed.
Print Assumptions C44_boolean_result.

(** A point is read from exactly two numbers, a vertex from exactly three, held as the format holds that many; anything
    else is refused. *)
Theorem C44_point_read :
  forall (T : Type) (f : format) (s : list (tok T)) (v : vec2 T) (rest : list (tok T)),
  de_vec2 f s = Some (v, rest) <-> s = held f [vx v; vy v] ++ rest.
Proof. exact (@vec2_read_iff). Qed.
Print Assumptions C44_point_read.

Theorem C44_vertex_read :
  forall (T : Type) (f : format) (s : list (tok T)) (v : vertex T) (rest : list (tok T)),
  de_vertex f s = Some (v, rest) <-> s = held f [px v; py v; pbulge v] ++ rest.
Proof. exact (@vertex_read_iff). Qed.
Print Assumptions C44_vertex_read.

(** Where counts are stored no point reads back: three elements are announced, two written. *)
Theorem C44_point_refuted :
  exists f : format, forall (T : Type) (v : vec2 T) (rest : list (tok T)), de_vec2 f (ser_vec2 f v ++ rest) = None.
Proof. exact (ex_intro _ Prefixed (@vec2_prefixed)). Qed.
Print Assumptions C44_point_refuted.

Theorem C44_view_data_refuted :
  exists f : format, forall (T : Type) (d : view_data T) (rest : list (tok T)),
  de_view_data f (ser_view_data f d ++ rest) = None.
Proof. exact (ex_intro _ Prefixed (@view_data_prefixed)). Qed.
Print Assumptions C44_view_data_refuted.

Example C44_example :
  ser_vec2 Prefixed (V2 1%nat 2%nat) = [TCount 3; TNum 1%nat; TNum 2%nat]
  /\ ser_vertex Delimited (Vtx 1%nat 2%nat 0%nat) = [TOpen; TNum 1%nat; TNum 2%nat; TNum 0%nat; TClose]
  /\ de_pline Delimited (ser_pline Delimited (PL [Vtx 1%nat 2%nat 0%nat; Vtx 3%nat 4%nat 1%nat] true))
     = Some (PL [Vtx 1%nat 2%nat 0%nat; Vtx 3%nat 4%nat 1%nat] true, [])
  /\ de_vertex Delimited [TOpen; TNum 1%nat; TNum 2%nat; TClose] = None.
Proof. repeat split. Qed.
