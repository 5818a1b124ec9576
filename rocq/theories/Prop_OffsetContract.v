(** C36: what offsetting takes and gives. *)
From Coq Require Import List PrimFloat.
From Verif Require Import Num FNum Res ModelMath ModelSeg ModelPline ModelView ModelIndex ModelOffset.
From Verif Require Import Spec SpecPline SpecIndex SpecStitch ProofOffsetContract ProofOffsetFarF.
Import ListNotations.

(** Offsetting never panics, whatever the numbers, with an index of as many boxes as there are segments. Fewer
    than two vertexes or a collapsed raw offset give nothing; open input gives open results; neighbouring vertexes of
    a result are apart; a result has at least two vertexes unless it is the only one. *)
Theorem C36_contract {T} {N : Num T} mk (p : pline T) boxes idx offset o : makes_index mk -> index_of boxes idx ->
  length boxes = length (spec_segs (vtx p) (is_closed p)) ->
  exists rs, parallel_offset mk p idx offset o = Ret rs
  /\ (vertex_count p < 2 -> rs = [])
  /\ (create_raw_offset_polyline p offset (oo_pos_equal_eps o) = Ret empty_pline -> rs = [])
  /\ forall r, In r rs -> (is_closed p = false -> is_closed r = false)
       /\ no_repeat (close_by (oo_pos_equal_eps o)) (vtx r)
       /\ (2 <= vertex_count r \/ rs = [r]).
Proof. exact (parallel_offset_contract mk p boxes idx offset o). Qed.
Print Assumptions C36_contract.

(** The same with the index constructed. *)
Theorem C36_contract_constructed {T} {N : Num T} mk (p : pline T) offset o : makes_index mk ->
  exists rs, parallel_offset_constructed mk p offset o = Ret rs
  /\ (vertex_count p < 2 -> rs = [])
  /\ (create_raw_offset_polyline p offset (oo_pos_equal_eps o) = Ret empty_pline -> rs = [])
  /\ forall r, In r rs -> (is_closed p = false -> is_closed r = false)
       /\ no_repeat (close_by (oo_pos_equal_eps o)) (vtx r)
       /\ (2 <= vertex_count r \/ rs = [r]).
Proof. exact (parallel_offset_constructed_contract mk p offset o). Qed.
Print Assumptions C36_contract_constructed.

(** A single result may have one vertex: the ends of a single slice are compared with the join epsilon. *)
Theorem C36_one_vertex_refuted : exists (p : pline float) offset o rs r,
  parallel_offset_constructed (@list_index float _) p offset o = Ret rs /\ In r rs /\ vertex_count r = 1 /\ is_closed r = true.
Proof. exact few_refuted. Qed.
Print Assumptions C36_one_vertex_refuted.

(** It may even have none, if the positions of the slice are within the epsilon. *)
Theorem C36_no_vertex_refuted : exists (p : pline float) offset o rs r,
  parallel_offset_constructed (@list_index float _) p offset o = Ret rs /\ In r rs /\ vertex_count r = 0 /\ is_closed r = true.
Proof. exact none_refuted. Qed.
Print Assumptions C36_no_vertex_refuted.

(** The last vertex of a closed result may be within the epsilon of the first. *)
Theorem C36_last_first_refuted : exists (p : pline float) offset o rs r a b t,
  parallel_offset_constructed (@list_index float _) p offset o = Ret rs /\ In r rs /\ is_closed r = true
  /\ vtx r = a :: b :: t /\ v2fuzzy_eq_eps (pos (last t b)) (pos a) (oo_pos_equal_eps o) = true.
Proof. exact wrap_refuted. Qed.
Print Assumptions C36_last_first_refuted.

(** A closed polyline may have an open result: a simple polygon, with the default options. *)
Theorem C36_closed_refuted : exists (p : pline float) rs r, is_closed p = true
  /\ parallel_offset_constructed (@list_index float _) p 1%float (OO 1e-5 1e-4 1e-4 false)%float = Ret rs /\ In r rs /\ is_closed r = false.
Proof. exact spike_open. Qed.
Print Assumptions C36_closed_refuted.

(** Two of the runs. *)
Example C36_example :
  (let! rs := parallel_offset_constructed (@list_index float _) few_wrap 3%float (OO 0.25 1e-4 0.5 true)%float in
   Ret (map (fun r => match vtx r, rev (vtx r) with a :: _ :: _, z :: _ => is_closed r && v2fuzzy_eq_eps (pos z) (pos a) 0.25%float | _, _ => false end) rs))%bool
  = Ret [false; false; true; false; false].
Proof. exact few_wrap_run. Qed.
