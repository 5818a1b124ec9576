(** Joins of raw offset segments run in double precision (C47). *)
From Coq Require Import List Bool PrimFloat.
From Verif Require Import Num FNum Res ModelMath ModelSeg ModelPline ModelIndex ModelOffset Spec TestUtil ProofOffsetContract.
Import ListNotations.
Set Warnings "-inexact-float".
Local Open Scope float_scope.

Definition near_vertex (a b : vertex float) : bool := fabs_lt (px a) (px b) 1e-6 && fabs_lt (py a) (py b) 1e-6 && fabs_lt (pbulge a) (pbulge b) 1e-6.
Fixpoint near_list (a b : list (vertex float)) : bool :=
  match a, b with [], [] => true | x :: a', y :: b' => near_vertex x y && near_list a' b' | _, _ => false end.

(** A line, an arc, a line and two arcs. *)
Definition mixed : pline float := PL [Vtx 0 0 0; Vtx 10 0 (-0.5); Vtx 10 10 0; Vtx 0 10 0.5; Vtx (-4) 2 (-0.25); Vtx (-2) (-6) 0] false.

Lemma mixed_inner : (let! r := create_raw_offset_polyline mixed 1 1e-5 in
  Ret (near_list (vtx r) [Vtx 0 1 0; Vtx 7.703306688 1 (-0.3008266721); Vtx 7.703306688 9 0; Vtx 0.094649177 9 0.4856553383;
    Vtx (-3.160427447) 2.560798214 (-0.2460055725); Vtx (-1.0298575) (-6.242535625) 0])) = Ret true.
Proof. vm_compute. reflexivity. Qed.

Lemma mixed_outer : (let! r := create_raw_offset_polyline mixed (-1) 1e-5 in
  Ret (near_list (vtx r) [Vtx 0 (-1) 0; Vtx 10 (-1) 0.7207592201; Vtx 10.6 0.8 (-0.5); Vtx 10.6 9.2 0.7207592201; Vtx 10 11 0; Vtx 0 11 0.0449937004;
    Vtx (-0.178885438) 10.98386991 0.5; Vtx (-4.894427191) 1.552786404 0.067926277; Vtx (-4.741873677) 1.329460331 (-0.25); Vtx (-2.9701425) (-5.757464375) 0])) = Ret true.
Proof. vm_compute. reflexivity. Qed.

(** Two short lines at a right angle. *)
Definition jog : pline float := PL [Vtx 0 0 0; Vtx 0.0009765625 0 0; Vtx 0.0009765625 0.0009765625 0] false.

Definition far_midpoint (p : pline float) (s : vertex float * vertex float) : bool :=
  let x := seg_midpoint (fst s) (snd s) in
  forallb (fun t => 1.9 <? dist_squared (seg_closest_point (fst t) (snd t) x 1e-5) x) (spec_segs (vtx p) (is_closed p)).

Lemma jog_run : (let! rs := parallel_offset_constructed (@list_index float _) jog (-1) (OO 1e-5 1e-4 1e-4 false) in
  Ret (map (fun r => existsb (far_midpoint jog) (spec_segs (vtx r) (is_closed r))) rs)) = Ret [true].
Proof. vm_compute. reflexivity. Qed.

Lemma jog_far : exists (p : pline float) rs r v1 v2,
  parallel_offset_constructed (@list_index float _) p (-1) (OO 1e-5 1e-4 1e-4 false) = Ret rs
  /\ forallb (fun s => 0.0009 * 0.0009 <? dist_squared (pos (fst s)) (pos (snd s))) (spec_segs (vtx p) (is_closed p)) = true
  /\ In r rs /\ In (v1, v2) (spec_segs (vtx r) (is_closed r))
  /\ forall u1 u2, In (u1, u2) (spec_segs (vtx p) (is_closed p)) ->
     (1.9 <? dist_squared (seg_closest_point u1 u2 (seg_midpoint v1 v2) 1e-5) (seg_midpoint v1 v2)) = true.
Proof.
  exists jog. destruct (rmap_In _ _ _ true jog_run (or_introl eq_refl)) as (rs & r & E & H & F).
  apply existsb_exists in F as ([v1 v2] & Hs & F). exists rs, r, v1, v2.
  split; [exact E|]. split; [vm_compute; reflexivity|]. split; [exact H|]. split; [exact Hs|].
  intros u1 u2 Hu. unfold far_midpoint in F. rewrite forallb_forall in F. exact (F (u1, u2) Hu).
Qed.
