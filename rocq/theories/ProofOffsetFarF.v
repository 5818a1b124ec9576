(** An offset result that is too near to a simple polygon, run in double precision (C46). *)
From Coq Require Import List Bool PrimFloat.
From Verif Require Import Num FNum Res ModelMath ModelSeg ModelPline ModelIndex ModelOffset Spec TestUtil ProofOffsetContract.
Import ListNotations.
Set Warnings "-inexact-float".

(** A thin chevron. The sides of its inward offset have changed places, without meeting each other. *)
Definition chevron : pline float := (PL [Vtx 4 0 0; Vtx 3 8 0; Vtx 2 0 0; Vtx 3 7 0] true)%float.
Definition default_opts : offset_options float := (OO 1e-5 1e-4 1e-4 false)%float.

(** The vertexes of the results less than 0.13 from the polyline. *)
Definition near_vertexes : list (vertex float) -> bool :=
  existsb (fun v => existsb (fun s => dist_squared (seg_closest_point (fst s) (snd s) (pos v) 1e-5%float) (pos v) <? 0.13 * 0.13)%float
    (spec_segs (vtx chevron) (is_closed chevron))).

Lemma chevron_run : (let! rs := parallel_offset_constructed (@list_index float _) chevron 0.25%float default_opts in
  Ret (map (fun r => (vertex_count r, is_closed r, near_vertexes (vtx r))) rs)) = Ret [(7, true, true)].
Proof. vm_compute. reflexivity. Qed.

Lemma chevron_near : exists (p : pline float) rs r v v1 v2,
  parallel_offset_constructed (@list_index float _) p 0.25%float (OO 1e-5 1e-4 1e-4 false)%float = Ret rs
  /\ In r rs /\ In v (vtx r) /\ In (v1, v2) (spec_segs (vtx p) (is_closed p))
  /\ (dist_squared (seg_closest_point v1 v2 (pos v) 1e-5%float) (pos v) <? 0.13 * 0.13)%float = true.
Proof.
  exists chevron. destruct (rmap_In _ _ _ (7, true, true) chevron_run (or_introl eq_refl)) as (rs & r & E & H & F).
  injection F as _ _ F. unfold near_vertexes in F. apply existsb_exists in F as (v & Hv & F).
  apply existsb_exists in F as ([v1 v2] & Hs & F). exists rs, r, v, v1, v2.
  split; [exact E|]. split; [exact H|]. split; [exact Hv|]. split; [exact Hs|exact F].
Qed.

(** A simple polygon with a spike that reaches into a passage slightly too narrow for the offset: two corners of the raw
    offset are within the tolerance of the right distance from the tip, and the segment between them is not looked at. *)
Definition spike : pline float := (PL [Vtx (-0.59) 0 0; Vtx 0.59 0 0; Vtx 6 1 0; Vtx 6 8 0; Vtx 0.3 8 0; Vtx 0 1.866915 0;
  Vtx (-0.3) 8 0; Vtx (-6) 8 0; Vtx (-6) 1 0] true)%float.

(** The segments of the results whose middles are less than 0.87 from the polyline. *)
Definition near_middles (r : pline float) : bool :=
  existsb (fun s => bulge_is_zero (fst s) && existsb (fun t =>
      dist_squared (seg_closest_point (fst t) (snd t) (midpoint (pos (fst s)) (pos (snd s))) 1e-5%float) (midpoint (pos (fst s)) (pos (snd s)))
        <? 0.87 * 0.87)%float (spec_segs (vtx spike) (is_closed spike))) (spec_segs (vtx r) (is_closed r)).

Lemma spike_run : (let! rs := parallel_offset_constructed (@list_index float _) spike 1%float default_opts in
  Ret (map (fun r => (vertex_count r, is_closed r, near_middles r)) rs)) = Ret [(5, true, false); (9, false, true)].
Proof. vm_compute. reflexivity. Qed.

Lemma spike_near : exists (p : pline float) r1 r2 w1 w2 v1 v2,
  parallel_offset_constructed (@list_index float _) p 1%float (OO 1e-5 1e-4 1e-4 false)%float = Ret [r1; r2]
  /\ In (w1, w2) (spec_segs (vtx r2) (is_closed r2)) /\ bulge_is_zero w1 = true /\ In (v1, v2) (spec_segs (vtx p) (is_closed p))
  /\ (dist_squared (seg_closest_point v1 v2 (midpoint (pos w1) (pos w2)) 1e-5) (midpoint (pos w1) (pos w2)) <? 0.87 * 0.87)%float = true.
Proof.
  exists spike. pose proof spike_run as E. fold default_opts.
  destruct (parallel_offset_constructed (@list_index float _) spike 1%float default_opts) as [rs|]; [cbn [rbind] in E|discriminate].
  destruct rs as [|r1 [|r2 [|r3 l]]]; try discriminate. injection E as _ _ _ _ _ F. unfold near_middles in F.
  apply existsb_exists in F as ([w1 w2] & Hw & F). apply andb_prop in F as (Z & F).
  apply existsb_exists in F as ([v1 v2] & Hs & F). exists r1, r2, w1, w2, v1, v2.
  split; [reflexivity|]. split; [exact Hw|]. split; [exact Z|]. split; [exact Hs|exact F].
Qed.

Lemma spike_open : exists (p : pline float) rs r, is_closed p = true
  /\ parallel_offset_constructed (@list_index float _) p 1%float (OO 1e-5 1e-4 1e-4 false)%float = Ret rs /\ In r rs /\ is_closed r = false.
Proof.
  exists spike. destruct (rmap_In _ _ _ (9, false, true) spike_run (or_intror (or_introl eq_refl))) as (rs & r & E & H & F).
  injection F as _ F _. exists rs, r. split; [reflexivity|]. split; [exact E|]. split; [exact H|exact F].
Qed.
