(** Runs of the joining of overlaps in double precision, with two wrong slices (C29). *)
From Coq Require Import List Bool PrimFloat.
From Verif Require Import Num FNum Res ModelMath ModelSeg ModelPline ModelView ModelIndex ModelIntersects ProofFindF.
Import ListNotations.
Set Warnings "-inexact-float".
Local Open Scope float_scope.

Definition join_run (p1 p2 : pline float) :=
  let! r := find_intersects p1 p2 (index_with (@list_index float _) p1) 1e-5 in
  sort_and_join_overlapping_intersects (snd r) p1 p2 1e-5.

Definition views (p2 : pline float) (l : list (overlapping_slice float)) :=
  rmapM (fun s => view_vertexes (os_view s) p2) l.

(** Two rectangles sharing a corner: the overlap goes around the first vertex of the second. *)
Definition corner_big : pline float := PL [Vtx 0 0 0; Vtx 4 0 0; Vtx 4 4 0; Vtx 0 4 0] true.
Definition corner_small : pline float := PL [Vtx 0 0 0; Vtx 2 0 0; Vtx 2 2 0; Vtx 0 2 0] true.

Lemma corner_view : exists s, join_run corner_small corner_big = Ret [s]
  /\ os_start_indexes s = (3, 3)%nat /\ os_end_indexes s = (0, 0)%nat
  /\ view_vertexes (os_view s) corner_big = Ret [Vtx 0 2 0; Vtx 4 0 0; Vtx 2 0 0].
Proof. eexists. split; [vm_compute; reflexivity|]. vm_compute. repeat split; reflexivity. Qed.

(** The first shape has an additional vertex on the half circle of the second. *)
Definition quarter_bulge : float := 0x1.a827999fcef32p-2.
Definition half_disc : pline float := PL [Vtx 0 0 0; Vtx 4 0 1; Vtx 4 4 0; Vtx 0 4 0] true.
Definition split_disc : pline float :=
  PL [Vtx 2 0 0; Vtx 4 0 quarter_bulge; Vtx 6 2 quarter_bulge; Vtx 4 4 0; Vtx 2 3 0] true.

Definition disc_views :=
  let! l := join_run split_disc half_disc in
  let! vs := views half_disc l in
  Ret (map (map (fun v => (px v, py v, PrimFloat.ltb (pbulge v) 0.5))) vs).

Lemma half_disc_view : disc_views = Ret [[(2, 0, true); (4, 0, true); (4, 4, true)]].
Proof. vm_compute. reflexivity. Qed.

(** The same shape twice, the second with its vertexes numbered differently; and a stretch of two sides. *)
Definition corner_rot : pline float := PL [Vtx 4 0 0; Vtx 4 4 0; Vtx 0 4 0; Vtx 0 0 0] true.
Definition corner_in : pline float := PL [Vtx 2 0 0; Vtx 4 0 0; Vtx 4 2 0; Vtx 2 2 0] true.

Lemma join_runs_ok :
  (exists s, join_run corner_rot corner_big = Ret [s] /\ os_is_loop s = true /\ os_start_indexes s = (3, 0)%nat)
  /\ exists s, join_run corner_in corner_big = Ret [s] /\ os_is_loop s = false /\ os_opposing s = false
     /\ os_start_indexes s = (0, 0)%nat /\ os_end_indexes s = (1, 1)%nat
     /\ view_vertexes (os_view s) corner_big = Ret [Vtx 2 0 0; Vtx 4 0 0; Vtx 4 2 0].
Proof.
  split; eexists; (split; [vm_compute; reflexivity|]); vm_compute; repeat split; reflexivity.
Qed.
