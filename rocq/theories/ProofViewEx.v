(** Examples for C28. *)
From Coq Require Import List Arith Bool Reals Lra Floats.
From Verif Require Import Num Res RNum FNum ModelMath ModelSeg ModelPline ModelView Spec SpecPline SpecGeom SpecView
  ProofIntr.
Import ListNotations.

Lemma same_place_whole_loop :
  exists (p : pline float) (q : vec2 float) (eps : float) (d : view_data float) (l : list (vertex float)),
    view_from_slice_points p q 0 q 0 eps = Ret (Some d) /\ view_vertexes d p = Ret l
    /\ length l = vertex_count p + 1.
Proof.
  exists (PL [Vtx 0 0 0; Vtx 4 0 0; Vtx 4 4 0; Vtx 0 4 0] true)%float, (V2 4 0)%float, 0.125%float.
  do 2 eexists. split; [vm_compute; reflexivity|]. split; [vm_compute; reflexivity|]. reflexivity.
Qed.

Local Open Scope R_scope.
Lemma square_slice_ok :
  let p := PL [Vtx 0 0 0; Vtx 4 0 0; Vtx 4 4 0; Vtx 0 4 0] true in
  clear_pline (1 / 100000) p /\ point_at p 0 (1 / 4) (V2 1 0) /\ end_at p 1 (1 / 2) (V2 4 2)
  /\ crisp_vertexes (1 / 100000) p (V2 1 0) /\ crisp_vertexes (1 / 100000) p (V2 4 2)
  /\ crisp (1 / 100000) (V2 1 0) (V2 4 2).
Proof.
  cbv zeta. split; [|split; [|split; [|split; [|split]]]].
  - intros v1 v2 H. simpl in H.
    repeat (destruct H as [H|H]; [injection H as <- <-; split; [split; [left; reflexivity|intros E; now destruct E]|cbn [px py]]|]);
      try contradiction.
    all: first [left; rabs_lra|right; rabs_lra].
  - exists (Vtx 0 0 0), (Vtx 4 0 0). split; [reflexivity|]. split; [lra|]. left. split; [reflexivity|].
    unfold line_pt, pos. cbn [px py vx vy]. f_equal; lra.
  - left. exists (Vtx 4 0 0), (Vtx 4 4 0). split; [reflexivity|]. split; [lra|]. left. split; [reflexivity|].
    unfold line_pt, pos. cbn [px py vx vy]. f_equal; lra.
  - intros v H. simpl in H. repeat (destruct H as [H|H]; [subst v; right; unfold pos; cbn [px py vx vy]|]); try contradiction.
    all: first [left; rabs_lra|right; rabs_lra].
  - intros v H. simpl in H. repeat (destruct H as [H|H]; [subst v; right; unfold pos; cbn [px py vx vy]|]); try contradiction.
    all: first [left; rabs_lra|right; rabs_lra].
  - right. left. cbn [vx]. rabs_lra.
Qed.
