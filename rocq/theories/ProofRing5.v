(** Shapes of circles: making the shape, and examples (C73). *)
From Coq Require Import Reals List Bool Arith Lra Lia.
From Verif Require Import Num RNum Res ModelMath ModelSeg ModelPline ModelView ModelIndex ModelIntersects ModelBoolean ModelOffset ModelShape.
From Verif Require Import Spec SpecGeom SpecBox SpecIndex SpecPrune SpecOffset SpecOffset2 SpecOffsetJoin SpecCircle SpecPolyBool SpecCurve SpecShape SpecRing.
From Verif Require Import ProofR ProofBase ProofArc ProofIndex2 ProofDisc ProofShape ProofShape6 ProofRing ProofRing2 ProofRing3 ProofRing4.
Import ListNotations.
Local Open Scope R_scope.

Lemma plate_shape mk ds1 ds2 : makes_index mk -> Forall (of_sense 1) ds1 -> Forall (of_sense (-1)) ds2 ->
  exists s, shape_from_plines mk (map outline (ds1 ++ ds2)) = Ret s /\ shape_ok s
  /\ map ip_pline (sh_ccw s) = map outline ds1 /\ map ip_pline (sh_cw s) = map outline ds2.
Proof.
  intros MK S1 S2. destruct (from_plines_spec mk MK (map outline (ds1 ++ ds2))) as (s & E & C1 & C2 & K). exists s. split; [exact E|]. split; [exact K|].
  rewrite Forall_forall in S1, S2. rewrite map_app, filter_app in C1, C2.
  assert (A1 : forall p, In p (map outline ds1) -> loop_ccw p = true /\ (2 <=? vertex_count p)%nat = true) by (intros p I; apply in_map_iff in I as (d & <- & I); split; [apply (outline_negative _ (S1 d I))|reflexivity]).
  assert (A2 : forall p, In p (map outline ds2) -> loop_ccw p = false /\ (2 <=? vertex_count p)%nat = true) by (intros p I; apply in_map_iff in I as (d & <- & I); split; [apply (outline_positive _ (S2 d I))|reflexivity]).
  rewrite filter_all, filter_nothing, app_nil_r in C1; [|intros p I; destruct (A2 p I) as (-> & ->); reflexivity|intros p I; destruct (A1 p I) as (-> & ->); reflexivity].
  rewrite filter_nothing, filter_all in C2; [|intros p I; destruct (A2 p I) as (-> & ->); reflexivity|intros p I; destruct (A1 p I) as (-> & ->); reflexivity].
  auto.
Qed.

Theorem plate_offset mk offset o ds1 ds2 fs1 fs2 : makes_index mk -> Forall (of_sense 1) ds1 -> Forall (of_sense (-1)) ds2 -> sane o offset ->
  length fs1 = length ds1 -> length fs2 = length ds2 -> fated o offset (ds1 ++ ds2) (fs1 ++ fs2) -> is_plate ds1 ds2 ->
  exists s r, shape_from_plines mk (map outline (ds1 ++ ds2)) = Ret s /\ shape_parallel_offset mk s offset o = Ret r
  /\ forall x, off_shape r x ->
     (0 < offset -> (in_shape r x <-> in_plate ds1 ds2 x /\ forall d, In d (ds1 ++ ds2) -> offset < from_circle x d))
     /\ (offset < 0 -> (in_shape r x <-> in_plate ds1 ds2 x \/ exists d, In d (ds1 ++ ds2) /\ from_circle x d < - offset)).
Proof.
  intros MK S1 S2 SO L1 L2 FA PL. destruct (plate_shape mk ds1 ds2 MK S1 S2) as (s & E & K & E1 & E2).
  destruct (rings_offset mk s offset o ds1 ds2 fs1 fs2 MK K S1 S2 E1 E2 SO L1 L2 FA) as (r & ER & _ & C1 & C2). exists s, r. split; [exact E|]. split; [exact ER|]. intros x OFF. split; intros HO.
  - exact (plate_inward r offset o ds1 ds2 fs1 fs2 S1 S2 SO L1 L2 FA PL C1 C2 x HO OFF).
  - exact (plate_outward r offset o ds1 ds2 fs1 fs2 S1 S2 SO L1 L2 FA PL C1 C2 x HO OFF).
Qed.

Lemma dist_axis a b : dist (V2 a 0) (V2 b 0) = Rabs (a - b).
Proof. unfold dist. cbn [vx vy]. replace ((a - b) * (a - b) + (0 - 0) * (0 - 0)) with (Rsqr (a - b)) by (unfold Rsqr; ring). apply sqrt_Rsqr_abs. Qed.

Ltac num := unfold Rabs; repeat destruct (Rcase_abs _); lra.
Ltac disc_at H := repeat match type of H with
  | nth_error _ ?i = Some _ => destruct i as [|i]; cbn [nth_error] in H; [injection H as <-|] | None = Some _ => discriminate | _ => idtac end.

Lemma ex_senses : Forall (of_sense 1) [ex_disc] /\ Forall (of_sense (-1)) ex_holes /\ Forall (of_sense (-1)) [ex_hole].
Proof. repeat constructor; cbn; try (left; reflexivity); try (right; reflexivity); unfold unit_vec; cbn [vx vy]; lra. Qed.

Lemma ex_is_plate : is_plate [ex_disc] ex_holes /\ is_plate [ex_disc] [ex_hole].
Proof.
  split; (split; [|split]).
  - intros i j d e Hd He NE. destruct i as [|[|i]], j as [|[|j]]; try discriminate; try contradiction.
  - intros i j d e Hd He NE. destruct i as [|[|[|i]]], j as [|[|[|j]]]; try discriminate; try contradiction; cbn in Hd, He; injection Hd as <-; injection He as <-; cbn [dc dr]; rewrite dist_axis; num.
  - intros h [<-|[<-|[]]]; exists ex_disc; (split; [now left|]); cbn [dc dr ex_disc]; rewrite dist_axis; num.
  - intros i j d e Hd He NE. destruct i as [|[|i]], j as [|[|j]]; try discriminate; try contradiction.
  - intros i j d e Hd He NE. destruct i as [|[|i]], j as [|[|j]]; try discriminate; try contradiction.
  - intros h [<-|[]]; exists ex_disc; (split; [now left|]); cbn [dc dr ex_disc ex_hole]; rewrite dist_axis; num.
Qed.

Ltac prep := unfold ex_disc, ex_hole in *; cbn [dc dr db resized so_pos_equal_eps so_offset_dist_eps ex_ring_opts] in *.
Ltac far i j := let k := fresh in let e := fresh in let m := fresh in let E := fresh in let N := fresh in let M := fresh in
  intros k e m E N M; destruct k as [|[|[|k]]]; cbn in E; try discriminate; try contradiction; injection E as <-; prep; rewrite dist_axis; subst m; right; num.

Lemma ex_fated_in : fated ex_ring_opts 1 ([ex_disc] ++ ex_holes) [Kept; Kept; Kept].
Proof.
  split; [reflexivity|]. split.
  - intros i d f Hd Hf. destruct i as [|[|[|i]]]; cbn in Hd, Hf; try discriminate; try (destruct i; discriminate); injection Hd as <-; injection Hf as <-; (split; [unfold of_size; prep; lra|split; [prep; lra|]]);
    intros k e m E N ->; destruct k as [|[|[|k]]]; cbn in E; try discriminate; try contradiction; try (now destruct k; discriminate); injection E as <-; prep; rewrite dist_axis.
    all: try (left; num); try (right; num).
  - intros i j d e f g Hd Hf He Hg NE _ _. destruct i as [|[|[|i]]], j as [|[|[|j]]]; cbn in Hd, Hf, He, Hg; try discriminate; try contradiction; try (destruct i; discriminate); try (destruct j; discriminate);
    injection Hd as <-; injection He as <-; unfold miss; prep; rewrite dist_axis.
    all: try (left; num); try (right; num).
Qed.
Lemma ex_fated_out : fated ex_ring_opts (-3/2) ([ex_disc] ++ ex_holes) [Kept; Kept; Gone].
Proof.
  split; [reflexivity|]. split.
  - intros i d f Hd Hf. destruct i as [|[|[|i]]]; cbn in Hd, Hf; try discriminate; try (destruct i; discriminate); injection Hd as <-; injection Hf as <-; [| |split; [prep; lra|split; prep; lra]]; (split; [unfold of_size; prep; lra|split; [prep; lra|]]);
    intros k e m E N ->; destruct k as [|[|[|k]]]; cbn in E; try discriminate; try contradiction; try (now destruct k; discriminate); injection E as <-; prep; rewrite dist_axis.
    all: try (left; num); try (right; num).
  - intros i j d e f g Hd Hf He Hg NE G1 G2. destruct i as [|[|[|i]]], j as [|[|[|j]]]; cbn in Hd, Hf, He, Hg; try discriminate; try contradiction; try (destruct i; discriminate); try (destruct j; discriminate);
    injection Hd as <-; injection He as <-; injection Hf as <-; injection Hg as <-; try contradiction; unfold miss; prep; rewrite dist_axis.
    all: try (left; num); try (right; num).
Qed.
Lemma ex_fated_hidden : fated ex_ring_opts 2 ([ex_disc] ++ [ex_hole]) [Hidden; Hidden].
Proof.
  split; [reflexivity|]. split.
  - intros i d f Hd Hf. destruct i as [|[|i]]; cbn in Hd, Hf; try discriminate; try (destruct i; discriminate); injection Hd as <-; injection Hf as <-; (split; [unfold of_size; prep; lra|split; [prep; lra|]]).
    + exists 1%nat, ex_hole. split; [reflexivity|]. split; [discriminate|]. prep. rewrite dist_axis. num.
    + exists 0%nat, ex_disc. split; [reflexivity|]. split; [discriminate|]. prep. rewrite dist_axis. num.
  - intros i j d e f g Hd Hf He Hg NE G1 G2. destruct i as [|[|i]], j as [|[|j]]; cbn in Hd, Hf, He, Hg; try discriminate; try contradiction; try (destruct i; discriminate); try (destruct j; discriminate);
    injection Hd as <-; injection He as <-; unfold miss; prep; rewrite dist_axis; right; num.
Qed.

Lemma ex_sane : sane ex_ring_opts 1 /\ sane ex_ring_opts (-3/2) /\ sane ex_ring_opts 2.
Proof. unfold sane. cbn. repeat split; num. Qed.

Lemma ex_plates :
  (exists s r, shape_from_plines (@list_index R _) (map outline (ex_disc :: ex_holes)) = Ret s
     /\ shape_parallel_offset (@list_index R _) s 1 ex_ring_opts = Ret r
     /\ map ip_pline (sh_ccw r) = [circle (V2 0 0) (V2 1 0) 9 1]
     /\ map ip_pline (sh_cw r) = [circle (V2 (-4) 0) (V2 (3/5) (4/5)) 3 (-1); circle (V2 5 0) (V2 0 1) 2 (-1)])
  /\ (exists s r, shape_from_plines (@list_index R _) (map outline (ex_disc :: ex_holes)) = Ret s
     /\ shape_parallel_offset (@list_index R _) s (-3/2) ex_ring_opts = Ret r
     /\ map ip_pline (sh_ccw r) = [circle (V2 0 0) (V2 1 0) (23/2) 1]
     /\ map ip_pline (sh_cw r) = [circle (V2 (-4) 0) (V2 (3/5) (4/5)) (1/2) (-1)])
  /\ (exists s r, shape_from_plines (@list_index R _) (map outline [ex_disc; ex_hole]) = Ret s
     /\ shape_parallel_offset (@list_index R _) s 2 ex_ring_opts = Ret r /\ map ip_pline (sh_ccw r) = [] /\ map ip_pline (sh_cw r) = []).
Proof.
  destruct ex_senses as (A1 & A2 & A3). destruct ex_sane as (N1 & N2 & N3). split; [|split].
  - destruct (plate_shape (@list_index R _) [ex_disc] ex_holes list_index_ok A1 A2) as (s & E & K & E1 & E2).
    destruct (rings_offset (@list_index R _) s 1 ex_ring_opts [ex_disc] ex_holes [Kept] [Kept; Kept] list_index_ok K A1 A2 E1 E2 N1 eq_refl eq_refl ex_fated_in) as (r & ER & _ & C1 & C2).
    exists s, r. split; [exact E|]. split; [exact ER|]. rewrite C1, C2. unfold survivors, marked, outline. cbn [map combine filter snd fst is_kept resized dc du dr db ex_disc ex_holes]. 
    replace (10 - 1 * 1) with 9 by lra. replace (2 - -1 * 1) with 3 by lra. replace (1 - -1 * 1) with 2 by lra. split; reflexivity.
  - destruct (plate_shape (@list_index R _) [ex_disc] ex_holes list_index_ok A1 A2) as (s & E & K & E1 & E2).
    destruct (rings_offset (@list_index R _) s (-3/2) ex_ring_opts [ex_disc] ex_holes [Kept] [Kept; Gone] list_index_ok K A1 A2 E1 E2 N2 eq_refl eq_refl ex_fated_out) as (r & ER & _ & C1 & C2).
    exists s, r. split; [exact E|]. split; [exact ER|]. rewrite C1, C2. unfold survivors, marked, outline. cbn [map combine filter snd fst is_kept resized dc du dr db ex_disc ex_holes].
    replace (10 - 1 * (-3 / 2)) with (23 / 2) by lra. replace (2 - -1 * (-3 / 2)) with (1 / 2) by lra. split; reflexivity.
  - destruct (plate_shape (@list_index R _) [ex_disc] [ex_hole] list_index_ok A1 A3) as (s & E & K & E1 & E2).
    destruct (rings_offset (@list_index R _) s 2 ex_ring_opts [ex_disc] [ex_hole] [Hidden] [Hidden] list_index_ok K A1 A3 E1 E2 N3 eq_refl eq_refl ex_fated_hidden) as (r & ER & _ & C1 & C2).
    exists s, r. auto.
Qed.
