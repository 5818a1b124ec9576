(** Examples of what is drawn (C62). *)
From Coq Require Import Reals Lra List Bool Arith Lia.
From Verif Require Import Num RNum Res ModelMath ModelSeg ModelPline ModelIndex ModelShape ModelUi.
From Verif Require Import Spec SpecGeom SpecBox SpecUi ProofIter ProofR ProofArc ProofArc2 ProofMeasure ProofBox2 ProofBox3 ProofUi2 ProofUi3.
Import ListNotations.
Local Open Scope R_scope.

(** A closed triangle of which only the neighbourhood of one corner is seen. *)
Definition tri_path : list (path_event R) :=
  [PEBegin (V2 0 0); PELine (V2 0 0) (V2 10 0); PELine (V2 10 0) (V2 10 10); PEEnd (V2 10 10) (V2 0 0) true].
Definition corner_box : aabb R := AABB (-1) (-1) 1 1.

Lemma tri_cut : cull_path tri_path corner_box
  = Ret [PEBegin (V2 0 0); PELine (V2 0 0) (V2 10 0); PEEnd (V2 10 0) (V2 10 0) false; PEBegin (V2 10 10); PEEnd (V2 10 10) (V2 0 0) true].
Proof.
  rewrite cull_eq. unfold tri_path. cbn [flat_map]. unfold cut_event.
  assert (E1 : seen corner_box (PELine (V2 0 0) (V2 10 0)) = true).
  { apply seen_apart; [reflexivity|]. unfold apart. cbn [piece_points]. rewrite !Forall_cons_iff. cbn. lra. }
  assert (E2 : seen corner_box (PELine (V2 10 0) (V2 10 10)) = false).
  { destruct (seen corner_box (PELine (V2 10 0) (V2 10 10))) eqn:E; [|reflexivity]. exfalso.
    apply seen_apart in E; [|reflexivity]. apply E. right. left. cbn. repeat (apply Forall_cons; [cbn; lra|]). constructor. }
  rewrite E1, E2. reflexivity.
Qed.

Lemma tri_ordered : ordered true None tri_path.
Proof.
  cbn. split; [reflexivity|]. exists (V2 0 0), (V2 0 0), (V2 10 0). split; [reflexivity|]. split; [reflexivity|].
  exists (V2 0 0), (V2 10 0), (V2 10 10). split; [reflexivity|]. split; [reflexivity|].
  split; [|reflexivity]. exists (V2 0 0). split; [reflexivity|]. reflexivity.
Qed.

Lemma closing_lost : exists out, ordered true None tri_path /\ cull_path tri_path corner_box = Ret out /\ ~ ordered true None out
  /\ exists t, 0 <= t <= 1 /\ inside corner_box 0 (line_pt (V2 10 10) (V2 0 0) t).
Proof.
  eexists. split; [exact tri_ordered|]. split; [exact tri_cut|]. split.
  - cbn. intros (_ & s & a & b & E1 & E2 & (s' & E3 & _) & _ & (s2 & E4 & E5) & _).
    injection E4 as <-. specialize (E5 eq_refl eq_refl). injection E5 as E5 _. lra.
  - exists 1. split; [lra|]. unfold inside, line_pt. cbn. lra.
Qed.

(** A half circle, twice as large and with the second axis turned over. *)
Definition half : pline R := PL [Vtx 1 0 1; Vtx (-1) 0 0] false.
Lemma half_ok : pline_ok half /\ no_short half.
Proof.
  split; intros v1 v2; (intros [E|[]]; injection E as <- <-).
  - split; [right; cbn; rewrite Rabs_pos_eq by lra; lra|]. intros _ E. injection E as E. lra.
  - unfold short_arc. cbn. rewrite (Rabs_pos_eq (1 - -1)) by lra. lra.
Qed.
Lemma half_cmds : pline_cmds (plot_transform (V2 5 5) 2) 2 half = Ret [PCMove (V2 7 5); PCArc (V2 5 5) 2 (- PI)].
Proof.
  unfold pline_cmds. rewrite iter_segments_spec. cbn [rbind half vtx is_closed spec_segs combine tl map app].
  unfold seg_cmd. destruct (bulge_is_zero _) eqn:Z.
  { apply bulge_ok_zero in Z; [cbn in Z; lra|]. right. cbn. rewrite Rabs_pos_eq by lra. lra. }
  pose proof (proj1 bulge_example) as EB. rewrite ex_unit_circle. cbn [pbulge]. rewrite EB. unfold plot_transform, pos. cbn [vx vy px py]. rnum.
  do 2 f_equal; [f_equal; f_equal; ring|]. f_equal. f_equal; [f_equal; ring|ring].
Qed.

(** It is drawn in a plot that holds its top only. *)
Lemma half_drawn : exists b before cmds after, plot_data_bounds half = Ret b
  /\ build_path (plot_transform (V2 5 5) 2) 2 (AABB (-1/10) (9/10) (1/10) 2) [(half, b)] b = Ret (before ++ cmds ++ after)
  /\ pline_cmds (plot_transform (V2 5 5) 2) 2 half = Ret cmds.
Proof.
  destruct half_ok as [Hok Hs]. destruct (data_bounds half Hok Hs) as (b & Eb & HB & _).
  destruct (drawn_whole (plot_transform (V2 5 5) 2) 2 (AABB (-1/10) (9/10) (1/10) 2) [(half, b)] b half b (V2 0 1)) as (bf & cm & af & E & Ec);
    [cbn; lra|cbn; lra|now left|exact HB|exact HB| |unfold inside; cbn; lra|].
  - exists (Vtx 1 0 1), (Vtx (-1) 0 0). split; [now left|]. exists (1 / 2). split; [lra|]. right. cbn [pbulge pos px py]. split; [lra|].
    exists (V2 0 0), 1, 0. assert (S : sweep 1 = PI) by (unfold sweep; rewrite atan_1; lra). rewrite S.
    unfold is_arc, circle_pt. cbn [vx vy]. rewrite S, !Rplus_0_l. replace (1 / 2 * PI) with (PI / 2) by lra. rewrite cos_0, sin_0, cos_PI, sin_PI, cos_PI2, sin_PI2.
    repeat split; try lra; unfold pos; cbn; f_equal; lra.
  - exists b, bf, cm, af. now split.
Qed.

Lemma half_vertexes : drawn_vertexes (AABB 0 (-1) 2 2) [half; half] = [Vtx 1 0 1; Vtx 1 0 1].
Proof.
  destruct (drawn_vertexes_spec (AABB 0 (-1) 2 2) [half; half]) as (f & -> & H). cbn [flat_map half vtx app filter].
  assert (F1 : f (Vtx 1 0 1) = true) by (apply H; unfold inside; cbn; lra).
  assert (F2 : f (Vtx (-1) 0 0) = false).
  { destruct (f (Vtx (-1) 0 0)) eqn:E; [|reflexivity]. apply H in E. unfold inside in E. cbn in E. lra. }
  rewrite F1, F2. reflexivity.
Qed.
