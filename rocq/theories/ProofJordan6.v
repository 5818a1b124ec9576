(** A half disc: a loop of an arc and a line that passes no point twice (example for C64). *)
From Coq Require Import Reals ZArith Bool List Arith Lra Lia Psatz.
From Verif Require Import Num RNum Res ModelMath ModelSeg ModelPline Spec SpecGeom SpecBox SpecWinding SpecView SpecBoolean SpecJordan.
From Verif Require Import ProofR ProofBase ProofIter ProofArc ProofArc2 ProofSlice ProofMeasure ProofWalk ProofIntr ProofWinding ProofWinding2 ProofWinding3 ProofWinding4 ProofWinding6 ProofWinding7 ProofSegIntr5 ProofPolyOff2 ProofNest ProofJordan ProofJordan2 ProofJordan5.
Import ListNotations.
Local Open Scope R_scope.

Definition ex_half : pline R := PL [Vtx (-1) 0 1; Vtx 1 0 0] true.

Lemma ex_half_segs : spec_segs (vtx ex_half) (is_closed ex_half) = [(Vtx (-1) 0 1, Vtx 1 0 0); (Vtx 1 0 0, Vtx (-1) 0 1)].
Proof. reflexivity. Qed.

Lemma ex_half_ok : pline_ok ex_half.
Proof.
  intros a b I. rewrite ex_half_segs in I. destruct I as [I|[I|[]]]; injection I as <- <-; split; cbn [pbulge]; unfold bulge_ok, pos; cbn [px py].
  - right. rewrite Rabs_R1. lra.
  - intros _ E. injection E as E. lra.
  - now left.
  - lra.
Qed.

Lemma ex_half_arc t q : seg_at (Vtx (-1) 0 1) (Vtx 1 0 0) t q <-> q = V2 (- cos (t * PI)) (- sin (t * PI)).
Proof.
  assert (Ok : seg_ok (Vtx (-1) 0 1) (Vtx 1 0 0)) by (apply ex_half_ok; rewrite ex_half_segs; now left).
  assert (H : seg_at (Vtx (-1) 0 1) (Vtx 1 0 0) t (V2 (- cos (t * PI)) (- sin (t * PI)))).
  { right. cbn [pbulge]. split; [lra|]. exists (V2 0 0), 1, PI. unfold is_arc. rewrite atan_1_val.
    split; [|unfold circle_pt; cbn [vx vy]; rewrite (Rplus_comm PI), neg_cos, neg_sin; apply vec2_eq; cbn [vx vy]; ring].
    split; [lra|]. unfold pos, circle_pt. cbn [px py vx vy].
    replace (PI + PI) with (2 * PI) by ring. rewrite ?cos_2PI, ?sin_2PI, ?cos_PI, ?sin_PI. split; apply vec2_eq; cbn [vx vy]; ring. }
  split; [intros Hq; exact (seg_at_unique _ _ t _ _ Hq H Ok)|intros ->; exact H].
Qed.

Lemma ex_half_once : passes_once ex_half.
Proof.
  assert (P : forall i t q, point_at ex_half i t q -> t < 1 -> 0 <= t /\ ((i = 0%nat /\ q = V2 (- cos (t * PI)) (- sin (t * PI))) \/ (i = 1%nat /\ q = V2 (1 - 2 * t) 0))).
  { intros i t q (a & b & E & Ht & Hq) _. rewrite ex_half_segs in E. split; [lra|].
    destruct i as [|[|i]]; cbn [nth_error] in E; [left|right|destruct i; discriminate]; injection E as <- <-; split; auto.
    - now apply ex_half_arc.
    - apply seg_at_line in Hq; [|reflexivity]. rewrite Hq. unfold line_pt, pos. cbn [px py vx vy]. apply vec2_eq; cbn [vx vy]; ring. }
  pose proof PI_pos as HPI.
  assert (Rg : forall t, 0 <= t -> t < 1 -> 0 <= t * PI < PI) by (intros; split; nra).
  assert (Z : forall t u, 0 <= t -> t < 1 -> 0 <= u -> u < 1 -> V2 (- cos (t * PI)) (- sin (t * PI)) = V2 (1 - 2 * u) 0 -> False).
  { intros t u T0 T1 U0 U1 E. injection E as E1 E2. destruct (Rle_lt_or_eq_dec 0 t T0) as [L|<-].
    - assert (0 < sin (t * PI)) by (apply sin_gt_0; nra). lra.
    - rewrite Rmult_0_l, cos_0 in E1. lra. }
  intros i j t u q Hi Hj Ht Hu. apply P in Hi as (T0 & Hi); [|exact Ht]. apply P in Hj as (U0 & Hj); [|exact Hu].
  destruct Hi as [(-> & ->)|(-> & ->)], Hj as [(-> & E)|(-> & E)].
  - split; [reflexivity|]. injection E as E1 _. destruct (Rg t T0 Ht). destruct (Rg u U0 Hu).
    assert (t * PI = u * PI); [|nra]. apply cos_inj_0_PI || (destruct (Rtotal_order (t * PI) (u * PI)) as [L|[Q|L]]; [|exact Q|]; apply cos_decreasing_1 in L; lra).
  - exfalso. exact (Z t u T0 Ht U0 Hu E).
  - exfalso. symmetry in E. exact (Z u t U0 Hu T0 Ht E).
  - split; [reflexivity|]. injection E as E. lra.
Qed.

Lemma ex_half_loop : valid_loop ex_half.
Proof. split; cbn; lia. Qed.

Lemma ex_half_off : ~ on_path ex_half (V2 0 (-1 / 2)).
Proof.
  intros (a & b & I & (t & Ht & Hq)). rewrite ex_half_segs in I. destruct I as [I|[I|[]]]; injection I as <- <-.
  - apply ex_half_arc in Hq. injection Hq as E1 E2. pose proof (sin2_cos2 (t * PI)) as Q. unfold Rsqr in Q. nra.
  - apply seg_at_line in Hq; [|reflexivity]. unfold line_pt, pos in Hq. cbn [px py vx vy] in Hq. injection Hq as _ E. lra.
Qed.

Lemma ex_half_inside : winding_number ex_half (V2 0 (-1 / 2)) = Ret 1%Z.
Proof.
  rewrite winding_wn. f_equal. unfold wn. rewrite winding_nw; [|apply ex_half_ok|reflexivity|cbn; lia|apply ex_half_off].
  rewrite ex_half_segs. unfold zsum. cbn [map fold_right].
  assert (Ok : seg_ok (Vtx (-1) 0 1) (Vtx 1 0 0)) by (apply ex_half_ok; rewrite ex_half_segs; now left).
  assert (L : forall v1 v2 : vertex R, pbulge v1 = 0 -> py v1 = 0 -> py v2 = 0 -> nw (V2 0 (-1 / 2)) (v1, v2) = 0%Z).
  { intros v1 v2 B Y1 Y2. unfold nw, winding_step. rewrite (proj2 (bulge_ok_zero v1 (or_introl B)) B). unfold process_line_winding. rnum. cbn [vy]. rewrite Y1, Y2.
    destruct (rleb 0 (-1 / 2)) eqn:Q; [apply rleb_true in Q; lra|]. reflexivity. }
  rewrite (L (Vtx 1 0 0)) by reflexivity.
  destruct (arc_nw_ccw (Vtx (-1) 0 1) (Vtx 1 0 0) (V2 0 (-1 / 2)) Ok) as (A & _); [cbn; lra|unfold perp; cbn [px py vx vy]; lra|].
  rewrite A; [|split; [unfold perp; cbn [px py vx vy]; lra|apply inb_side; [cbn; lra|unfold sideof, perp, dotp; cbn [fst snd px py pbulge vx vy]; lra]]].
  unfold chord. cbn [fst snd px py]. rewrite L by reflexivity. reflexivity.
Qed.

(** Every loop that passes no point twice, in terms of [winding_number]. *)
Lemma loop_winding p : pline_ok p -> valid_loop p -> passes_once p ->
  exists o, (o = 1%Z \/ o = (-1)%Z) /\ (forall x w, ~ on_path p x -> winding_number p x = Ret w -> w = 0%Z \/ w = o)
  /\ forall q e, on_path p q -> 0 < e ->
     (exists x, ~ on_path p x /\ dist q x < e /\ winding_number p x = Ret 0%Z)
     /\ (exists x, ~ on_path p x /\ dist q x < e /\ winding_number p x = Ret o).
Proof.
  intros ok vl po. destruct (loop_sides p ok vl po) as (o & Ho & W & Sd). exists o. split; [exact Ho|]. split.
  - intros x w Ox E. rewrite winding_wn in E. injection E as <-. now apply W.
  - intros q e Oq He. destruct (Sd q e Oq He) as ((x & Ox & Dx & Wx) & (y & Oy & Dy & Wy)). split.
    + exists x. rewrite winding_wn, Wx. auto.
    + exists y. rewrite winding_wn, Wy. auto.
Qed.
