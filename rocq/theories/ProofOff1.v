(** The region that a loop at a distance from another one encloses (C78). *)
From Coq Require Import Reals ZArith Bool List Arith Lra Lia Psatz Classical.
From Verif Require Import Num RNum Res ModelMath ModelSeg ModelPline.
From Verif Require Import Spec SpecPline SpecGeom SpecBox SpecWinding SpecView SpecPrune SpecBoolean SpecJordan.
From Verif Require Import ProofR ProofArc ProofWinding6 ProofWinding7 ProofNest ProofOverlap ProofJordan ProofJordan2 ProofJordan6 ProofConn3 ProofRegion10.
From Verif Require ProofIntr ProofJordan5.
Import ListNotations.
Local Open Scope R_scope.

Section Ring.
Variables (p r : pline R) (e : R) (w : bool).
Hypothesis okp : pline_ok p.
Hypothesis okr : pline_ok r.
Hypothesis vlp : valid_loop p.
Hypothesis vlr : valid_loop r.
Hypothesis pop : passes_once p.
Hypothesis por : passes_once r.
Hypothesis He : 0 < e.
Hypothesis Nr : forall x, exists y, on_path p y /\ forall y', on_path p y' -> dist x y <= dist x y'.
Hypothesis Hr : forall q, on_path r q -> inside p q = w /\ forall y, on_path p y -> e <= dist q y.
Hypothesis Hc : forall z y, ~ on_path p z -> inside p z = w -> (forall y, on_path p y -> e <= dist z y) -> on_path p y -> dist z y = e -> on_path r z.

Definition deep (x : vec2 R) : Prop := ~ on_path p x /\ inside p x = w /\ forall y, on_path p y -> e < dist x y.

Lemma deep_open x : deep x -> exists h, 0 < h /\ forall x', dist x x' < h -> deep x'.
Proof.
  intros (O & I & D). destruct (inside_near p x okp O) as (h & Hh & K). destruct (Nr x) as (y & Py & M). pose proof (D y Py) as Dy.
  exists (Rmin h (dist x y - e)). split; [apply Rmin_glb_lt; lra|]. intros x' L. pose proof (Rmin_l h (dist x y - e)). pose proof (Rmin_r h (dist x y - e)).
  destruct (K x' ltac:(lra)) as (O' & I'). split; [exact O'|]. split; [congruence|]. intros y' P'. specialize (M y' P'). pose proof (dist_triangle x x' y'). lra.
Qed.

Lemma deep_line x y : (forall t, 0 <= t <= 1 -> ~ on_path r (line_pt x y t)) -> deep x -> deep y.
Proof.
  intros O Dx. apply NNPP. intros Ny. destruct (line_pt_ends x y) as (X0 & X1).
  destruct (first_hit (fun t => ~ deep (line_pt x y t))) as (t & Ht & Nt & B).
  - intros t Ht Nt. apply NNPP in Nt. destruct (deep_open _ Nt) as (h & Hh & K). exists (h / (dist x y + 1)). pose proof (ProofIntr.dist_pos x y).
    split; [apply Rdiv_lt_0_compat; lra|]. intros s _ Hs N. apply N, K. now apply line_near.
  - now rewrite X1.
  - assert (T0 : 0 < t). { destruct (Req_dec t 0) as [->|]; [|lra]. exfalso. apply Nt. now rewrite X0. }
    assert (Bd : forall s, 0 <= s < t -> deep (line_pt x y s)) by (intros s Hs; apply NNPP; now apply B).
    assert (App : forall h, 0 < h -> exists s, 0 <= s < t /\ dist (line_pt x y t) (line_pt x y s) < h).
    { intros h Hh. pose proof (ProofIntr.dist_pos x y). set (k := h / (dist x y + 1)). assert (Hk : 0 < k) by (apply Rdiv_lt_0_compat; lra).
      exists (Rmax 0 (t - k / 2)). pose proof (Rmax_l 0 (t - k / 2)). pose proof (Rmax_r 0 (t - k / 2)).
      assert (Rmax 0 (t - k / 2) < t) by (apply Rmax_lub_lt; lra). split; [lra|]. apply line_near; [exact Hh|]. fold k. rewrite Rabs_left1; lra. }
    assert (Far : forall y', on_path p y' -> e <= dist (line_pt x y t) y').
    { intros y' P'. destruct (Rle_dec e (dist (line_pt x y t) y')) as [|L]; [assumption|]. exfalso.
      destruct (App (e - dist (line_pt x y t) y') ltac:(lra)) as (s & Hs & Ds). destruct (Bd s Hs) as (_ & _ & D). specialize (D y' P').
      pose proof (dist_triangle (line_pt x y s) (line_pt x y t) y'). rewrite (dist_sym (line_pt x y s) (line_pt x y t)) in *. lra. }
    assert (Off : ~ on_path p (line_pt x y t)). { intros Q. specialize (Far _ Q). rewrite ProofJordan5.dist_self in Far. lra. }
    destruct (inside_near p _ okp Off) as (h & Hh & K). destruct (App h Hh) as (s & Hs & Ds). destruct (K _ Ds) as (_ & I). destruct (Bd s Hs) as (_ & I' & _).
    assert (Iz : inside p (line_pt x y t) = w) by congruence.
    destruct (Nr (line_pt x y t)) as (y' & Py & M).
    apply (O t Ht), (Hc _ y' Off Iz Far Py). apply Rle_antisym; [|now apply Far].
    apply Rnot_lt_le. intros L. apply Nt. split; [exact Off|]. split; [exact Iz|]. intros z Pz. specialize (M z Pz). lra.
Qed.

Lemma deep_joined x y : joined r x y -> deep x -> deep y.
Proof. induction 1 as [x|x y z J IH O]; [auto|]. intros D. apply (deep_line y z O), IH, D. Qed.

Lemma deep_same x y : ~ on_path r x -> ~ on_path r y -> wn r x = wn r y -> deep x -> deep y.
Proof. intros Ox Oy E. apply deep_joined. apply (one_piece r x y okr vlr por Ox Oy). now rewrite !winding_wn, E. Qed.

Lemma p_point : exists y, on_path p y /\ ~ on_path r y.
Proof.
  destruct (Nr (V2 0 0)) as (y & Py & _). exists y. split; [exact Py|]. intros Q. destruct (Hr y Q) as (_ & D). specialize (D y Py). rewrite ProofJordan5.dist_self in D. lra.
Qed.

Lemma far_point : exists z, ~ on_path p z /\ ~ on_path r z /\ wn p z = 0%Z /\ wn r z = 0%Z /\ forall y, on_path p y -> e < dist z y.
Proof.
  destruct (path_right p okp) as (M1 & B1). destruct (path_right r okr) as (M2 & B2). set (M := Rmax M1 M2 + e). pose proof (Rmax_l M1 M2). pose proof (Rmax_r M1 M2).
  exists (V2 M 0). assert (F1 : forall q, on_path p q -> vx q < vx (V2 M 0) - e) by (intros q Q; specialize (B1 q Q); cbn [vx]; unfold M; lra).
  assert (F2 : forall q, on_path r q -> vx q < vx (V2 M 0)) by (intros q Q; specialize (B2 q Q); cbn [vx]; unfold M; lra).
  split; [intros Q; specialize (F1 _ Q); lra|]. split; [intros Q; specialize (F2 _ Q); lra|].
  split; [apply wn_right; auto; intros q Q; specialize (F1 q Q); lra|]. split; [now apply wn_right|].
  intros y Py. specialize (F1 y Py). pose proof (coord_dist (V2 M 0) y) as (C & _). pose proof (Rle_abs (- (vx y - vx (V2 M 0)))) as A. rewrite Rabs_Ropp in A. lra.
Qed.

Lemma outer_out x : w = true -> ~ on_path p x -> wn p x = 0%Z -> wn r x = 0%Z.
Proof.
  intros Ew Ox Wx. destruct far_point as (z & Oz & _ & Wz & Wr & _).
  assert (J : joined p x z) by (apply (one_piece p x z okp vlp pop Ox Oz); now rewrite !winding_wn, Wx, Wz).
  enough (X : wn r x = wn r z) by congruence. clear Oz Wz Wr. induction J as [x|x y z J IH O]; [reflexivity|]. rewrite (IH Ox Wx). apply wn_straight; [exact okr|].
  assert (Wy : wn p y = 0%Z). { apply joined_winding in J; [|exact okp]. rewrite !winding_wn in J. injection J. congruence. }
  intros t Ht Q. destruct (Hr _ Q) as (I & _). rewrite Ew in I. apply inside_iff in I. apply I. rewrite <- Wy. symmetry. apply wn_until; [exact okp|lra|]. intros s Hs. apply O. lra.
Qed.

Lemma near_out x y : w = true -> ~ on_path r x -> on_path p y -> dist x y <= e -> wn r x = 0%Z.
Proof.
  intros Ew Ox Py D. destruct (line_pt_ends x y) as (X0 & X1).
  assert (E1 : wn r x = wn r y).
  { apply wn_straight; [exact okr|]. intros t Ht Q. destruct (Req_dec t 0) as [->|Nt]; [rewrite X0 in Q; contradiction|]. destruct (Hr _ Q) as (_ & F). specialize (F y Py).
    assert (Ed : dist (line_pt x y t) y = (1 - t) * dist x y) by (rewrite <- X1 at 2; rewrite ProofIntr.dist_line_pt, Rabs_left1 by lra; ring).
    pose proof (ProofIntr.dist_pos x y). assert ((1 - t) * dist x y < e); [|lra].
    destruct (Rle_dec (dist x y) 0) as [Z|Z]; [replace (dist x y) with 0 by lra; lra|]. assert (0 < t * dist x y) by (apply Rmult_lt_0_compat; lra). lra. }
  destruct (loop_winding p okp vlp pop) as (o & _ & _ & B). destruct (B y e Py He) as ((x2 & O2 & D2 & W2) & _). rewrite winding_wn in W2. injection W2 as W2.
  rewrite E1. rewrite <- (outer_out x2 Ew O2 W2). apply wn_straight; [exact okr|]. intros t Ht Q. destruct (Hr _ Q) as (_ & F). specialize (F y Py).
  assert (Ed : dist (line_pt y x2 t) y = t * dist y x2) by (destruct (line_pt_ends y x2) as (Y0 & _); rewrite <- Y0 at 2; rewrite ProofIntr.dist_line_pt, Rabs_right by lra; ring). pose proof (ProofIntr.dist_pos y x2).
  assert (t * dist y x2 <= 1 * dist y x2) by (apply Rmult_le_compat_r; lra). lra.
Qed.

Theorem ring_region x : ~ on_path r x -> (inside r x = w <-> deep x).
Proof.
  intros Ox. destruct far_point as (z & Oz & Orz & Wz & Wrz & Fz). destruct p_point as (y0 & Py0 & Oy0). assert (Cw : w = true \/ w = false) by (destruct w; auto). destruct Cw as [Ew|Ew]; rewrite Ew.
  - split.
    + intros I. apply inside_iff in I. apply NNPP. intros N. apply I. destruct (classic (on_path p x)) as [Q|Q]; [apply (near_out x x Ew Ox Q); rewrite ProofJordan5.dist_self; lra|].
      destruct (classic (exists y, on_path p y /\ dist x y <= e)) as [(y & Py & Dy)|F]; [now apply (near_out x y)|].
      apply (outer_out x Ew Q). apply NNPP. intros W. apply inside_iff in W. apply N. split; [exact Q|]. split; [congruence|]. intros y Py. apply Rnot_le_lt. intros L. apply F. eauto.
    + intros D. apply inside_iff. intros W. destruct (deep_same x z Ox Orz ltac:(congruence) D) as (_ & I & _). rewrite Ew in I. apply inside_iff in I. contradiction.
  - assert (Dz : deep z). { split; [exact Oz|]. split; [|exact Fz]. rewrite Ew. destruct (inside p z) eqn:I; [|reflexivity]. apply inside_iff in I. contradiction. }
    split.
    + intros I. apply (deep_same z x Orz Ox); [|exact Dz]. rewrite Wrz. destruct (Z.eq_dec (wn r x) 0) as [E|E]; [congruence|]. apply inside_iff in E. congruence.
    + intros D. destruct (inside r x) eqn:I; [|reflexivity]. exfalso. apply inside_iff in I.
      destruct (loop_winding r okr vlr por) as (o & Ho & W & _).
      assert (Wo : forall y, ~ on_path r y -> wn r y = 0%Z \/ wn r y = o) by (intros y Oy; apply (W y _ Oy), winding_wn).
      assert (Dy : deep y0).
      { destruct (Wo y0 Oy0) as [Y|Y]; [apply (deep_same z y0 Orz Oy0); [congruence|exact Dz]|]. destruct (Wo x Ox) as [X|X]; [contradiction|].
        apply (deep_same x y0 Ox Oy0); [congruence|exact D]. }
      destruct Dy as (N & _). contradiction.
Qed.
End Ring.
