(** Points of a segment near another one. *)
From Coq Require Import Reals ZArith Bool List Lra Psatz.
From Verif Require Import Num RNum ModelMath ModelSeg ModelPline Spec SpecGeom SpecBox SpecWinding.
From Verif Require Import ProofR ProofBase ProofArc ProofWinding ProofWinding6 ProofWinding7 ProofRegion.
Local Open Scope R_scope.

Lemma dist_offset x u v : dist x (V2 (vx x + u) (vy x + v)) = sqrt (u * u + v * v).
Proof. unfold dist. cbn [vx vy]. f_equal. ring. Qed.

Lemma curve_near s t z e : okseg s -> 0 <= t <= 1 -> seg_at (fst s) (snd s) t z -> 0 < e ->
  exists t' z', 0 < t' < 1 /\ seg_at (fst s) (snd s) t' z' /\ dist z z' < e.
Proof.
  intros Os Ht Hz He. destruct (seg_curve (fst s) (snd s) Os) as (x & y & Cx & Cy & Hq). apply Hq in Hz.
  destruct (Cx t (e / 2) ltac:(lra)) as (d1 & Hd1 & D1). destruct (Cy t (e / 2) ltac:(lra)) as (d2 & Hd2 & D2).
  set (d := Rmin (Rmin d1 d2) (1 / 2) / 2). assert (Pd : 0 < d) by (unfold d; assert (0 < Rmin (Rmin d1 d2) (1 / 2)) by (repeat apply Rmin_pos; lra); lra).
  pose proof (Rmin_l (Rmin d1 d2) (1 / 2)). pose proof (Rmin_r (Rmin d1 d2) (1 / 2)). pose proof (Rmin_l d1 d2). pose proof (Rmin_r d1 d2).
  assert (Q : exists t', 0 < t' < 1 /\ t <> t' /\ Rabs (t' - t) = d).
  { destruct (Rlt_dec t (1 / 2)).
    - exists (t + d). split; [unfold d in *; lra|]. split; [lra|]. replace (t + d - t) with d by ring. apply Rabs_right. lra.
    - exists (t - d). split; [unfold d in *; lra|]. split; [lra|]. replace (t - d - t) with (- d) by ring. rewrite Rabs_Ropp. apply Rabs_right. lra. }
  destruct Q as (t' & Ht' & NE & Dt). exists t', (V2 (x t') (y t')). split; [exact Ht'|]. split; [now apply Hq|].
  assert (A1 : Rabs (x t' - x t) < e / 2) by (apply (D1 t'); split; [split; [exact I|exact NE]|]; cbn; unfold R_dist; rewrite Dt; unfold d in *; lra).
  assert (A2 : Rabs (y t' - y t) < e / 2) by (apply (D2 t'); split; [split; [exact I|exact NE]|]; cbn; unfold R_dist; rewrite Dt; unfold d in *; lra).
  rewrite Hz. set (q := V2 (x t) (y t)). replace (V2 (x t') (y t')) with (V2 (vx q + (x t' - x t)) (vy q + (y t' - y t))) by (unfold q; cbn [vx vy]; f_equal; ring).
  rewrite dist_offset. set (u := x t' - x t) in *. set (v := y t' - y t) in *.
  apply Rle_lt_trans with (Rabs u + Rabs v); [|lra]. pose proof (Rabs_pos u). pose proof (Rabs_pos v).
  apply Rsqr_incr_0_var; [|lra]. rewrite Rsqr_sqrt by nra. unfold Rsqr.
  pose proof (Rsqr_abs u) as Eu. pose proof (Rsqr_abs v) as Ev. unfold Rsqr in Eu, Ev. rewrite Eu, Ev. nra.
Qed.
