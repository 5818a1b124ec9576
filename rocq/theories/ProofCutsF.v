(** A cut that is missed on a long line (C49). *)
From Coq Require Import Reals List Bool PrimFloat Lra.
From Verif Require Import Num RNum FNum Res ModelMath ModelIntr ModelSeg ModelPline ModelIndex ModelIntersects ModelBoolean ModelOffset.
From Verif Require Import Spec SpecGeom SpecIntr SpecOffsetJoin SpecCuts TestUtil.
From Verif Require Import ProofR ProofArc ProofIntr ProofSegIntr2 ProofOffsetJoin2 ProofOffsetContract.
Import ListNotations.
Set Warnings "-inexact-float".

Section Missed.
Local Open Scope R_scope.

(** The line starts five units before the circle. *)
Lemma circle_missed : exists (v1 v2 : vertex R) c r eps q, 0 < eps <= 1 / 100000 /\ pbulge v1 = 0
  /\ passes_inside (pos v1) (pos v2) c r eps /\ on_seg v1 v2 q /\ dist q c = r /\ 5 <= dist (pos v1) q
  /\ circle_points c r eps v1 v2 = [].
Proof.
  exists (Vtx 0 0 0), (Vtx 1000000 0 0), (V2 6 0), 1, (1 / 100000), (V2 5 0).
  assert (NP : ~ is_point (V2 0 0) (V2 1000000 0) (1 / 100000)).
  { unfold is_point. cbn [vx vy]. intros [H _]. rewrite Rabs_pos_eq in H; lra. }
  assert (CD : clear_direction (V2 0 0) (V2 1000000 0)).
  { right. cbn [vx vy]. rewrite Rabs_pos_eq; lra. }
  assert (LP : forall t, line_pt (V2 0 0) (V2 1000000 0) t = V2 (1000000 * t) 0).
  { intros t. unfold line_pt. cbn [vx vy]. apply vec2_eq; cbn [vx vy]; ring. }
  assert (DI : forall t, dist (V2 (1000000 * t) 0) (V2 6 0) = Rabs (1000000 * t - 6)).
  { intros t. unfold dist. cbn [vx vy]. replace ((1000000 * t - 6) * (1000000 * t - 6) + (0 - 0) * (0 - 0)) with (Rsqr (1000000 * t - 6)) by (unfold Rsqr; ring).
    apply sqrt_Rsqr_abs. }
  split; [lra|]. split; [reflexivity|]. split; [|split; [|split; [|split]]].
  - exists (6 / 1000000). change (pos (Vtx 0 0 0)) with (V2 0 0). change (pos (Vtx 1000000 0 0)) with (V2 1000000 0).
    rewrite LP, DI. replace (1000000 * (6 / 1000000) - 6) with 0 by field. rewrite Rabs_R0. lra.
  - exists (5 / 1000000). split; [lra|]. apply seg_at_line; [reflexivity|].
    change (pos (Vtx 0 0 0)) with (V2 0 0). change (pos (Vtx 1000000 0 0)) with (V2 1000000 0). rewrite LP. apply vec2_eq; cbn [vx vy]; field.
  - apply dist_eq_sqr; cbn [vx vy]; lra.
  - right. symmetry. change (pos (Vtx 0 0 0)) with (V2 0 0). apply dist_eq_sqr; cbn [vx vy]; lra.
  - unfold circle_points. rewrite (is_zero_line (Vtx 0 0 0) eq_refl).
    change (pos (Vtx 0 0 0)) with (V2 0 0). change (pos (Vtx 1000000 0 0)) with (V2 1000000 0).
    pose proof (line_circle_main (V2 0 0) (V2 1000000 0) 1 (V2 6 0) (1 / 100000) ltac:(lra) NP CD) as LC.
    assert (T6 : dist (line_pt (V2 0 0) (V2 1000000 0) (6 / 1000000)) (V2 6 0) = 0).
    { rewrite LP, DI. replace (1000000 * (6 / 1000000) - 6) with 0 by field. apply Rabs_R0. }
    destruct (line_circle_intr _ _ _ _ _) as [|k|k0 k1]; [reflexivity| |].
    + exfalso. destruct LC as [L1 L2]. specialize (L1 (6 / 1000000)). apply Rabs_def2 in L2. lra.
    + destruct LC as (_ & _ & LC). destruct LC as (_ & A & B & _); [exists (6 / 1000000); lra|].
      assert (Z : forall k, dist (line_pt (V2 0 0) (V2 1000000 0) k) (V2 6 0) = 1 -> 0 <= k <= 7 / 1000000).
      { intros k E. rewrite LP, DI in E. unfold Rabs in E. destruct (Rcase_abs (1000000 * k - 6)); lra. }
      apply Z in A, B. cbn [filter map]. rnum.
      assert (F : forall k, 0 <= k <= 7 / 1000000 -> rltb (1 / 100000) (Rabs k) = false).
      { intros k Hk. apply rltb_false. rewrite Rabs_pos_eq; lra. }
      rewrite (F _ A), (F _ B), !andb_false_r. reflexivity.
Qed.
End Missed.

(** The same within an offset. The first vertex is near the last segment. *)
Definition hook (x : float) : pline float :=
  (PL [Vtx 5 1.5 0; Vtx 5 100 0; Vtx (-50) 100 0; Vtx (-50) 0 0; Vtx 0 0 0; Vtx x 0 0] false)%float.
Definition hook_opts : offset_options float := (OO 1e-5 1e-4 1e-4 false)%float.

Definition passes_vertex (p r : pline float) : bool :=
  existsb (fun v => existsb (fun s => dist_squared (seg_closest_point (fst s) (snd s) (pos v) 1e-5%float) (pos v) <? 0.51 * 0.51)%float
    (spec_segs (vtx r) (is_closed r))) (vtx p).

Lemma hook_run x : x = 1000000%float -> (let! rs := parallel_offset_constructed (@list_index float _) (hook x) 1%float hook_opts in
  Ret (map (fun r => (vertex_count r, is_closed r, passes_vertex (hook x) r)) rs)) = Ret [(6, false, true)].
Proof. intros ->. vm_compute. reflexivity. Qed.

(** With a shorter segment it is cut. *)
Lemma hook_short : (let! rs := parallel_offset_constructed (@list_index float _) (hook 1000%float) 1%float hook_opts in
  Ret (map (fun r => (vertex_count r, is_closed r, passes_vertex (hook 1000%float) r)) rs)) = Ret [(6, false, false); (2, false, false)].
Proof. vm_compute. reflexivity. Qed.

Lemma hook_near : exists (p : pline float) rs r v w1 w2,
  parallel_offset_constructed (@list_index float _) p 1%float (OO 1e-5 1e-4 1e-4 false)%float = Ret rs
  /\ In r rs /\ In v (vtx p) /\ In (w1, w2) (spec_segs (vtx r) (is_closed r))
  /\ (dist_squared (seg_closest_point w1 w2 (pos v) 1e-5%float) (pos v) <? 0.51 * 0.51)%float = true.
Proof.
  exists (hook 1000000%float). destruct (rmap_In _ _ _ (6, false, true) (hook_run _ eq_refl) (or_introl eq_refl)) as (rs & r & E & H & F).
  injection F as _ _ F. unfold passes_vertex in F. apply existsb_exists in F as (v & Hv & F).
  apply existsb_exists in F as ([w1 w2] & Hs & F). exists rs, r, v, w1, w2.
  split; [exact E|]. split; [exact H|]. split; [exact Hv|]. split; [exact Hs|exact F].
Qed.
