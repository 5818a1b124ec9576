(** Cases to which C54 and C55 apply. *)
From Coq Require Import Reals ZArith Bool List Arith Lra Lia.
From Verif Require Import Num RNum Res ModelMath ModelIntr ModelSeg ModelPline ModelView ModelSegIntr ModelIndex ModelIntersects ModelBoolean ModelOffset.
From Verif Require Import Spec SpecPline SpecGeom SpecIntr SpecBox SpecOffset SpecOffsetJoin SpecIndex SpecRawNear SpecOffNear.
From Verif Require Import ProofR ProofBase ProofIter ProofIntr ProofIndex2 ProofOffNear ProofOffNear4 ProofLineOff.
Import ListNotations.
Local Open Scope R_scope.

Definition line_ex : pline R := PL [Vtx 0 0 0; Vtx 3 4 0] false.
Definition line_ex_opts : offset_options R := OO (1 / 100000) (1 / 10000) (1 / 10000) false.

Lemma line_ex_dist : dist (V2 0 0) (V2 3 4) = 5.
Proof. apply dist_eq_sqr; cbn; lra. Qed.

(** The index may be given or built. *)
Lemma line_offset_both mk (v1 v2 : vertex R) n d o : makes_index mk ->
  0 < oo_pos_equal_eps o -> 0 < oo_offset_dist_eps o < 2 * Rabs d -> d <> 0 ->
  pbulge v1 = 0 -> ~ is_point (pos v1) (pos v2) (oo_pos_equal_eps o) -> clear_direction (pos v1) (pos v2) ->
  oo_pos_equal_eps o <= Rabs d * dist (pos v1) (pos v2) -> left_normal (pos v1) (pos v2) n ->
  let p := PL [v1; v2] false in
  let r := PL [vertex_at (moved (pos v1) n d) 0; vertex_at (moved (pos v2) n d) 0] false in
  (forall idx, pline_index p idx -> parallel_offset mk p idx d o = Ret [r]) /\ parallel_offset_constructed mk p d o = Ret [r].
Proof.
  intros MK He Ho Hd Hz Hp Hc Hl Hn p r.
  assert (H : forall idx, pline_index p idx -> parallel_offset mk p idx d o = Ret [r]) by (intros idx; now apply line_offset).
  split; [exact H|]. unfold parallel_offset_constructed, create_approx_aabb_index. rewrite create_index_spec. apply H, MK.
Qed.

Lemma line_ex_ok : let o := line_ex_opts in
  0 < oo_pos_equal_eps o /\ ~ is_point (V2 0 0) (V2 3 4) (oo_pos_equal_eps o) /\ clear_direction (V2 0 0) (V2 3 4)
  /\ left_normal (V2 0 0) (V2 3 4) (V2 (-4/5) (3/5)) /\ oo_pos_equal_eps o <= Rabs 5 * dist (V2 0 0) (V2 3 4) /\ 0 < oo_offset_dist_eps o < 2 * Rabs 5.
Proof.
  cbv zeta. unfold line_ex_opts. cbn [oo_pos_equal_eps oo_offset_dist_eps]. rewrite line_ex_dist, (Rabs_pos_eq 5) by lra.
  split; [lra|]. split. { unfold is_point. cbn. intros (H & _). rewrite Rabs_pos_eq in H by lra. lra. }
  split. { right. cbn. rewrite Rabs_pos_eq; lra. } split. { unfold left_normal, vec, cross. cbn. lra. } lra.
Qed.

Lemma line_ex_clean raw : create_raw_offset_polyline line_ex 5 (oo_pos_equal_eps line_ex_opts) = Ret raw ->
  clean_offset (oo_pos_equal_eps line_ex_opts + 2 * oo_slice_join_eps line_ex_opts) line_ex 5 line_ex_opts raw.
Proof.
  destruct line_ex_ok as (H1 & H2 & H3 & H4 & H5 & H6). intros E.
  pose proof (raw_line (Vtx 0 0 0) (Vtx 3 4 0) (V2 (-4/5) (3/5)) line_ex_opts H1 eq_refl H2 H4 5) as EV.
  change (PL [Vtx 0 0 0; Vtx 3 4 0] false) with line_ex in EV. rewrite E in EV. injection EV as ->.
  apply (line_clean (Vtx 0 0 0) (Vtx 3 4 0) (V2 (-4/5) (3/5)) 5 line_ex_opts); auto; try lra.
  left. cbn. rewrite Rabs_left by lra. lra.
Qed.

Lemma line_ex_lines : all_lines line_ex /\ clear_corners line_ex 5 (oo_pos_equal_eps line_ex_opts).
Proof.
  split; [|split].
  - intros v H. cbn in H. intuition (subst; reflexivity).
  - intros v1 v2 H. cbn in H. destruct H as [H|[]]. injection H as <- <-. apply line_ex_ok.
  - intros v1 v2 u1 u2 H. destruct H.
Qed.

Lemma line_ex_all : makes_index (@list_index R _) /\ all_lines line_ex /\ clear_corners line_ex 5 (oo_pos_equal_eps line_ex_opts)
  /\ (forall raw, create_raw_offset_polyline line_ex 5 (oo_pos_equal_eps line_ex_opts) = Ret raw ->
       clean_offset (oo_pos_equal_eps line_ex_opts + 2 * oo_slice_join_eps line_ex_opts) line_ex 5 line_ex_opts raw)
  /\ parallel_offset_constructed (@list_index R _) line_ex 5 line_ex_opts = Ret [PL [Vtx (-4) 3 0; Vtx (-1) 7 0] false].
Proof.
  split; [exact list_index_ok|]. split; [apply line_ex_lines|]. split; [apply line_ex_lines|]. split; [exact line_ex_clean|].
  destruct line_ex_ok as (H1 & H2 & H3 & H4 & H5 & H6).
  destruct (line_offset_both (@list_index R _) (Vtx 0 0 0) (Vtx 3 4 0) (V2 (-4/5) (3/5)) 5 line_ex_opts list_index_ok H1 H6 ltac:(lra) eq_refl H2 H3 H5 H4) as (_ & E).
  unfold line_ex. rewrite E. unfold vertex_at, moved. cbn. repeat f_equal; lra.
Qed.
