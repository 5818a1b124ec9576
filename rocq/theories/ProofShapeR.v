(** Shapes (C37) over the reals: distance of the slices that pass, bounds of loops. *)
From Coq Require Import Reals List Bool Arith Lra.
From Verif Require Import Num RNum Res ModelMath ModelSeg ModelPline ModelView ModelIndex ModelOffset ModelShape.
From Verif Require Import Spec SpecGeom SpecBox SpecClosest SpecView SpecIndex SpecOffset2 SpecChain SpecShape SpecShapeR.
From Verif Require Import ProofR ProofArc ProofOffset3 ProofIndex2.
Import ListNotations.
Local Open Scope R_scope.

Lemma passes_far inputs offset o (p : pline R) parent d : passes inputs offset o p parent d true ->
  0 < so_pos_equal_eps o -> 0 <= Rabs offset - so_offset_dist_eps o -> Forall (fun ip => pline_ok (ip_pline ip) /\ has_index ip) inputs ->
  exists v0 v1 t, view_path_of p d = v0 :: v1 :: t
  /\ forall q k ip, seg_ok v0 v1 -> seg_at v0 v1 (1 / 2) q -> nth_error inputs k = Some ip -> k <> parent ->
       far_enough (ip_pline ip) q (Rabs offset - so_offset_dist_eps o) (so_pos_equal_eps o).
Proof.
  intros (v0 & v1 & t & E & H) He HD F. exists v0, v1, t. split; [exact E|]. intros q k ip S Q Hk NP.
  rewrite (seg_at_unique v0 v1 (1 / 2) q (seg_midpoint v0 v1) Q (seg_midpoint_spec v0 v1 S) S).
  rewrite Forall_forall in F. destruct (F ip (nth_error_In _ _ Hk)) as (OK & IX).
  destruct (point_valid_spec (ip_pline ip) (ip_index ip) offset (so_offset_dist_eps o) (so_pos_equal_eps o) (seg_midpoint v0 v1) OK He IX HD) as (b & EB & G & _).
  apply G. pose proof (proj1 H eq_refl k ip Hk NP) as P. congruence.
Qed.

Lemma union_covers a b : covers (box_union a b) a /\ covers (box_union a b) b.
Proof.
  unfold covers, box_union. rnum. cbn [bmin_x bmin_y bmax_x bmax_y].
  destruct (rltb (bmin_x b) (bmin_x a)) eqn:E1, (rltb (bmin_y b) (bmin_y a)) eqn:E2, (rltb (bmax_x a) (bmax_x b)) eqn:E3, (rltb (bmax_y a) (bmax_y b)) eqn:E4;
    repeat match goal with H : rltb _ _ = true |- _ => apply rltb_true in H | H : rltb _ _ = false |- _ => apply rltb_false in H end; repeat split; lra.
Qed.

Lemma covers_trans a b c : covers a b -> covers b c -> covers a c.
Proof. unfold covers. intros; lra. Qed.

Lemma union_fold : forall l a, covers (fold_left box_union l a) a /\ (forall x, In x l -> covers (fold_left box_union l a) x)
  /\ forall m, reached a m -> (forall x, In x l -> In x m) -> reached (fold_left box_union l a) m.
Proof.
  induction l as [|b l IH]; intros a; cbn [fold_left].
  - split; [unfold covers; lra|]. split; [intros x []|]. auto.
  - destruct (IH (box_union a b)) as (C & D & E). destruct (union_covers a b) as (A & B). split; [|split].
    + eapply covers_trans; eassumption.
    + intros x [<-|H]; [eapply covers_trans; eassumption|auto].
    + intros m ((x1 & X1 & Y1) & (x2 & X2 & Y2) & (x3 & X3 & Y3) & (x4 & X4 & Y4)) I. apply E; [|intros x Hx; apply I; right; exact Hx].
      assert (IB : In b m) by (apply I; left; reflexivity). unfold reached, box_union. cbn [bmin_x bmin_y bmax_x bmax_y].
      split; [|split; [|split]].
      * destruct (nltb (bmin_x b) (bmin_x a)); eauto.
      * destruct (nltb (bmin_y b) (bmin_y a)); eauto.
      * destruct (nltb (bmax_x a) (bmax_x b)); eauto.
      * destruct (nltb (bmax_y a) (bmax_y b)); eauto.
Qed.

Lemma bounds_spec (idx : sindex R) b : index_bounds idx = Some b -> (forall x, In x (ix_boxes idx) -> covers b x) /\ reached b (ix_boxes idx).
Proof.
  unfold index_bounds. destruct (ix_boxes idx) as [|a l]; [discriminate|]. intros H. injection H as <-.
  destruct (union_fold l a) as (C & D & E). split; [intros x [<-|Hx]; auto|]. apply E; [|intros x Hx; right; exact Hx].
  split; [|split; [|split]]; exists a; split; reflexivity || (left; reflexivity).
Qed.
