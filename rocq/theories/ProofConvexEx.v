(** A triangle offset to its inner side (C69). *)
From Coq Require Import Reals ZArith Bool List Arith Lra Lia.
From Verif Require Import Num RNum Res ModelMath ModelSeg ModelPline ModelIndex ModelOffset.
From Verif Require Import Spec SpecGeom SpecIntr SpecBox SpecBoolean SpecView SpecPrune SpecIndex SpecCuts SpecOffset SpecOffNear SpecPolyOff SpecOffsetJoin SpecJordan SpecConvex.
From Verif Require Import ProofR ProofBase ProofIter ProofArc ProofIntr ProofIndex2 ProofPolyOff ProofPolyOff2 ProofPolyOff3 ProofCircleOff ProofArea6 ProofConvex ProofConvexOff.
Import ListNotations.
Local Open Scope R_scope.

Definition tri : list (vec2 R) := [V2 0 0; V2 8 0; V2 0 6].
Definition tri_in : list (vec2 R) := [V2 1 1; V2 5 1; V2 1 4].

Lemma tri_convex : convex 1 tri.
Proof.
  intros a b c I J. cbn in I, J. destruct I as [I|[I|[I|[]]]]; injection I as <- <-; destruct J as [<-|[<-|[<-|[]]]]; unfold cross, vec; cbn [vx vy]; lra.
Qed.

Lemma tri_lone eps qs : 0 < eps <= 10 -> qs = tri \/ qs = tri_in -> lone_polygon eps qs.
Proof.
  intros He [-> | ->]; (split; [cbn; lia|split]).
  all: try (intros i a b c; do 3 (destruct i as [|i]; [cbn; intros [= <- <-] [= <-]; unfold cross, vec; cbn [vx vy]; rewrite Rabs_pos_eq by lra; lra|]); cbn; destruct i; discriminate).
  all: intros i j a b c e; do 3 (destruct i as [|i]; [cbn -[Nat.modulo]; intros [= <- <-]; do 3 (destruct j as [|j];
      [cbn; intros [= <- <-] N1 N2 N3; exfalso; (now apply N1) || (now apply N2) || (now apply N3)|]); cbn; destruct j; discriminate|]); cbn; destruct i; discriminate.
Qed.

Lemma tri_inner eps : 0 < eps <= 1 -> inner_corners (polygon tri) (1 * 1) eps tri_in.
Proof.
  intros He.
  assert (LN : left_normal (V2 0 0) (V2 8 0) (V2 0 1)) by (unfold left_normal, cross, vec; cbn [vx vy]; lra).
  assert (LN2 : left_normal (V2 8 0) (V2 0 6) (V2 (-3/5) (-4/5))) by (unfold left_normal, cross, vec; cbn [vx vy]; lra).
  assert (LN3 : left_normal (V2 0 6) (V2 0 0) (V2 1 0)) by (unfold left_normal, cross, vec; cbn [vx vy]; lra).
  split; [|split].
  - unfold polygon, tri, tri_in. cbn [map vtx spec_segs combine tl app with_previous last].
    constructor; [|constructor; [|constructor; [|constructor]]]; cbn [fst snd]; unfold pos, vertex_at; cbn [px py vx vy].
    + exists (V2 1 0), (V2 0 1), (5/6), (1/8). split; [exact LN3|]. split; [exact LN|]. split; [lra|]. split; [lra|].
      split; [apply vec2_eq; unfold line_pt, moved; cbn [vx vy]; lra|]. split; [apply vec2_eq; unfold line_pt, moved; cbn [vx vy]; lra|].
      unfold cross, vec. cbn [vx vy]. rewrite Rabs_pos_eq; lra.
    + exists (V2 0 1), (V2 (-3/5) (-4/5)), (5/8), (3/10). split; [exact LN|]. split; [exact LN2|]. split; [lra|]. split; [lra|].
      split; [apply vec2_eq; unfold line_pt, moved; cbn [vx vy]; lra|]. split; [apply vec2_eq; unfold line_pt, moved; cbn [vx vy]; lra|].
      unfold cross, vec. cbn [vx vy]. rewrite Rabs_pos_eq; lra.
    + exists (V2 (-3/5) (-4/5)), (V2 1 0), (4/5), (1/3). split; [exact LN2|]. split; [exact LN3|]. split; [lra|]. split; [lra|].
      split; [apply vec2_eq; unfold line_pt, moved; cbn [vx vy]; lra|]. split; [apply vec2_eq; unfold line_pt, moved; cbn [vx vy]; lra|].
      unfold cross, vec. cbn [vx vy]. rewrite Rabs_pos_eq; lra.
  - unfold tri_in. cbn [with_previous last combine].
    constructor; [|constructor; [|constructor; [|constructor]]]; cbn [fst snd]; intros (A & B); cbn [vx vy] in *; apply Rabs_def2 in A; apply Rabs_def2 in B; lra.
  - intros a b n q E N Q. cbn in E. injection E as <- <-. cbn in Q. injection Q as <-.
    change (pos (vertex_at (V2 0 0) 0)) with (V2 0 0) in *. change (pos (vertex_at (V2 8 0) 0)) with (V2 8 0) in *.
    rewrite (normal_unique _ _ _ _ N LN). intros (A & _). cbn [vx vy moved] in A. apply Rabs_def2 in A. lra.
Qed.

Lemma tri_within q : In q tri_in -> within_by 1 1 tri q.
Proof.
  intros J a b I.
  assert (D1 : dist (V2 0 0) (V2 8 0) = 8) by (unfold dist; cbn [vx vy]; replace (_ + _) with (8 * 8) by ring; apply sqrt_square; lra).
  assert (D2 : dist (V2 8 0) (V2 0 6) = 10) by (unfold dist; cbn [vx vy]; replace (_ + _) with (10 * 10) by ring; apply sqrt_square; lra).
  assert (D3 : dist (V2 0 6) (V2 0 0) = 6) by (unfold dist; cbn [vx vy]; replace (_ + _) with (6 * 6) by ring; apply sqrt_square; lra).
  cbn in I, J. destruct I as [I|[I|[I|[]]]]; injection I as <- <-; rewrite ?D1, ?D2, ?D3; destruct J as [<-|[<-|[<-|[]]]]; unfold cross, vec; cbn [vx vy]; lra.
Qed.

Lemma tri_once : passes_once (polygon tri).
Proof. apply (lone_once 1); [lra|]. apply tri_lone; [lra|auto]. Qed.

Lemma strict_off s ps x : (forall a b, In (a, b) (spec_segs ps true) -> 0 < s * cross (vec a b) (vec a x)) -> ~ on_path (polygon ps) x.
Proof.
  intros H Q. apply polygon_path in Q as (a & b & t & I & _ & E). specialize (H a b I). rewrite E, cross_line in H. destruct (cross_at a b) as (C1 & C2). rewrite C1, C2 in H. lra.
Qed.

Lemma tri_offset :
  parallel_offset_constructed (@list_index R _) (polygon tri) 1 rect_ex_opts = Ret [polygon tri_in]
  /\ (forall x, ~ on_path (polygon tri) x -> ~ on_path (polygon tri_in) x ->
       (inside (polygon tri_in) x = true <-> inside (polygon tri) x = true /\ forall q, on_path (polygon tri) q -> 1 < dist x q))
  /\ inside (polygon tri_in) (V2 2 2) = true.
Proof.
  assert (L1 : lone_polygon (oo_pos_equal_eps rect_ex_opts) tri_in) by (apply tri_lone; [cbn; lra|auto]).
  assert (I1 : inner_corners (polygon tri) (1 * 1) (oo_pos_equal_eps rect_ex_opts) tri_in) by (apply tri_inner; cbn; lra).
  split; [|split].
  - apply (offsets_to_intro (@list_index R _) _ 1 rect_ex_opts _ list_index_ok); [cbn; lia|]. intros idx PI.
    replace 1 with (1 * 1) by ring. apply (convex_offset (@list_index R _) 1 tri tri_in 1 rect_ex_opts idx list_index_ok (or_introl eq_refl));
      auto using tri_convex, tri_once, tri_within; cbn; lra.
  - apply (off_region 1 1 (oo_pos_equal_eps rect_ex_opts) tri tri_in); auto using tri_convex, tri_once, tri_within; cbn; lra.
  - assert (S : forall a b, In (a, b) (spec_segs tri_in true) -> 0 < 1 * cross (vec a b) (vec a (V2 2 2))).
    { intros a b I. cbn in I. destruct I as [I|[I|[I|[]]]]; injection I as <- <-; unfold cross, vec; cbn [vx vy]; lra. }
    apply (convex_inside 1 tri_in); auto.
    + apply (off_convex 1 1 (oo_pos_equal_eps rect_ex_opts) tri tri_in); auto using tri_convex, tri_once, tri_within; cbn; lra.
    + split; [cbn; lia|reflexivity].
    + apply (lone_once 1); [lra|]. apply tri_lone; [lra|auto].
    + now apply (strict_off 1).
Qed.
