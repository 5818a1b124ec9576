(** A quadrilateral one side of which vanishes when it is offset to its inner side (C76). *)
From Coq Require Import Reals ZArith Bool List Arith Lra Lia.
From Verif Require Import Num RNum Res ModelMath ModelSeg ModelPline ModelIndex ModelOffset.
From Verif Require Import Spec SpecGeom SpecIntr SpecBox SpecBoolean SpecView SpecPrune SpecIndex SpecCuts SpecOffset SpecOffNear SpecPolyOff SpecPolyBool SpecOffsetJoin SpecJordan SpecRegion SpecConvex SpecVanish.
From Verif Require Import ProofR ProofBase ProofIter ProofArc ProofIntr ProofIndex2 ProofPolyOff ProofPolyOff2 ProofPolyOff3 ProofCircleOff ProofArea6 ProofConvex ProofConvexOff ProofConvexEx ProofVanish ProofVanish2 ProofVanish3.
Import ListNotations.
Local Open Scope R_scope.

Definition cut : list (vec2 R) := [V2 3 0; V2 64 0; V2 0 48; V2 0 4].
Definition cut_in : list (vec2 R) := [V2 7 8; V2 40 8; V2 8 32; V2 8 (20/3)].

Lemma cut_convex : convex 1 cut.
Proof.
  intros a b c I J. cbn in I, J. destruct I as [I|[I|[I|[I|[]]]]]; injection I as <- <-; destruct J as [<-|[<-|[<-|[<-|[]]]]]; unfold cross, vec; cbn [vx vy]; lra.
Qed.

Lemma cut_dists : dist (V2 3 0) (V2 64 0) = 61 /\ dist (V2 64 0) (V2 0 48) = 80 /\ dist (V2 0 48) (V2 0 4) = 44 /\ dist (V2 0 4) (V2 3 0) = 5.
Proof.
  split; [|split; [|split]]; unfold dist; cbn [vx vy].
  - replace (_ + _) with (61 * 61) by ring. apply sqrt_square; lra.
  - replace (_ + _) with (80 * 80) by ring. apply sqrt_square; lra.
  - replace (_ + _) with (44 * 44) by ring. apply sqrt_square; lra.
  - replace (_ + _) with (5 * 5) by ring. apply sqrt_square; lra.
Qed.

Lemma cut_lone : lone_polygon (1 / 100000) cut.
Proof.
  destruct cut_dists as (D1 & D2 & D3 & D4). split; [cbn; lia|split].
  - intros i a b c. do 4 (destruct i as [|i]; [cbn; intros [= <- <-] [= <-]; unfold cross, vec; cbn [vx vy]; rewrite Rabs_pos_eq by lra; lra|]). cbn. destruct i; discriminate.
  - intros i j a b c e. do 4 (destruct i as [|i]; [cbn -[Nat.modulo]; intros [= <- <-]; do 4 (destruct j as [|j];
      [cbn; intros [= <- <-] N1 N2 N3; first [exfalso; (now apply N1) || (now apply N2) || (now apply N3)|left; exists 1; split; [now left|];
       rewrite ?D1, ?D2, ?D3, ?D4; intros w [-> | ->]; unfold cross, vec; cbn [vx vy]; lra]|]); cbn; destruct j; discriminate|]). cbn. destruct i; discriminate.
Qed.

Lemma cut_once : passes_once (polygon cut).
Proof. apply (lone_once (1 / 100000)); [lra|exact cut_lone]. Qed.

Lemma cut_inner eps : 0 < eps <= 1 / 2 -> inner_corners (polygon cut) (1 * 8) eps cut_in.
Proof.
  intros He.
  assert (LN0 : left_normal (V2 3 0) (V2 64 0) (V2 0 1)) by (unfold left_normal, cross, vec; cbn [vx vy]; lra).
  assert (LN1 : left_normal (V2 64 0) (V2 0 48) (V2 (-3/5) (-4/5))) by (unfold left_normal, cross, vec; cbn [vx vy]; lra).
  assert (LN2 : left_normal (V2 0 48) (V2 0 4) (V2 1 0)) by (unfold left_normal, cross, vec; cbn [vx vy]; lra).
  assert (LN3 : left_normal (V2 0 4) (V2 3 0) (V2 (4/5) (3/5))) by (unfold left_normal, cross, vec; cbn [vx vy]; lra).
  split; [|split].
  - unfold polygon, cut, cut_in. cbn [map vtx spec_segs combine tl app with_previous last].
    constructor; [|constructor; [|constructor; [|constructor; [|constructor]]]]; cbn [fst snd]; unfold pos, vertex_at; cbn [px py vx vy].
    + exists (V2 (4/5) (3/5)), (V2 0 1), (1/5), (4/61). split; [exact LN3|]. split; [exact LN0|]. split; [lra|]. split; [lra|].
      split; [apply vec2_eq; unfold line_pt, moved; cbn [vx vy]; lra|]. split; [apply vec2_eq; unfold line_pt, moved; cbn [vx vy]; lra|].
      unfold cross, vec. cbn [vx vy]. rewrite Rabs_pos_eq; lra.
    + exists (V2 0 1), (V2 (-3/5) (-4/5)), (37/61), (3/10). split; [exact LN0|]. split; [exact LN1|]. split; [lra|]. split; [lra|].
      split; [apply vec2_eq; unfold line_pt, moved; cbn [vx vy]; lra|]. split; [apply vec2_eq; unfold line_pt, moved; cbn [vx vy]; lra|].
      unfold cross, vec. cbn [vx vy]. rewrite Rabs_pos_eq; lra.
    + exists (V2 (-3/5) (-4/5)), (V2 1 0), (4/5), (4/11). split; [exact LN1|]. split; [exact LN2|]. split; [lra|]. split; [lra|].
      split; [apply vec2_eq; unfold line_pt, moved; cbn [vx vy]; lra|]. split; [apply vec2_eq; unfold line_pt, moved; cbn [vx vy]; lra|].
      unfold cross, vec. cbn [vx vy]. rewrite Rabs_pos_eq; lra.
    + exists (V2 1 0), (V2 (4/5) (3/5)), (31/33), (8/15). split; [exact LN2|]. split; [exact LN3|]. split; [lra|]. split; [lra|].
      split; [apply vec2_eq; unfold line_pt, moved; cbn [vx vy]; lra|]. split; [apply vec2_eq; unfold line_pt, moved; cbn [vx vy]; lra|].
      unfold cross, vec. cbn [vx vy]. rewrite Rabs_pos_eq; lra.
  - unfold cut_in. cbn [with_previous last combine].
    constructor; [|constructor; [|constructor; [|constructor; [|constructor]]]]; cbn [fst snd]; intros (A & B); cbn [vx vy] in *; apply Rabs_def2 in A; apply Rabs_def2 in B; lra.
  - intros a b n q E N Q. cbn in E. injection E as <- <-. cbn in Q. injection Q as <-.
    change (pos (vertex_at (V2 3 0) 0)) with (V2 3 0) in *. change (pos (vertex_at (V2 64 0) 0)) with (V2 64 0) in *.
    rewrite (normal_unique _ _ _ _ N LN0). intros (A & _). cbn [vx vy moved] in A. apply Rabs_def2 in A. lra.
Qed.

(** Only the first and the third side cross. *)
Lemma cut_cross eps i j x : sides_cross eps cut_in i j x -> x = V2 8 8 /\ ((i = 0 /\ j = 2) \/ (i = 2 /\ j = 0))%nat.
Proof.
  intros ((N1 & N2 & N3) & a & b & c & e & Ei & Ej & _ & s & t & Hs & Ht & E1 & E2). subst x. revert Ei Ej N1 N2 N3 Hs Ht E2.
  do 4 (destruct i as [|i]; [cbn -[Nat.modulo]; intros [= <- <-]; do 4 (destruct j as [|j];
      [cbn; intros [= <- <-] N1 N2 N3 Hs Ht E2; first [exfalso; (now apply N1) || (now apply N2) || (now apply N3)|
       pose proof (f_equal vx E2) as Ex; pose proof (f_equal vy E2) as Ey; unfold line_pt in *; cbn [vx vy] in *; first [exfalso; lra|split; [apply vec2_eq; cbn [vx vy]; lra|tauto]]]|]);
      cbn; destruct j; discriminate|]). cbn. destruct i; discriminate.
Qed.

Lemma cut_crosses eps : 0 < eps <= 1 / 2 -> sides_cross eps cut_in 0 2 (V2 8 8).
Proof.
  intros He. split; [split; [lia|split; cbn; lia]|]. exists (V2 7 8), (V2 40 8), (V2 8 32), (V2 8 (20/3)). split; [reflexivity|]. split; [reflexivity|]. split.
  - unfold cross, vec. cbn [vx vy]. rewrite Rabs_left by lra. lra.
  - exists (1/33), (18/19). split; [lra|]. split; [lra|]. split; apply vec2_eq; unfold line_pt; cbn [vx vy]; lra.
Qed.

Lemma cut_in_dists : dist (V2 40 8) (V2 8 32) = 40.
Proof. unfold dist; cbn [vx vy]. replace (_ + _) with (40 * 40) by ring. apply sqrt_square; lra. Qed.

Lemma cut_crossing eps join : 0 < eps <= 1 / 2 -> crossing_polygon eps join cut_in.
Proof.
  intros He. pose proof cut_in_dists as D. split; [cbn; lia|]. split.
  { intros i a b c. do 4 (destruct i as [|i]; [cbn; intros [= <- <-] [= <-]; unfold cross, vec; cbn [vx vy]; unfold Rabs; destruct (Rcase_abs _); lra|]). cbn. destruct i; discriminate. }
  split; [|split; [|split]].
  - intros i j a b c e Ei Ej (N1 & N2 & N3). revert Ei Ej N1 N2 N3.
    destruct i as [|[|[|[|i]]]]; destruct j as [|[|[|[|j]]]]; cbn; try (intros; discriminate); try (destruct i; discriminate); try (intros _; destruct j; discriminate);
      intros [= <- <-] [= <- <-] N1 N2 N3; try (exfalso; (now apply N1) || (now apply N2) || (now apply N3)).
    + right. right. exists (V2 8 8). destruct (cut_crosses eps He) as (_ & a & b & c & e & [= <- <-] & [= <- <-] & H). exact H.
    + left. exists 1. split; [now left|]. intros w [-> | ->]; rewrite D; unfold cross, vec; cbn [vx vy]; lra.
    + right. right. exists (V2 8 8). destruct (cut_crosses eps He) as (_ & a & b & c & e & [= <- <-] & [= <- <-] & _ & s & t & H1 & H2 & H3 & H4). split; [|exists t, s; auto].
      unfold cross, vec. cbn [vx vy]. rewrite Rabs_pos_eq; lra.
    + right. left. exists 1. split; [now left|]. intros w [-> | ->]; rewrite D; unfold cross, vec; cbn [vx vy]; lra.
  - intros i j x q C I. apply cut_cross in C as (-> & _). cbn in I. unfold differ_by. destruct I as [<-|[<-|[<-|[<-|[]]]]]; cbn [vx vy].
    + left. unfold Rabs; destruct (Rcase_abs _); lra.
    + left. unfold Rabs; destruct (Rcase_abs _); lra.
    + right. unfold Rabs; destruct (Rcase_abs _); lra.
    + right. unfold Rabs; destruct (Rcase_abs _); lra.
  - intros i j x i' j' x' C C'. apply cut_cross in C as (_ & C). apply cut_cross in C' as (_ & C'). destruct C as [(-> & ->)|(-> & ->)], C' as [(-> & ->)|(-> & ->)]; auto.
  - exists 0%nat, 2%nat, (V2 8 8). now apply cut_crosses.
Qed.

Lemma cut_kept eps de : 0 < eps <= 1 / 100000 -> 0 < de <= 1 / 10000 -> clearly_kept 1 8 eps de cut cut_in.
Proof.
  intros He Hd k j x a b y C E Y N. pose proof C as C'. apply cut_cross in C as (-> & K). assert (Yb : y = b) by (destruct Y as [Y|(j' & Y)]; [exact Y|apply cut_cross in Y as (Y & _); congruence]). subst y.
  destruct K as [(-> & ->)|(-> & ->)]; cbn in E; injection E as <- <-.
  - left. unfold middle. destruct cut_dists as (D1 & D2 & D3 & D4). intros a b I. cbn in I.
    destruct I as [I|[I|[I|[I|[]]]]]; injection I as <- <-; rewrite ?D1, ?D2, ?D3, ?D4; unfold cross, vec, line_pt; cbn [vx vy]; lra.
  - right. exists (V2 8 0). split.
    + apply polygon_path. exists (V2 3 0), (V2 64 0), (5/61). split; [now left|]. split; [lra|]. apply vec2_eq; unfold line_pt; cbn [vx vy]; lra.
    + replace (dist (middle (V2 8 8) (V2 8 (20/3))) (V2 8 0)) with (22/3).
      * assert ((22 / 3 + 3 * eps) * (22 / 3 + 3 * eps) <= (22 / 3 + 3 / 100000) * (22 / 3 + 3 / 100000)) by (apply Rmult_le_compat; lra).
        assert ((8 - 1 / 10000) * (8 - 1 / 10000) <= (8 - de) * (8 - de)) by (apply Rmult_le_compat; lra). lra.
      * symmetry. unfold dist, middle, line_pt; cbn [vx vy]. replace (_ + _) with (22/3 * (22/3)) by field. apply sqrt_square; lra.
Qed.

Lemma cut_offset : exists rs, parallel_offset_constructed (@list_index R _) (polygon cut) 8 rect_ex_opts = Ret rs
  /\ wind_together rs (V2 20 16) 1 /\ wind_together rs (V2 (15/2) (31/4)) 0 /\ wind_together rs (V2 100 100) 0.
Proof.
  destruct (vanish_region (@list_index R _) 1 8 cut cut_in rect_ex_opts (list_index (map (fun s => seg_fast_approx_bounding_box (fst s) (snd s)) (spec_segs (vtx (polygon cut)) (is_closed (polygon cut)))))) as (rs & E & A & B).
  - exact list_index_ok.
  - now left.
  - cbn. lra.
  - cbn. lra.
  - cbn. lra.
  - reflexivity.
  - cbn. lra.
  - intros a b I. cbn in I. destruct cut_dists as (D1 & D2 & D3 & D4). destruct I as [I|[I|[I|[I|[]]]]]; injection I as <- <-; rewrite ?D1, ?D2, ?D3, ?D4; cbn; lra.
  - exact cut_convex.
  - exact cut_once.
  - apply list_index_ok.
  - apply cut_inner. cbn. lra.
  - apply cut_crossing. cbn. lra.
  - apply cut_kept; cbn; lra.
  - pose proof (proj1 (Forall_forall _ _) A) as AF. assert (Vl : valid_loop (polygon cut)) by (split; [cbn; lia|reflexivity]).
    assert (Off : forall x, ~ on_path (polygon cut_in) x -> forall r, In r rs -> ~ on_path r x) by (intros x O r I Q; apply O; now apply (AF r I)).
    assert (OnIn : forall x, on_path (polygon cut_in) x -> exists a b t, In (a, b) (spec_segs cut_in true) /\ 0 <= t <= 1 /\ x = line_pt a b t) by (intros x; apply polygon_path).
    assert (Raw : forall x, x = V2 20 16 \/ x = V2 (15/2) (31/4) \/ x = V2 100 100 -> ~ on_path (polygon cut_in) x).
    { intros x Hx O. apply OnIn in O as (a & b & t & I & Ht & Ex). pose proof (f_equal vx Ex) as Ex1. pose proof (f_equal vy Ex) as Ey1. cbn in I.
      destruct Hx as [-> |[-> | ->]], I as [I|[I|[I|[I|[]]]]]; injection I as <- <-; unfold line_pt in *; cbn [vx vy] in *; lra. }
    exists rs. split; [|split; [|split]].
    + unfold parallel_offset_constructed. cbn [Nat.ltb]. unfold create_approx_aabb_index. rewrite create_index_spec. rewrite Rmult_1_l in E. exact E.
    + assert (St : forall a b, In (a, b) (spec_segs cut true) -> 0 < 1 * cross (vec a b) (vec a (V2 20 16))).
      { intros a b I. cbn in I. destruct I as [I|[I|[I|[I|[]]]]]; injection I as <- <-; unfold cross, vec; cbn [vx vy]; lra. }
      pose proof (strict_off 1 cut _ St) as O. assert (In_ : inside (polygon cut) (V2 20 16) = true) by (apply (convex_inside 1 cut (or_introl eq_refl) cut_convex Vl cut_once _ O); exact St).
      apply (B (V2 20 16)); [apply Off, Raw; auto|exact In_| |reflexivity].
      apply (convex_depth 1 cut (or_introl eq_refl) cut_convex Vl cut_once _ 8 O); [lra|exact In_|].
      destruct cut_dists as (D1 & D2 & D3 & D4). intros a b I. cbn in I. destruct I as [I|[I|[I|[I|[]]]]]; injection I as <- <-; rewrite ?D1, ?D2, ?D3, ?D4; unfold cross, vec; cbn [vx vy]; lra.
    + apply (B (V2 (15/2) (31/4))); [apply Off, Raw; auto|]. right. exists (V2 0 (31/4)). split.
      * apply polygon_path. exists (V2 0 48), (V2 0 4), ((48 - 31/4)/44). split; [right; right; now left|]. split; [lra|]. apply vec2_eq; unfold line_pt; cbn [vx vy]; lra.
      * replace (dist _ _) with (15/2); [lra|]. symmetry. unfold dist; cbn [vx vy]. replace (_ + _) with (15/2 * (15/2)) by field. apply sqrt_square; lra.
    + assert (O : ~ on_path (polygon cut) (V2 100 100)).
      { intros O. apply polygon_path in O as (a & b & t & I & Ht & Ex). pose proof (f_equal vx Ex) as Ex1. pose proof (f_equal vy Ex) as Ey1. cbn in I.
        destruct I as [I|[I|[I|[I|[]]]]]; injection I as <- <-; unfold line_pt in *; cbn [vx vy] in *; lra. }
      apply (B (V2 100 100)); [apply Off, Raw; auto|]. left. split; [|exact O]. destruct (inside (polygon cut) (V2 100 100)) eqn:X; [|reflexivity]. exfalso.
      pose proof (proj1 (convex_inside 1 cut (or_introl eq_refl) cut_convex Vl cut_once _ O) X (V2 64 0) (V2 0 48) (or_intror (or_introl eq_refl))) as P. unfold cross, vec in P. cbn [vx vy] in P. lra.
Qed.
