(** Boolean operations on a circle and itself; examples (C75). *)
From Coq Require Import Reals ZArith Bool List Arith Lra Lia.
From Verif Require Import Num RNum Res ModelMath ModelSeg ModelPline ModelView ModelIndex ModelIntr ModelSegIntr ModelIntersects ModelBoolean.
From Verif Require Import Spec SpecPline SpecGeom SpecBox SpecIntr SpecWinding SpecView SpecPruneR SpecPrune SpecJordan SpecRegion SpecBoolean SpecIndex SpecIntersects SpecOffset SpecOffsetJoin SpecPolyOff SpecCircle SpecSame.
From Verif Require Import ProofR ProofBase ProofIter ProofArc ProofArc2 ProofIntr ProofIndex2 ProofMeasure ProofSlice ProofWinding4 ProofWinding6 ProofPolyOff ProofPolyOff2 ProofNest ProofRegion10 ProofOverlap ProofConn3 ProofArea6 ProofDisc ProofDisc2 ProofConvexEx ProofCurveEx ProofSame1 ProofSame2 ProofSame3 ProofSame4.
Import ListNotations.
Local Open Scope R_scope.

Section Circle.
Context (c u : vec2 R) (b r : R) (U : unit_vec u) (B : b = 1 \/ b = -1) (Hr : 0 < r).
Let W k := vertex_at (moved c u k) b.

Lemma arc_turn p1 p2 b' c' r' a a' : congr a' a -> is_arc p1 p2 b' c' r' a -> is_arc p1 p2 b' c' r' a'.
Proof.
  intros C (H & E1 & E2). split; [exact H|]. rewrite (circle_pt_congr _ _ _ _ C), (circle_pt_congr _ _ (a' + sweep b') (a + sweep b')); [auto|]. now apply congr_shift.
Qed.

Lemma half_arcs : exists al, is_arc (moved c u r) (moved c u (- r)) b c r al /\ is_arc (moved c u (- r)) (moved c u r) b c r (al + PI).
Proof.
  assert (N : r <> 0) by lra. pose proof (disc_arc c u b U B r N) as (E1 & E2). rewrite Rabs_right in E2 by lra.
  pose proof (computed_is_arc (pos (vertex_at (moved c u r) b)) (pos (vertex_at (moved c u (- r)) b)) b (disc_ends c u b U r N) ltac:(destruct B; lra)) as A. cbv zeta in E1, E2. rewrite E1, E2 in A.
  set (al := angle c (pos (vertex_at (moved c u r) b))) in *. exists al. split; [exact A|]. destruct A as (H & A1 & A2). split; [exact H|].
  assert (S : sweep b = PI \/ sweep b = - PI) by (destruct B as [-> | ->]; [left; apply atan_1_val|right; apply sweep_m1]). split.
  - transitivity (circle_pt c r (al + sweep b)); [exact A2|]. apply circle_pt_congr. destruct S as [-> | ->]; [exists 0%Z; lra|exists (-1)%Z; lra].
  - transitivity (circle_pt c r al); [exact A1|]. apply circle_pt_congr. destruct S as [-> | ->]; [exists (-1)%Z; lra|exists 0%Z; lra].
Qed.

(** The two halves follow each other. *)
Lemma halves_parted eps : parted eps (W r) (W (- r)) (W (- r)) (W r) /\ parted eps (W (- r)) (W r) (W r) (W (- r)).
Proof.
  destruct half_arcs as (al & A1 & A2). pose proof PI_pos.
  assert (G : clear_gap eps r 0) by now left.
  split; (split; [intros Z; exfalso; revert Z; cbn; destruct B; lra|]); intros _ _; right; exists c, r.
  - destruct B as [E|E].
    + exists al, PI, (al + PI), PI, 0, 0. assert (S : sweep b = PI) by (rewrite E; apply atan_1_val). repeat split; auto; try lra; left; split; auto.
    + exists (al - PI), PI, al, PI, 0, 0. assert (S : sweep b = - PI) by (rewrite E; apply sweep_m1). repeat split; auto; try lra; right; split; try (cbn [pbulge W vertex_at]; lra).
      * apply (arc_turn _ _ _ _ _ al); [exists 0%Z; ring|exact A1].
      * exact A2.
  - destruct B as [E|E].
    + exists (al + PI), PI, (al + 2 * PI), PI, 0, 0. assert (S : sweep b = PI) by (rewrite E; apply atan_1_val). repeat split; auto; try lra; left; split; auto.
      apply (arc_turn _ _ _ _ _ al); [exists 1%Z; ring|exact A1].
    + exists al, PI, (al + PI), PI, 0, 0. assert (S : sweep b = - PI) by (rewrite E; apply sweep_m1). repeat split; auto; try lra; right; split; try (cbn [pbulge W vertex_at]; lra).
      * exact A2.
      * apply (arc_turn _ _ _ _ _ al); [exists 1%Z; ring|exact A1].
Qed.

Lemma circle_parted eps : 0 < eps <= r -> parted_pline eps (circle c u r b).
Proof.
  intros He. destruct (halves_parted eps) as (P1 & P2). change (spec_segs (vtx (circle c u r b)) (is_closed (circle c u r b))) with [(W r, W (- r)); (W (- r), W r)] in *.
  split.
  - assert (Q : forall k, Rabs k = r -> ~ is_point (moved c u k) (moved c u (- k)) eps).
    { intros k K (X & Y). unfold moved in X, Y. cbn [vx vy] in X, Y.
      replace (vx c + - k * vx u - (vx c + k * vx u)) with (- (2 * k * vx u)) in X by ring. replace (vy c + - k * vy u - (vy c + k * vy u)) with (- (2 * k * vy u)) in Y by ring.
      rewrite Rabs_Ropp, !Rabs_mult, K, (Rabs_right 2) in X, Y by lra.
      assert (KX : Rabs (vx u) * Rabs (vx u) = vx u * vx u) by (rewrite <- Rabs_mult; apply Rabs_right; pose proof (Rle_0_sqr (vx u)) as Q; unfold Rsqr in Q; lra).
      assert (KY : Rabs (vy u) * Rabs (vy u) = vy u * vy u) by (rewrite <- Rabs_mult; apply Rabs_right; pose proof (Rle_0_sqr (vy u)) as Q; unfold Rsqr in Q; lra).
      pose proof (Rabs_pos (vx u)) as X0. pose proof (Rabs_pos (vy u)) as Y0. unfold unit_vec in U.
      assert (LX : Rabs (vx u) < 1 / 2) by (apply (Rmult_lt_reg_l (2 * r)); lra). assert (LY : Rabs (vy u) < 1 / 2) by (apply (Rmult_lt_reg_l (2 * r)); lra).
      assert (Rabs (vx u) * Rabs (vx u) <= 1 / 2 * (1 / 2)) by (apply Rmult_le_compat; lra). assert (Rabs (vy u) * Rabs (vy u) <= 1 / 2 * (1 / 2)) by (apply Rmult_le_compat; lra). lra. }
    intros v1 v2 [I|[I|[]]]; injection I as <- <-.
    + apply (Q r). apply Rabs_right. lra.
    + pose proof (Q (- r)) as K. rewrite Ropp_involutive in K. apply K. rewrite Rabs_Ropp. apply Rabs_right. lra.
  - intros i j v1 v2 u1 u2 E1 E2 NE.
    destruct i as [|[|i]]; cbn [nth_error] in E1; [| |destruct i; discriminate]; injection E1 as <- <-;
    (destruct j as [|[|j]]; cbn [nth_error] in E2; [| |destruct j; discriminate]); injection E2 as <- <-; try lia; assumption.
Qed.

(** The same circle in the other sense or with the other start. *)
Lemma circle_outline b' u' : b' = b \/ b' = - b -> u' = u \/ u' = V2 (- vx u) (- vy u) -> same_outline (circle c u r b) (circle c u' r b').
Proof.
  intros HB HU.
  assert (M : forall k, moved c (V2 (- vx u) (- vy u)) k = moved c u (- k)) by (intros k; unfold moved; apply vec2_eq; cbn [vx vy]; ring).
  assert (G : forall v1 v2 w1 w2 : vertex R, pos v1 = pos w1 -> pos v2 = pos w2 -> pbulge v1 = pbulge w1 -> same_seg v1 v2 w1 w2) by (intros; left; auto).
  assert (G' : forall v1 v2 w1 w2 : vertex R, pos v1 = pos w2 -> pos v2 = pos w1 -> pbulge w1 = - pbulge v1 -> same_seg v1 v2 w1 w2) by (intros; right; auto).
  assert (SG : forall u b, spec_segs (vtx (circle c u r b)) (is_closed (circle c u r b)) = [(vertex_at (moved c u r) b, vertex_at (moved c u (- r)) b); (vertex_at (moved c u (- r)) b, vertex_at (moved c u r) b)]) by reflexivity.
  split; intros w1 w2 I; rewrite SG in I |- *; destruct HB as [-> | ->], HU as [-> | ->]; rewrite ?M, ?Ropp_involutive in *; (destruct I as [I|[I|[]]]; injection I as <- <-);
    first [ solve [eexists; eexists; split; [left; reflexivity|]; apply G; cbn; (reflexivity || ring)]
          | solve [eexists; eexists; split; [right; left; reflexivity|]; apply G; cbn; (reflexivity || ring)]
          | solve [eexists; eexists; split; [left; reflexivity|]; apply G'; cbn; (reflexivity || ring)]
          | solve [eexists; eexists; split; [right; left; reflexivity|]; apply G'; cbn; (reflexivity || ring)] ].
Qed.
End Circle.

Theorem circle_same mk c u u' r b b' eps op idx : unit_vec u -> b = 1 \/ b = -1 -> b' = 1 \/ b' = -1 -> u' = u \/ u' = V2 (- vx u) (- vy u) -> 0 < eps <= r ->
  pline_index (circle c u r b) idx ->
  exists res, polyline_boolean mk (circle c u r b) (circle c u' r b') op idx eps = Ret res
  /\ res = BR (match op with BOr | BAnd => [BRP (circle c u' r b') []] | BNot | BXor => [] end) [] Overlapping
  /\ forall x, dist x c <> r -> (region (fun p y => inside p y = true) res x <-> operation op (dist x c < r) (dist x c < r)).
Proof.
  intros U B B' HU He IO. assert (Hr : 0 < r) by lra.
  assert (U' : unit_vec u') by (destruct HU as [-> | ->]; [exact U|unfold unit_vec in *; cbn [vx vy]; lra]).
  assert (BB : b' = b \/ b' = - b) by (destruct B as [-> | ->], B' as [-> | ->]; auto; right; lra).
  destruct (circle_outline c u b r b' u' BB HU) as (F & F').
  pose proof (circle_parted c u b r U B Hr eps He) as PT.
  pose proof (disc_ok c u b U B r Hr) as O1. pose proof (disc_ok c u' b' U' B' r Hr) as O2.
  destruct (outline_region _ _ eps (proj1 He) O1 O2 (disc_loop c u b r) (disc_loop c u' b' r) PT F mk op idx IO F' (disc_once c u b U B r Hr) (disc_once c u' b' U' B' r Hr)) as (res & E & H).
  exists res. split; [exact E|]. split.
  - rewrite (outline_boolean _ _ eps (proj1 He) O1 O2 (disc_loop c u b r) (disc_loop c u' b' r) PT F mk op idx IO) in E. now injection E.
  - intros x D. assert (N : ~ on_path (circle c u r b) x) by (intros K; apply D; now apply (disc_on c u b U B r Hr)).
    rewrite (H x N). pose proof (disc_inside c u b U B r Hr x D) as I1. pose proof (disc_inside c u' b' U' B' r Hr x D) as I2.
    destruct op; unfold operation; tauto.
Qed.

(** A triangle and the same triangle backwards from another corner. *)
Definition tri_back : list (vec2 R) := [V2 0 6; V2 8 0; V2 0 0].
Lemma tri_back_outline : same_outline (polygon tri) (polygon tri_back).
Proof.
  split; intros w1 w2 I; cbn in I |- *; destruct I as [I|[I|[I|[]]]]; injection I as <- <-;
    first [ solve [do 2 eexists; split; [left; reflexivity|right; cbn; repeat split; (reflexivity || ring)]]
          | solve [do 2 eexists; split; [right; left; reflexivity|right; cbn; repeat split; (reflexivity || ring)]]
          | solve [do 2 eexists; split; [right; right; left; reflexivity|right; cbn; repeat split; (reflexivity || ring)]] ].
Qed.

Lemma tri_back_lone eps : 0 < eps <= 10 -> lone_polygon eps tri_back.
Proof.
  intros He. split; [cbn; lia|split].
  - intros i a b c; do 3 (destruct i as [|i]; [cbn; intros [= <- <-] [= <-]; unfold cross, vec; cbn [vx vy]; rewrite Rabs_left1 by lra; lra|]); cbn; destruct i; discriminate.
  - intros i j a b c e; do 3 (destruct i as [|i]; [cbn -[Nat.modulo]; intros [= <- <-]; do 3 (destruct j as [|j];
      [cbn; intros [= <- <-] N1 N2 N3; exfalso; (now apply N1) || (now apply N2) || (now apply N3)|]); cbn; destruct j; discriminate|]); cbn; destruct i; discriminate.
Qed.

Lemma tri_twice op :
  polyline_boolean (@list_index R RNum) (polygon tri) (polygon tri_back) op (ex_index (polygon tri)) (1 / 100000)
  = Ret (BR (match op with BOr | BAnd => [BRP (PL [Vtx 0 6 0; Vtx 8 0 0; Vtx 0 0 0] true) []] | BNot | BXor => [] end) [] Overlapping).
Proof.
  destruct (polygon_same (@list_index R RNum) (1 / 100000) tri tri_back op (ex_index (polygon tri))) as (r & E & -> & _).
  - lra.
  - apply tri_lone; [lra|auto].
  - apply tri_back_lone. lra.
  - intros a b I. cbn in I. destruct I as [I|[I|[I|[]]]]; injection I as <- <-; unfold is_point; cbn [vx vy]; intros (X & Y); revert X Y; rabs_lra.
  - apply tri_back_outline.
  - apply list_index_ok.
  - exact E.
Qed.

(** The circle of radius 2 about (1, 1) and itself the other way round. *)
Lemma circle_twice op : let p1 := circle (V2 1 1) (V2 1 0) 2 1 in let p2 := circle (V2 1 1) (V2 1 0) 2 (-1) in
  exists r, polyline_boolean (@list_index R RNum) p1 p2 op (ex_index p1) (1 / 100000) = Ret r
  /\ (region (fun p y => inside p y = true) r (V2 1 1) <-> op = BOr \/ op = BAnd).
Proof.
  intros p1 p2. destruct (circle_same (@list_index R RNum) (V2 1 1) (V2 1 0) (V2 1 0) 2 1 (-1) (1 / 100000) op (ex_index p1)) as (r & E & _ & H).
  - unfold unit_vec. cbn [vx vy]. lra.
  - now left.
  - now right.
  - now left.
  - lra.
  - apply list_index_ok.
  - exists r. split; [exact E|]. assert (D : dist (V2 1 1) (V2 1 1) = 0) by (unfold dist; cbn [vx vy]; replace ((1 - 1) * (1 - 1) + (1 - 1) * (1 - 1)) with 0 by ring; apply sqrt_0).
    rewrite H by (rewrite D; lra). rewrite D. destruct op; unfold operation; (split; [intros K; auto; exfalso|]); try lra.
    all: try (intros [K|K]; discriminate); destruct K; lra.
Qed.
