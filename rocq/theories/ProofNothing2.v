(** The offset of a rectangle to its inner side by more than half of its width or height is empty (C81). *)
From Coq Require Import Reals ZArith Bool List Arith Lra Lia.
From Verif Require Import Num RNum Res ModelMath ModelIntr ModelSeg ModelPline ModelIndex ModelOffset.
From Verif Require Import Spec SpecPline SpecGeom SpecIntr SpecBox SpecClosest SpecOffset SpecOffsetJoin SpecIndex SpecCuts SpecOffNear SpecCircle SpecPolyOff SpecNothing.
From Verif Require Import ProofR ProofBase ProofIntr ProofArc ProofIndex2 ProofOffset1 ProofWinding4 ProofWhole ProofCircleOff ProofPolyOff ProofPolyOff2 ProofPolyOff3 ProofNothing.
Import ListNotations.
Local Open Scope R_scope.

Section Gone.
Context (s : R) (c u : vec2 R) (w h e eps : R).
Hypothesis Hs : s = 1 \/ s = -1.
Hypothesis Hu : unit_vec u.
Hypothesis He : 0 < eps.
Hypothesis H0 : 0 < e.
Hypothesis Lw : e + 2 * eps <= w.
Hypothesis Lh : e + 2 * eps <= h.
Hypothesis Hw : 2 * eps <= Rabs (w - 2 * e).
Hypothesis Hh : 2 * eps <= Rabs (h - 2 * e).
Hypothesis Ha : eps <= Rabs ((w - 2 * e) * (h - 2 * e)).
Let n := turned s u.
Let q0 := moved (moved c u e) n e.
Let qs := rect_corners s q0 u (w - 2 * e) (h - 2 * e).
Let p := polygon (rect_corners s c u w h).

Ltac coords := unfold n, moved, turned; cbn [vx vy]; destruct Hs as [-> | ->]; apply vec2_eq; cbn [vx vy]; ring.

Lemma gone_area : eps <= w * h.
Proof.
  rewrite Rabs_mult in Ha. assert (A : Rabs (w - 2 * e) <= w) by (unfold Rabs; destruct (Rcase_abs _); lra). assert (B : Rabs (h - 2 * e) <= h) by (unfold Rabs; destruct (Rcase_abs _); lra).
  assert (Rabs (w - 2 * e) * Rabs (h - 2 * e) <= w * h) by (apply Rmult_le_compat; try apply Rabs_pos; assumption). lra.
Qed.

Lemma gone_inner : inner_corners p (s * e) eps qs.
Proof.
  pose proof gone_area as WH.
  assert (HW : eps <= h * w) by lra. set (u' := V2 (- vx u) (- vy u)). set (n' := V2 (- vx n) (- vy n)).
  pose proof (turned_unit s u Hs Hu) as Un. fold n in Un. pose proof (neg_unit u Hu) as Uu'. pose proof (neg_unit n Un) as Un'. fold u' in Uu'. fold n' in Un'.
  split; [|split].
  - cbn [p polygon rect_corners map vtx spec_segs combine tl app with_previous last]. repeat constructor; cbn [fst snd]; fold n.
    all: repeat match goal with |- context [pos (vertex_at ?a 0)] => change (pos (vertex_at a 0)) with (pos (lv a)) end; rewrite !lv_pos.
    + pose proof (rect_corner s c n' h w e eps Hs Un' H0 ltac:(lra) ltac:(lra) HW) as Q.
      replace (moved c n h) with (moved c n' (- h)) by (unfold n'; coords). replace (moved c u w) with (moved c (turned s n') w) by (unfold n'; coords). replace q0 with (moved (moved c n' (- e)) (turned s n') e) by (unfold q0, n'; coords). exact Q.
    + pose proof (rect_corner s (moved c u w) u w h e eps Hs Hu H0 ltac:(lra) ltac:(lra) WH) as Q.
      replace c with (moved (moved c u w) u (- w)) at 1 by coords. replace (moved q0 u (w - 2 * e)) with (moved (moved (moved c u w) u (- e)) (turned s u) e) by (unfold q0; coords). exact Q.
    + pose proof (rect_corner s (moved (moved c u w) n h) n h w e eps Hs Un H0 ltac:(lra) ltac:(lra) HW) as Q.
      replace (moved c u w) with (moved (moved (moved c u w) n h) n (- h)) at 1 by coords. replace (moved c n h) with (moved (moved (moved c u w) n h) (turned s n) w) by coords. replace (moved (moved q0 u (w - 2 * e)) n (h - 2 * e)) with (moved (moved (moved (moved c u w) n h) n (- e)) (turned s n) e) by (unfold q0; coords). exact Q.
    + pose proof (rect_corner s (moved c n h) u' w h e eps Hs Uu' H0 ltac:(lra) ltac:(lra) WH) as Q.
      replace (moved (moved c u w) n h) with (moved (moved c n h) u' (- w)) by (unfold u'; coords). replace c with (moved (moved c n h) (turned s u') h) at 3 by (unfold u'; coords). replace (moved q0 n (h - 2 * e)) with (moved (moved (moved c n h) u' (- e)) (turned s u') e) by (unfold q0, u'; coords). exact Q.
  - unfold qs, rect_corners. fold n. cbn [with_previous last combine]. repeat constructor; cbn [fst snd].
    + replace q0 with (moved (moved q0 n (h - 2 * e)) n' (h - 2 * e)) at 2 by (unfold n'; coords). apply apart_along; [exact Un'|exact He|exact Hh].
    + apply apart_along; [exact Hu|exact He|exact Hw].
    + apply apart_along; [exact Un|exact He|exact Hh].
    + replace (moved q0 n (h - 2 * e)) with (moved (moved (moved q0 u (w - 2 * e)) n (h - 2 * e)) u' (w - 2 * e)) by (unfold u'; coords). apply apart_along; [exact Uu'|exact He|exact Hw].
  - intros a b m q E LN EQ. cbn [p polygon rect_corners map vtx spec_segs combine tl app hd_error] in E. injection E as <- <-. cbn [qs rect_corners nth_error] in EQ. injection EQ as <-.
    change (pos (vertex_at c 0)) with (pos (lv c)) in *. change (pos (vertex_at (moved c u w) 0)) with (pos (lv (moved c u w))) in LN. rewrite !lv_pos in *.
    pose proof (normal_along c u w Hu ltac:(lra)) as LN'. pose proof (ProofPolyOff.left_normal_neq _ _ _ LN) as NE. apply (left_normal_val _ _ _ NE) in LN. apply (left_normal_val _ _ _ NE) in LN'. rewrite <- LN' in LN. subst m.
    replace (moved q0 u (w - 2 * e)) with (moved (moved c (turned 1 u) (s * e)) u (w - e)) by (unfold q0; coords). apply apart_along; [exact Hu|exact He|rewrite Rabs_pos_eq; lra].
Qed.

Lemma beside_any x v m k y z : unit_vec v -> m = turned s v -> eps <= Rabs y -> eps <= Rabs (k * y) ->
  beside eps x (moved x v k) (moved (moved x v z) m y) (moved (moved x v (z + k)) m y) /\ beside eps x (moved x v k) (moved (moved x v (z + k)) m y) (moved (moved x v z) m y).
Proof.
  intros Uv -> Hy Hky.
  assert (D : dist x (moved x v k) = Rabs k).
  { pose proof (dist_sqr x (moved x v k)) as Q. unfold moved in Q. cbn [vx vy] in Q. fold (moved x v k) in Q. assert (0 <= dist x (moved x v k)) by apply sqrt_pos.
    apply Rsqr_inj; [assumption|apply Rabs_pos|]. rewrite <- Rsqr_abs. unfold Rsqr. unfold moved in *. cbn [vx vy] in *. rewrite Q. transitivity (k * k * (vx v * vx v + vy v * vy v)); [ring|rewrite Uv; ring]. }
  assert (C : forall z, cross (vec x (moved x v k)) (vec x (moved (moved x v z) (turned s v) y)) = s * (k * y)).
  { intros z'. unfold cross, vec, moved, turned. cbn [vx vy]. transitivity (s * (k * y) * (vx v * vx v + vy v * vy v)); [ring|]. rewrite Uv. ring. }
  assert (G : eps * Rabs k <= Rabs (k * y)) by (rewrite Rabs_mult, Rmult_comm; apply Rmult_le_compat_l; [apply Rabs_pos|lra]).
  assert (SG : exists g, (g = 1 \/ g = -1) /\ g * (s * (k * y)) = Rabs (k * y)).
  { unfold Rabs. destruct (Rcase_abs (k * y)), Hs as [-> | ->]; [exists (-1)|exists 1|exists 1|exists (-1)]; split; auto; ring. }
  destruct SG as (g & Hg & E). split; exists g; (split; [exact Hg|]); intros w' [-> | ->]; rewrite C, D, E; split; assumption.
Qed.

Lemma gone_lone : lone_polygon eps qs.
Proof.
  unfold lone_polygon, qs, rect_corners. fold n. set (W := w - 2 * e) in *. set (H := h - 2 * e) in *. cbn [length spec_segs combine tl app]. split; [lia|].
  set (A := moved q0 u W). set (B := moved A n H). set (D := moved q0 n H).
  assert (X' : eps <= Rabs (s * (W * H))). { rewrite Rabs_mult; replace (Rabs s) with 1 by (destruct Hs as [-> | ->]; [now rewrite Rabs_R1|rewrite Rabs_left; lra]). lra. }
  split.
  - assert (C : forall a b c', cross (vec a b) (vec b c') = s * (W * H) * (vx u * vx u + vy u * vy u) -> eps <= Rabs (cross (vec a b) (vec b c'))) by (intros a b c' E; rewrite E, Hu, Rmult_1_r; exact X').
    intros [|[|[|[|i]]]] a b c' E1 E2; cbn in E1, E2; try discriminate; [injection E1 as <- <-; injection E2 as <-; apply C; unfold B, D, A, n, cross, vec, moved, turned; cbn [vx vy]; ring..|destruct i; discriminate].
  - pose proof (turned_unit s u Hs Hu) as Un. fold n in Un.
    pose proof (beside_any q0 u n W H 0 Hu eq_refl ltac:(lra) Ha) as (B1 & B2).
    set (n' := V2 (- vx n) (- vy n)). pose proof (neg_unit n Un) as Un'. fold n' in Un'.
    pose proof (beside_any D n' u H W 0 Un' ltac:(unfold n'; coords) ltac:(lra) ltac:(rewrite Rmult_comm; lra)) as (B3 & B4).
    rewrite Rplus_0_l in *.
    replace (moved (moved q0 u 0) n H) with D in * by (unfold D; coords). fold A in B1, B2. fold B in B1, B2.
    replace (moved D n' H) with q0 in * by (unfold D, n'; coords). replace (moved (moved D n' 0) u W) with B in * by (unfold B, A, D, n'; coords). fold A in B3, B4.
    intros [|[|[|[|i]]]] [|[|[|[|j]]]] a b c' e' E1 E2 N1 N2 N3; cbn in E1, E2, N2, N3; try lia; try discriminate; try (injection E1 as <- <-; injection E2 as <- <-; auto); try (destruct i; discriminate); try (destruct j; discriminate).
Qed.

Lemma gone_near o : eps = oo_pos_equal_eps o -> h + 3 * eps + oo_offset_dist_eps o + 1 / 5000 <= 2 * e \/ w + 3 * eps + oo_offset_dist_eps o + 1 / 5000 <= 2 * e -> too_near p (s * e) o q0.
Proof.
  intros EE HD. assert (RS : Rabs (s * e) = e) by (rewrite Rabs_mult, (Rabs_pos_eq e) by lra; destruct Hs as [-> | ->]; [rewrite Rabs_R1|rewrite Rabs_left]; lra).
  assert (F : forall k, e + 2 * eps <= k -> 0 <= e / k <= 1). { intros k K. split; [apply Rmult_le_pos; [lra|left; apply Rinv_0_lt_compat; lra]|]. apply (Rmult_le_reg_r k); [lra|]. unfold Rdiv. rewrite Rmult_assoc, Rinv_l; lra. }
  assert (DQ : forall v k, unit_vec v -> e <= k -> dist q0 (moved q0 v (k - e)) = k - e).
  { intros v k U K. apply Rsqr_inj; [apply sqrt_pos|lra|]. unfold Rsqr. rewrite dist_sqr. unfold moved. cbn [vx vy]. transitivity ((k - e) * (k - e) * (vx v * vx v + vy v * vy v)); [ring|rewrite U; ring]. }
  destruct HD as [HD|HD].
  - exists (lv (moved (moved c u w) n h)), (lv (moved c n h)), (moved q0 n (h - e)). split; [|split; [apply line_ok; reflexivity|split]].
    + cbn [p polygon rect_corners map vtx is_closed spec_segs combine tl app]. fold n. right. right. left. reflexivity.
    + exists (1 - e / w). pose proof (F w Lw). split; [lra|]. left. split; [reflexivity|]. rewrite !lv_pos. unfold q0, line_pt, moved. cbn [vx vy]. apply vec2_eq; cbn [vx vy]; field; lra.
    + rewrite DQ, RS by (try (apply turned_unit; assumption); lra). rewrite <- EE. lra.
  - exists (lv (moved c u w)), (lv (moved (moved c u w) n h)), (moved q0 u (w - e)). split; [|split; [apply line_ok; reflexivity|split]].
    + cbn [p polygon rect_corners map vtx is_closed spec_segs combine tl app]. fold n. right. left. reflexivity.
    + exists (e / h). pose proof (F h Lh). split; [lra|]. left. split; [reflexivity|]. rewrite !lv_pos. unfold q0, line_pt, moved. cbn [vx vy]. apply vec2_eq; cbn [vx vy]; field; lra.
    + rewrite DQ, RS by (try assumption; lra). rewrite <- EE. lra.
Qed.

Lemma gone_offset mk idx o : eps = oo_pos_equal_eps o -> makes_index mk -> pline_index p idx -> oo_handle_self_intersects o = false ->
  h + 3 * eps + oo_offset_dist_eps o + 1 / 5000 <= 2 * e \/ w + 3 * eps + oo_offset_dist_eps o + 1 / 5000 <= 2 * e ->
  parallel_offset mk p idx (s * e) o = Ret [].
Proof.
  intros EE MK IDX HS HD. assert (HP : is_polygon p) by (split; [reflexivity|]; intros v I; cbn [p polygon rect_corners map vtx] in I; destruct I as [<-|[<-|[<-|[<-|[]]]]]; reflexivity).
  assert (TP : (2 <= vertex_count p)%nat) by (cbn; lia).
  apply (near_nothing mk p idx (s * e) o (polygon qs) MK IDX TP).
  - rewrite <- EE. exact He.
  - rewrite <- EE. apply inner_raw; [exact He|exact HP|exact TP|exact gone_inner].
  - intros v [Ev|(X & _)]; [|discriminate]. cbn [polygon qs rect_corners map vtx hd_error] in Ev. injection Ev as <-. change (pos (vertex_at q0 0)) with (pos (lv q0)). rewrite lv_pos. apply gone_near; assumption.
  - intros cuts i q OC I. exfalso. unfold offset_cuts in OC. change (is_closed p) with true in OC. rewrite HS in OC. cbn [andb negb] in OC. destruct OC as (pairs & PO & ->).
    rewrite <- EE in PO, I. rewrite (lone_no_cuts eps qs pairs He gone_lone PO) in I. destruct I.
Qed.
End Gone.

Lemma gone_offset' mk s c u w h e o idx : makes_index mk -> s = 1 \/ s = -1 -> unit_vec u -> 0 < oo_pos_equal_eps o -> oo_handle_self_intersects o = false ->
  0 < e -> e + 2 * oo_pos_equal_eps o <= w -> e + 2 * oo_pos_equal_eps o <= h ->
  2 * oo_pos_equal_eps o <= Rabs (w - 2 * e) -> 2 * oo_pos_equal_eps o <= Rabs (h - 2 * e) -> oo_pos_equal_eps o <= Rabs ((w - 2 * e) * (h - 2 * e)) ->
  h + 3 * oo_pos_equal_eps o + oo_offset_dist_eps o + 1 / 5000 <= 2 * e \/ w + 3 * oo_pos_equal_eps o + oo_offset_dist_eps o + 1 / 5000 <= 2 * e ->
  pline_index (polygon (rect_corners s c u w h)) idx ->
  parallel_offset mk (polygon (rect_corners s c u w h)) idx (s * e) o = Ret [].
Proof. intros MK Hs Hu He HS H0 L1 L2 A1 A2 A3 HD IDX. exact (gone_offset s c u w h e _ Hs Hu He H0 L1 L2 A1 A2 A3 mk idx o eq_refl MK IDX HS HD). Qed.

Lemma gone_ex : let p := polygon (rect_corners 1 (V2 1 2) (V2 (3/5) (4/5)) 10 5) in
  p = PL [Vtx 1 2 0; Vtx 7 10 0; Vtx 3 13 0; Vtx (-3) 5 0] true
  /\ parallel_offset_constructed (@list_index R _) p 3 rect_ex_opts = Ret [].
Proof.
  cbv zeta. assert (U : unit_vec (V2 (3/5) (4/5))) by (unfold unit_vec; cbn; lra). split; [exact (proj1 rect_ex_all)|].
  apply (offsets_to_intro (@list_index R _) _ 3 rect_ex_opts _ list_index_ok); [cbn; lia|]. intros idx IDX.
  pose proof (gone_offset' (@list_index R _) 1 (V2 1 2) (V2 (3/5) (4/5)) 10 5 3 rect_ex_opts idx list_index_ok (or_introl eq_refl) U) as E. unfold rect_ex_opts in E at 1 2 3 4 5 6 7 8 9 10. cbn [oo_pos_equal_eps oo_offset_dist_eps oo_handle_self_intersects] in E.
  rewrite Rmult_1_l in E. apply E; try exact IDX; try reflexivity; try lra.
  - rewrite Rabs_pos_eq; lra.
  - rewrite Rabs_left; lra.
  - rewrite Rabs_left; lra.
Qed.
