(** The offset of a rectangle to its inner side (C60). *)
From Coq Require Import Reals ZArith Bool List Arith Lra Lia.
From Verif Require Import Num RNum Res ModelMath ModelIntr ModelSeg ModelPline ModelIndex ModelOffset.
From Verif Require Import Spec SpecPline SpecGeom SpecIntr SpecBox SpecClosest SpecOffset SpecOffsetJoin SpecIndex SpecCuts SpecOffNear SpecCircle SpecPolyOff.
From Verif Require Import ProofR ProofBase ProofIntr ProofArc ProofIndex2 ProofOffset1 ProofWinding4 ProofWhole ProofCircleOff ProofPolyOff ProofPolyOff2.
Import ListNotations.
Local Open Scope R_scope.

Lemma turned_unit s u : s = 1 \/ s = -1 -> unit_vec u -> unit_vec (turned s u).
Proof. unfold unit_vec, turned. cbn [vx vy]. intros [-> | ->] H; lra. Qed.

Lemma apart_along e p x L : unit_vec x -> 0 < e -> 2 * e <= Rabs L -> ~ is_point p (moved p x L) e.
Proof.
  intros U He H (A & B). unfold moved in A, B. cbn [vx vy] in A, B. replace (vx p + L * vx x - vx p) with (L * vx x) in A by ring. replace (vy p + L * vy x - vy p) with (L * vy x) in B by ring.
  apply Rabs_def2 in A, B. assert (S1 : (L * vx x) * (L * vx x) <= e * e) by nra. assert (S2 : (L * vy x) * (L * vy x) <= e * e) by nra.
  assert (E : (L * vx x) * (L * vx x) + (L * vy x) * (L * vy x) = Rabs L * Rabs L). { replace (Rabs L * Rabs L) with (L * L) by (unfold Rabs; destruct (Rcase_abs L); ring). transitivity (L * L * (vx x * vx x + vy x * vy x)); [ring|]. rewrite U. ring. }
  assert (4 * (e * e) <= Rabs L * Rabs L) by nra. assert (0 < e * e) by nra. lra.
Qed.

Lemma normal_along p x L : unit_vec x -> 0 < L -> left_normal p (moved p x L) (turned 1 x).
Proof.
  intros U H. unfold unit_vec in U. unfold left_normal, turned, vec, moved, cross. cbn [vx vy]. split; [lra|]. split; [ring|].
  replace (_ - _) with (L * (vx x * vx x + vy x * vy x)) by ring. rewrite U. lra.
Qed.

Lemma rect_corner s b x L M e eps : s = 1 \/ s = -1 -> unit_vec x -> 0 < e -> e <= L -> e <= M -> eps <= L * M ->
  corner_met (s * e) eps (moved b x (- L)) b (moved b (turned s x) M) (moved (moved b x (- e)) (turned s x) e).
Proof.
  intros Hs U He H1 H2 H3. set (a := moved b x (- L)). assert (B : b = moved a x L) by (unfold a, moved; apply vec2_eq; cbn [vx vy]; ring).
  exists (turned 1 x), (turned 1 (turned s x)), (1 - e / L), (e / M). split; [pose proof (normal_along a x L U ltac:(lra)) as Q; rewrite <- B in Q; exact Q|]. split; [apply normal_along; [now apply turned_unit|lra]|].
  assert (F : forall k, 0 < k -> e <= k -> 0 <= e / k <= 1). { intros k K1 K2. split; [apply Rmult_le_pos; [lra|left; now apply Rinv_0_lt_compat]|]. apply (Rmult_le_reg_r k); [exact K1|]. unfold Rdiv. rewrite Rmult_assoc, Rinv_l; lra. }
  pose proof (F L ltac:(lra) H1). pose proof (F M ltac:(lra) H2). split; [lra|]. split; [lra|]. split; [|split].
  - unfold a, line_pt, moved, turned. cbn [vx vy]. apply vec2_eq; cbn [vx vy]; field; lra.
  - unfold line_pt, moved, turned. cbn [vx vy]. destruct Hs as [-> | ->]; apply vec2_eq; cbn [vx vy]; field; lra.
  - assert (E : cross (vec a b) (vec b (moved b (turned s x) M)) = s * (L * M)).
    { unfold a, cross, vec, moved, turned. cbn [vx vy]. transitivity (s * (L * M) * (vx x * vx x + vy x * vy x)); [ring|]. rewrite U. ring. }
    rewrite E, Rabs_mult. replace (Rabs s) with 1 by (destruct Hs as [-> | ->]; [now rewrite Rabs_R1|rewrite Rabs_left; lra]). rewrite Rmult_1_l. pose proof (Rle_abs (L * M)). lra.
Qed.

Lemma dist_along c u n x y : unit_vec u -> n = turned 1 u \/ n = turned (-1) u -> dist c (moved (moved c u x) n y) * dist c (moved (moved c u x) n y) = x * x + y * y.
Proof.
  intros U N. rewrite dist_sqr. unfold moved. cbn [vx vy]. unfold unit_vec in U. destruct N as [-> | ->]; unfold turned; cbn [vx vy]; (transitivity ((x * x + y * y) * (vx u * vx u + vy u * vy u)); [ring|rewrite U; ring]).
Qed.

Section Rect.
Context (s : R) (c u : vec2 R) (w h e eps : R).
Hypothesis Hs : s = 1 \/ s = -1.
Hypothesis Hu : unit_vec u.
Hypothesis He : 0 < eps.
Hypothesis H0 : 0 < e.
Hypothesis Hw : 2 * eps <= w - 2 * e.
Hypothesis Hh : 2 * eps <= h - 2 * e.
Hypothesis Ha : eps <= (w - 2 * e) * (h - 2 * e).
Let n := turned s u.
Let q0 := moved (moved c u e) n e.
Let qs := rect_corners s q0 u (w - 2 * e) (h - 2 * e).
Let p := polygon (rect_corners s c u w h).

Lemma neg_unit x : unit_vec x -> unit_vec (V2 (- vx x) (- vy x)).
Proof. unfold unit_vec. cbn [vx vy]. lra. Qed.

Ltac coords := unfold n, moved, turned; cbn [vx vy]; destruct Hs as [-> | ->]; apply vec2_eq; cbn [vx vy]; ring.

Lemma rect_inner : inner_corners p (s * e) eps qs.
Proof.
  assert (WH : eps <= w * h). { assert ((w - 2 * e) * (h - 2 * e) <= w * h) by (apply Rmult_le_compat; lra). lra. }
  assert (HW : eps <= h * w) by lra. set (u' := V2 (- vx u) (- vy u)). set (n' := V2 (- vx n) (- vy n)).
  pose proof (turned_unit s u Hs Hu) as Un. fold n in Un. pose proof (neg_unit u Hu) as Uu'. pose proof (neg_unit n Un) as Un'. fold u' in Uu'. fold n' in Un'.
  split; [|split].
  - cbn [p polygon rect_corners map vtx spec_segs combine tl app with_previous last]. repeat constructor; cbn [fst snd]; fold n.
    all: repeat match goal with |- context [pos (vertex_at ?a 0)] => change (pos (vertex_at a 0)) with (pos (lv a)) end; rewrite !lv_pos.
    + pose proof (rect_corner s c n' h w e eps Hs Un' H0 ltac:(lra) ltac:(lra) HW) as Q.
      replace (moved c n h) with (moved c n' (- h)) by (unfold n'; coords). replace (moved c u w) with (moved c (turned s n') w) by (unfold n'; coords). replace q0 with (moved (moved c n' (- e)) (turned s n') e) by (unfold q0, n'; coords). exact Q.
    + pose proof (rect_corner s (moved c u w) u w h e eps Hs Hu H0 ltac:(lra) ltac:(lra) WH) as Q.
      replace c with (moved (moved c u w) u (- w)) at 1 by coords. replace (moved q0 u (w - 2 * e)) with (moved (moved (moved c u w) u (- e)) (turned s u) e) by (unfold q0; coords). exact Q.
    + pose proof (rect_corner s (moved (moved c u w) n h) n h w e eps Hs Un H0 ltac:(lra) ltac:(lra) HW) as Q.
      replace (moved c u w) with (moved (moved (moved c u w) n h) n (- h)) at 1 by coords. replace (moved c n h) with (moved (moved (moved c u w) n h) (turned s n) w) by coords. replace (moved (moved q0 u (w - 2 * e)) n (h - 2 * e)) with (moved (moved (moved (moved c u w) n h) n (- e)) (turned s n) e) by (unfold q0; coords). exact Q.
    + pose proof (rect_corner s (moved c n h) u' w h e eps Hs Uu' H0 ltac:(lra) ltac:(lra) WH) as Q.
      replace (moved (moved c u w) n h) with (moved (moved c n h) u' (- w)) by (unfold u'; coords). replace c with (moved (moved c n h) (turned s u') h) at 3 by (unfold u'; coords). replace (moved q0 n (h - 2 * e)) with (moved (moved (moved c n h) u' (- e)) (turned s u') e) by (unfold q0, u'; coords). exact Q.
  - unfold qs, rect_corners. fold n. cbn [with_previous last combine]. repeat constructor; cbn [fst snd].
    + replace q0 with (moved (moved q0 n (h - 2 * e)) n' (h - 2 * e)) at 2 by (unfold n'; coords). apply apart_along; [exact Un'|exact He|rewrite Rabs_pos_eq; lra].
    + apply apart_along; [exact Hu|exact He|rewrite Rabs_pos_eq; lra].
    + apply apart_along; [exact Un|exact He|rewrite Rabs_pos_eq; lra].
    + replace (moved q0 n (h - 2 * e)) with (moved (moved (moved q0 u (w - 2 * e)) n (h - 2 * e)) u' (w - 2 * e)) by (unfold u'; coords). apply apart_along; [exact Uu'|exact He|rewrite Rabs_pos_eq; lra].
  - intros a b m q E LN EQ. cbn [p polygon rect_corners map vtx spec_segs combine tl app hd_error] in E. injection E as <- <-. cbn [qs rect_corners nth_error] in EQ. injection EQ as <-.
    change (pos (vertex_at c 0)) with (pos (lv c)) in *. change (pos (vertex_at (moved c u w) 0)) with (pos (lv (moved c u w))) in LN. rewrite !lv_pos in *.
    pose proof (normal_along c u w Hu ltac:(lra)) as LN'. pose proof (left_normal_neq _ _ _ LN) as NE. apply (left_normal_val _ _ _ NE) in LN. apply (left_normal_val _ _ _ NE) in LN'. rewrite <- LN' in LN. subst m.
    replace (moved q0 u (w - 2 * e)) with (moved (moved c (turned 1 u) (s * e)) u (w - e)) by (unfold q0; coords). apply apart_along; [exact Hu|exact He|rewrite Rabs_pos_eq; lra].
Qed.

Lemma beside_rect x v m k y z : unit_vec v -> m = turned s v -> 0 < k -> eps <= y -> eps <= k * y -> beside eps x (moved x v k) (moved (moved x v z) m y) (moved (moved x v (z + k)) m y) /\ beside eps x (moved x v k) (moved (moved x v (z + k)) m y) (moved (moved x v z) m y).
Proof.
  intros Uv -> Hk Hy Hky.
  assert (D : dist x (moved x v k) = k).
  { pose proof (dist_sqr x (moved x v k)) as Q. unfold moved in Q. cbn [vx vy] in Q. fold (moved x v k) in Q. assert (0 <= dist x (moved x v k)) by apply sqrt_pos.
    apply Rsqr_inj; [assumption|lra|]. unfold Rsqr. unfold moved in *. cbn [vx vy] in *. rewrite Q. transitivity (k * k * (vx v * vx v + vy v * vy v)); [ring|rewrite Uv; ring]. }
  assert (C : forall z, s * cross (vec x (moved x v k)) (vec x (moved (moved x v z) (turned s v) y)) = k * y).
  { intros z'. unfold cross, vec, moved, turned. cbn [vx vy]. transitivity (s * s * (k * y) * (vx v * vx v + vy v * vy v)); [ring|]. rewrite Uv. destruct Hs as [-> | ->]; ring. }
  assert (G : eps * k <= k * y) by (rewrite Rmult_comm; apply Rmult_le_compat_l; lra).
  split; exists s; (split; [exact Hs|]); intros w' [-> | ->]; rewrite C, D; split; assumption.
Qed.

Lemma rect_lone : lone_polygon eps qs.
Proof.
  unfold lone_polygon, qs, rect_corners. fold n. set (W := w - 2 * e) in *. set (H := h - 2 * e) in *. cbn [length spec_segs combine tl app]. split; [lia|].
  set (A := moved q0 u W). set (B := moved A n H). set (D := moved q0 n H).
  assert (X : forall x y, Rabs (s * (x * y)) = Rabs (x * y)) by (intros; rewrite Rabs_mult; replace (Rabs s) with 1 by (destruct Hs as [-> | ->]; [now rewrite Rabs_R1|rewrite Rabs_left; lra]); ring).
  assert (X' : eps <= Rabs (s * (W * H))) by (rewrite X; pose proof (Rle_abs (W * H)); lra).
  split.
  - assert (C : forall a b c', cross (vec a b) (vec b c') = s * (W * H) * (vx u * vx u + vy u * vy u) -> eps <= Rabs (cross (vec a b) (vec b c'))) by (intros a b c' E; rewrite E, Hu, Rmult_1_r; exact X').
    intros [|[|[|[|i]]]] a b c' E1 E2; cbn in E1, E2; try discriminate; [injection E1 as <- <-; injection E2 as <-; apply C; unfold B, D, A, n, cross, vec, moved, turned; cbn [vx vy]; ring..|destruct i; discriminate].
  - pose proof (turned_unit s u Hs Hu) as Un. fold n in Un.
    pose proof (beside_rect q0 u n W H 0 Hu eq_refl ltac:(lra) ltac:(lra) Ha) as (B1 & B2). 
    set (n' := V2 (- vx n) (- vy n)). pose proof (neg_unit n Un) as Un'. fold n' in Un'.
    pose proof (beside_rect D n' u H W 0 Un' ltac:(unfold n'; coords) ltac:(lra) ltac:(lra) ltac:(lra)) as (B3 & B4).
    rewrite Rplus_0_l in *.
    replace (moved (moved q0 u 0) n H) with D in * by (unfold D; coords). fold A in B1, B2. fold B in B1, B2.
    replace (moved D n' H) with q0 in * by (unfold D, n'; coords). replace (moved (moved D n' 0) u W) with B in * by (unfold B, A, D, n'; coords). fold A in B3, B4.
    intros [|[|[|[|i]]]] [|[|[|[|j]]]] a b c' e' E1 E2 N1 N2 N3; cbn in E1, E2, N2, N3; try lia; try discriminate; try (injection E1 as <- <-; injection E2 as <- <-; auto); try (destruct i; discriminate); try (destruct j; discriminate).
Qed.

Lemma rect_clear x : 0 <= x < e -> lies_clear p x q0.
Proof.
  intros Hx v1 v2 q I (t & Ht & S).
  assert (K : forall y z, q = moved (moved q0 u y) n z -> e <= Rabs y \/ e <= Rabs z -> x < dist q0 q).
  { intros y z E M. assert (P : 0 <= dist q0 q) by apply sqrt_pos. assert (DD : dist q0 q * dist q0 q = y * y + z * z). { rewrite E. apply dist_along; [exact Hu|]. unfold n. destruct Hs as [-> | ->]; auto. }
    assert (Q : forall y, e <= Rabs y -> e * e <= y * y). { intros y' L. replace (y' * y') with (Rabs y' * Rabs y') by (unfold Rabs; destruct (Rcase_abs y'); ring). apply Rmult_le_compat; lra. }
    pose proof (Rle_0_sqr y) as Y. pose proof (Rle_0_sqr z) as Z. unfold Rsqr in Y, Z. assert (EE : e * e <= dist q0 q * dist q0 q) by (destruct M as [M|M]; apply Q in M; lra).
    apply Rnot_le_lt. intros L. assert (dist q0 q * dist q0 q <= x * x) by (apply Rmult_le_compat; lra). assert (x * x < e * e) by (apply Rmult_le_0_lt_compat; lra). lra. }
  cbn [p polygon rect_corners map vtx is_closed spec_segs combine tl app] in I. fold n in I.
  assert (L : pbulge v1 = 0 -> q = line_pt (pos v1) (pos v2) t) by (intros Z; destruct S as [(_ & E)|(N & _)]; [exact E|contradiction]).
  assert (N : forall y, y <= - e -> e <= Rabs y) by (intros y Y; rewrite Rabs_left; lra).
  assert (Q : forall y, e <= y -> e <= Rabs y) by (intros y Y; rewrite Rabs_pos_eq; lra).
  destruct I as [I|[I|[I|[I|[]]]]]; injection I as <- <-; specialize (L eq_refl); unfold pos, vertex_at, line_pt in L; cbn [px py vx vy] in L.
  - apply (K (t * w - e) (- e)); [rewrite L; unfold q0; coords|]. right. apply N. lra.
  - apply (K (w - e) (t * h - e)); [rewrite L; unfold q0; coords|]. left. apply Q. lra.
  - apply (K ((1 - t) * w - e) (h - e)); [rewrite L; unfold q0; coords|]. right. apply Q. lra.
  - apply (K (- e) ((1 - t) * h - e)); [rewrite L; unfold q0; coords|]. left. apply N. lra.
Qed.

Lemma rect_offset mk idx o : eps = oo_pos_equal_eps o -> makes_index mk -> pline_index p idx -> oo_handle_self_intersects o = false -> 0 < oo_slice_join_eps o -> 0 < oo_offset_dist_eps o < 2 * e ->
  parallel_offset mk p idx (s * e) o = Ret [polygon qs].
Proof.
  intros E MK IDX HS Hj Ho. apply (poly_whole mk p idx (s * e) o qs q0 MK IDX); try assumption.
  - split; [reflexivity|]. intros v I. cbn [p polygon rect_corners map vtx] in I. destruct I as [<-|[<-|[<-|[<-|[]]]]]; reflexivity.
  - rewrite <- E. exact He.
  - rewrite <- E. exact rect_inner.
  - rewrite <- E. exact rect_lone.
  - reflexivity.
  - apply rect_clear. split; [apply Rabs_pos|]. rewrite Rabs_mult, (Rabs_pos_eq e) by lra. replace (Rabs s) with 1 by (destruct Hs as [-> | ->]; [now rewrite Rabs_R1|rewrite Rabs_left; lra]).
    rewrite Rmult_1_l. unfold Rabs. destruct (Rcase_abs _); lra.
Qed.
End Rect.

Definition rect_ex_opts : offset_options R := OO (1 / 100000) (1 / 10000) (1 / 10000) false.

Lemma rect_ex_all : let p := polygon (rect_corners 1 (V2 1 2) (V2 (3/5) (4/5)) 10 5) in
  p = PL [Vtx 1 2 0; Vtx 7 10 0; Vtx 3 13 0; Vtx (-3) 5 0] true
  /\ parallel_offset_constructed (@list_index R _) p 1 rect_ex_opts = Ret [PL [Vtx (4/5) (17/5) 0; Vtx (28/5) (49/5) 0; Vtx (16/5) (58/5) 0; Vtx (-8/5) (26/5) 0] true].
Proof.
  cbv zeta. assert (U : unit_vec (V2 (3/5) (4/5))) by (unfold unit_vec; cbn; lra). split.
  - unfold polygon, rect_corners, turned, vertex_at, moved. cbn [vx vy map]. f_equal. repeat apply (f_equal2 (@cons (vertex R))); try reflexivity; f_equal; field.
  - apply (offsets_to_intro (@list_index R _) _ 1 rect_ex_opts _ list_index_ok); [cbn; lia|]. intros idx IDX.
    pose proof (rect_offset 1 (V2 1 2) (V2 (3/5) (4/5)) 10 5 1 (1 / 100000) (or_introl eq_refl) U ltac:(lra) ltac:(lra) ltac:(lra) ltac:(lra) ltac:(lra) (@list_index R _) idx rect_ex_opts eq_refl list_index_ok IDX eq_refl ltac:(cbn; lra) ltac:(cbn; lra)) as E.
    rewrite Rmult_1_l in E. rewrite E. unfold polygon, rect_corners, turned, vertex_at, moved. cbn [vx vy map]. f_equal. f_equal. f_equal. repeat apply (f_equal2 (@cons (vertex R))); try reflexivity; f_equal; field.
Qed.

(** ** In the form of the theorems *)
Lemma uncut_either mk p idx d o raw v : makes_index mk -> pline_index p idx -> (2 <= vertex_count p)%nat -> is_closed p = true ->
  create_raw_offset_polyline p d (oo_pos_equal_eps o) = Ret raw -> (2 <= vertex_count raw)%nat -> (forall cuts, offset_cuts p d o raw cuts -> cuts = []) ->
  hd_error (vtx raw) = Some v ->
  (0 < oo_slice_join_eps o -> (forall a b, In (a, b) (spec_segs (vtx raw) true) -> v2fuzzy_eq_eps (pos a) (pos b) (oo_pos_equal_eps o) = false) ->
     clear_point p d o (pos v) -> parallel_offset mk p idx d o = Ret [raw])
  /\ (~ clear_point p d o (pos v) -> parallel_offset mk p idx d o = Ret []).
Proof.
  intros MK IDX TP HC ER TR NC HV. split; [intros Hj NF CP; exact (uncut_whole mk p idx d o raw MK IDX TP HC ER TR NC v Hj NF HV CP)|].
  intros N. exact (uncut_none mk p idx d o raw MK IDX TP HC ER TR NC v HV N).
Qed.

Lemma poly_none' mk p idx d o qs q v1 v2 x : makes_index mk -> pline_index p idx -> is_polygon p -> 0 < oo_pos_equal_eps o -> oo_handle_self_intersects o = false ->
  inner_corners p d (oo_pos_equal_eps o) qs -> lone_polygon (oo_pos_equal_eps o) qs -> hd_error qs = Some q ->
  oo_offset_dist_eps o <= Rabs d -> In (v1, v2) (spec_segs (vtx p) true) -> on_seg v1 v2 x ->
  (dist q x + 3 * oo_pos_equal_eps o) * (dist q x + 3 * oo_pos_equal_eps o) + 1 / 50000000 <= (Rabs d - oo_offset_dist_eps o) * (Rabs d - oo_offset_dist_eps o) ->
  parallel_offset mk p idx d o = Ret [].
Proof. intros MK IDX HP He HS IC LP HQ. exact (poly_none mk p idx d o qs q MK IDX HP He HS IC LP HQ v1 v2 x). Qed.

Lemma rect_offset' mk s c u w h e o idx : makes_index mk -> s = 1 \/ s = -1 -> unit_vec u ->
  0 < oo_pos_equal_eps o -> 0 < oo_slice_join_eps o -> 0 < oo_offset_dist_eps o < 2 * e -> oo_handle_self_intersects o = false ->
  0 < e -> 2 * oo_pos_equal_eps o <= w - 2 * e -> 2 * oo_pos_equal_eps o <= h - 2 * e -> oo_pos_equal_eps o <= (w - 2 * e) * (h - 2 * e) ->
  pline_index (polygon (rect_corners s c u w h)) idx ->
  parallel_offset mk (polygon (rect_corners s c u w h)) idx (s * e) o
  = Ret [polygon (rect_corners s (moved (moved c u e) (turned s u) e) u (w - 2 * e) (h - 2 * e))].
Proof. intros MK Hs Hu He Hj Ho HS H0 Hw Hh Ha IDX. now apply (rect_offset s c u w h e (oo_pos_equal_eps o)). Qed.
