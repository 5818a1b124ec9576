(** The offset of a circle (C59). *)
From Coq Require Import Reals ZArith Bool List Arith Lra Lia.
From Verif Require Import Num RNum Res ModelMath ModelIntr ModelSeg ModelPline ModelView ModelSegIntr ModelIndex ModelIntersects ModelBoolean ModelOffset.
From Verif Require Import Spec SpecPline SpecGeom SpecIntr SpecBox SpecOffset SpecOffsetJoin SpecIndex SpecIntersects SpecCuts SpecOffNear SpecCircle.
From Verif Require Import ProofR ProofBase ProofIter ProofIntr ProofArc ProofBox2 ProofIndex2 ProofSlice ProofOffsetJoin2 ProofWhole.
Import ListNotations.
Local Open Scope R_scope.

Lemma Rabs_le_inv' x y : Rabs x <= y -> - y <= x <= y.
Proof. unfold Rabs. destruct (Rcase_abs x); lra. Qed.

Section Circle.
Context (c u : vec2 R) (b : R).
Hypothesis Hu : unit_vec u.
Hypothesis Hb : b = 1 \/ b = -1.

Let P k := moved c u k.
Let W k := vertex_at (P k) b.

Lemma b_abs : Rabs b = 1.
Proof. destruct Hb as [-> | ->]; [apply Rabs_R1|rewrite Rabs_left; lra]. Qed.
Lemma b_sqr : b * b = 1.
Proof. destruct Hb as [-> | ->]; ring. Qed.

Lemma scaled_len k : sqrt (k * vx u * (k * vx u) + k * vy u * (k * vy u)) = Rabs k.
Proof.
  replace (k * vx u * (k * vx u) + k * vy u * (k * vy u)) with (Rsqr k); [apply sqrt_Rsqr_abs|]. unfold Rsqr. transitivity (k * k * (vx u * vx u + vy u * vy u)); [rewrite Hu; ring|ring].
Qed.

Lemma half_rc k : k <> 0 -> seg_arc_radius_and_center (W k) (W (- k)) = (Rabs k, c).
Proof.
  intros K. unfold seg_arc_radius_and_center, v2length, v2dot, v2sub. cbv zeta. cbn [W P vertex_at pos moved px py pbulge vx vy]. rnum. rewrite b_abs.
  replace (sqrt ((vx c + - k * vx u - (vx c + k * vx u)) * (vx c + - k * vx u - (vx c + k * vx u)) + (vy c + - k * vy u - (vy c + k * vy u)) * (vy c + - k * vy u - (vy c + k * vy u)))) with (2 * Rabs k).
  2:{ transitivity (Rabs (- 2 * k)); [rewrite Rabs_mult, (Rabs_left (-2)) by lra; ring|]. rewrite <- scaled_len. f_equal. ring. }
  assert (A : Rabs k <> 0) by now apply Rabs_no_R0.
  replace (2 * Rabs k * (1 * 1 + 1) / (4 * 1)) with (Rabs k) by field. replace (Rabs k - 1 * (2 * Rabs k) / 2) with 0 by field.
  destruct (bulge_is_neg _); f_equal; apply vec2_eq; cbn [vx vy]; field; assumption.
Qed.

Lemma W_bulge k : bulge_is_zero (W k) = false.
Proof.
  unfold bulge_is_zero. cbn [W vertex_at pbulge]. unfold fuzzy_eq_zero, fuzzy_eq_zero_eps. rnum. apply rltb_false. rewrite b_abs. lra.
Qed.

Lemma W_neg k : bulge_is_neg (W k) = rltb b 0. Proof. reflexivity. Qed.
Lemma W_pos k : bulge_is_pos (W k) = rltb 0 b. Proof. reflexivity. Qed.

Lemma P_apart e k l : 0 < e -> 2 * e <= Rabs (k - l) -> v2fuzzy_eq_eps (P k) (P l) e = false.
Proof.
  intros He L. apply not_true_is_false. intros F. apply v2fuzzy_R in F. cbn [P moved vx vy] in F. destruct F as (F1 & F2).
  replace (vx c + k * vx u - (vx c + l * vx u)) with ((k - l) * vx u) in F1 by ring. replace (vy c + k * vy u - (vy c + l * vy u)) with ((k - l) * vy u) in F2 by ring.
  pose proof (scaled_len (k - l)) as S. apply (f_equal (fun x => x * x)) in S. rewrite sqrt_sqrt in S by (apply Rplus_le_le_0_compat; apply Rle_0_sqr). replace (Rabs (k - l) * Rabs (k - l)) with ((k - l) * (k - l)) in S by (unfold Rabs; destruct (Rcase_abs (k - l)); ring).
  apply Rabs_def2 in F1, F2.
  assert (S1 : (k - l) * vx u * ((k - l) * vx u) <= e * e) by nra.
  assert (S2 : (k - l) * vy u * ((k - l) * vy u) <= e * e) by nra.
  assert (4 * (e * e) <= (k - l) * (k - l)). { replace ((k - l) * (k - l)) with (Rabs (k - l) * Rabs (k - l)) by (unfold Rabs; destruct (Rcase_abs (k - l)); ring). nra. }
  nra.
Qed.

Lemma P_same e k : 0 < e -> v2fuzzy_eq_eps (P k) (P k) e = true.
Proof. intros He. apply v2fuzzy_R. rewrite !Rminus_diag_eq, Rabs_R0 by reflexivity. auto. Qed.

Lemma opposite_delta k : k <> 0 -> delta_angle (angle c (P k)) (angle c (P (- k))) = PI.
Proof.
  intros K. pose proof PI_pos. apply delta_angle_unique; [|lra]. unfold angle. cbn [P moved vx vy]. rnum.
  set (x := k * vx u). set (y := k * vy u). replace (vx c + x - vx c) with x by ring. replace (vy c + y - vy c) with y by ring.
  replace (vx c + - k * vx u - vx c) with (- x) by (unfold x; ring). replace (vy c + - k * vy u - vy c) with (- y) by (unfold y; ring).
  assert (N : x <> 0 \/ y <> 0).
  { destruct (Req_dec x 0) as [X|X]; [|left; exact X]. right. intros Y. pose proof (scaled_len k) as S. fold x y in S. rewrite X, Y in S. rewrite Rmult_0_r, Rplus_0_r, sqrt_0 in S. symmetry in S. now apply Rabs_no_R0 in S. }
  assert (N' : - x <> 0 \/ - y <> 0) by (destruct N; [left|right]; lra).
  destruct (ratan2_spec y x N) as (A1 & A2 & _). destruct (ratan2_spec (- y) (- x) N') as (B1 & B2 & _).
  replace (- x * - x + - y * - y) with (x * x + y * y) in B1, B2 by ring. pose proof (sqrt_sqr_pos x y N) as S. set (s := sqrt _) in *. set (a := ratan2 y x) in *. set (a' := ratan2 (- y) (- x)) in *.
  apply congr_sym. assert (E : congr a' (a + PI)).
  { apply cos_sin_congr; rewrite ?neg_cos, ?neg_sin; apply (Rmult_eq_reg_l s); lra. }
  eapply congr_trans; [apply congr_minus; [exact E|apply congr_refl]|]. exists 0%Z. ring.
Qed.

Lemma normal_P k : 0 < k -> v2normalize (v2sub (P k) c) = u.
Proof.
  intros K. unfold v2normalize, v2scale, v2sub, v2length, v2dot. cbn [P moved vx vy]. rnum.
  replace (vx c + k * vx u - vx c) with (k * vx u) by ring. replace (vy c + k * vy u - vy c) with (k * vy u) by ring.
  rewrite scaled_len, Rabs_pos_eq by lra. apply vec2_eq; cbn [vx vy]; field; lra.
Qed.

Lemma normal_N k : k < 0 -> v2normalize (v2sub (P k) c) = V2 (- vx u) (- vy u).
Proof.
  intros K. unfold v2normalize, v2scale, v2sub, v2length, v2dot. cbn [P moved vx vy]. rnum.
  replace (vx c + k * vx u - vx c) with (k * vx u) by ring. replace (vy c + k * vy u - vy c) with (k * vy u) by ring.
  rewrite scaled_len, Rabs_left by lra. apply vec2_eq; cbn [vx vy]; field; lra.
Qed.

Lemma offs_val d k : (if bulge_is_neg (W k) then d else - d) = - (b * d).
Proof. rewrite W_neg. destruct Hb as [-> | ->]; [rewrite (proj2 (rltb_false 1 0)) by lra|rewrite (proj2 (rltb_true (-1) 0)) by lra]; ring. Qed.

Section Run.
Context (r d : R) (o : offset_options R).
Let eps := oo_pos_equal_eps o.
Let k := r - b * d.
Let p := circle c u r b.
Hypothesis He : 0 < eps.
Hypothesis Hr : 0 < r.
Hypothesis Hk : 2 * eps <= k.
Hypothesis Hf : 1 / 100000000 <= k.

Lemma raw_half : raw_arc_seg d (W r) (W (- r)) = RS (W k) (W (- k)) (P (- r)) false.
Proof.
  unfold raw_arc_seg. rewrite (half_rc r) by lra. change (nneg d) with (- d). rewrite (offs_val d r).
  change (pos (W r)) with (P r). change (pos (W (- r))) with (P (- r)).
  rewrite (normal_P r Hr), (normal_N (- r)) by lra. rewrite (Rabs_pos_eq r) by lra.
  unfold fuzzy_lt, fuzzy_lt_eps. rnum. replace (r + - (b * d)) with k by (unfold k; ring).
  rewrite (proj2 (rltb_false k (0 + 1 / 100000000))) by lra. f_equal; unfold from_vector2, v2add, v2scale, W, vertex_at; cbn [vx vy P moved]; rnum; cbn [pbulge]; f_equal; unfold k; ring.
Qed.

Lemma raw_half' : raw_arc_seg d (W (- r)) (W r) = RS (W (- k)) (W k) (P r) false.
Proof.
  unfold raw_arc_seg. assert (RC : seg_arc_radius_and_center (W (- r)) (W r) = (r, c)). { pose proof (half_rc (- r)) as A. rewrite Ropp_involutive, Rabs_Ropp, (Rabs_pos_eq r) in A by lra. apply A. lra. }
  rewrite RC. change (nneg d) with (- d). rewrite (offs_val d (- r)).
  change (pos (W r)) with (P r). change (pos (W (- r))) with (P (- r)).
  rewrite (normal_P r Hr), (normal_N (- r)) by lra.
  unfold fuzzy_lt, fuzzy_lt_eps. rnum. replace (r + - (b * d)) with k by (unfold k; ring).
  rewrite (proj2 (rltb_false k (0 + 1 / 100000000))) by lra. f_equal; unfold from_vector2, v2add, v2scale, W, vertex_at; cbn [vx vy P moved]; rnum; cbn [pbulge]; f_equal; unfold k; ring.
Qed.

Lemma join_any l cl ccw q q' x : x = k \/ x = - k ->
  join_seg_pair ccw eps (PL l cl) (RS (W (- x)) (W x) q false, RS (W x) (W (- x)) q' false) = Ret (add_or_replace_vertex (PL l cl) (W x) eps).
Proof.
  intros HX. unfold join_seg_pair. cbn [rs_v1]. rewrite !W_bulge. unfold arc_arc_join. cbn [rs_v1 rs_v2].
  assert (X : x <> 0) by (destruct HX; lra). pose proof (half_rc x X) as R1. pose proof (half_rc (- x) ltac:(lra)) as R2. rewrite Ropp_involutive, Rabs_Ropp in R2. rewrite R1, R2.
  unfold circle_circle_intr, v2sub, v2dot. rnum. cbn [vx vy]. replace ((vx c - vx c) * (vx c - vx c) + (vy c - vy c) * (vy c - vy c)) with 0 by ring. rewrite sqrt_0.
  unfold fuzzy_eq_zero_eps, fuzzy_eq_eps. rnum. rewrite (Rminus_diag_eq (Rabs x) (Rabs x)) by reflexivity. rewrite Rabs_R0, (proj2 (rltb_true 0 eps) He). reflexivity.
Qed.

Lemma bulge_again : bulge_from_angle PI = 1.
Proof. unfold bulge_from_angle. rnum. replace (PI / 4) with (PI / 4) by reflexivity. exact tan_PI4. Qed.

Lemma raw_circle : create_raw_offset_polyline p d eps = Ret (circle c u k b).
Proof.
  unfold create_raw_offset_polyline. cbn [p circle vertex_count vtx length Nat.ltb Nat.leb].
  unfold create_untrimmed_raw_offset_segs. rewrite iter_segments_spec. cbn [p circle vtx is_closed spec_segs combine tl app rbind map fst snd].
  fold (P r) (P (- r)). fold (W r) (W (- r)). rewrite !W_bulge, raw_half, raw_half'. cbn [rs_v1 windows2 firstn skipn rfold].
  pose proof (join_any [W k] true (d <? nzero)%num (P (- r)) (P r) (- k) (or_intror eq_refl)) as J1. rewrite !Ropp_involutive in J1. rewrite J1. cbn [rbind rfold].
  assert (A1 : add_or_replace_vertex (PL [W k] true) (W (- k)) eps = PL [W k; W (- k)] true).
  { unfold add_or_replace_vertex. cbn [vtx rev app is_closed]. change (pos (W k)) with (P k). change (pos (W (- k))) with (P (- k)). rewrite P_apart; [reflexivity|exact He|]. replace (k - - k) with (2 * k) by ring. rewrite Rabs_pos_eq; lra. }
  rewrite A1. cbn [vertex_count vtx length Nat.eqb Nat.ltb Nat.leb andb last].
  unfold close_raw_offset. change (last_ (PL [W k; W (- k)] true)) with (Ret (Some (W (- k)))). cbn [rbind unwrap].
  rewrite (join_any [W (- k)] false (d <? nzero)%num (P r) (P (- r)) k (or_introl eq_refl)). cbn [rbind].
  assert (A2 : add_or_replace_vertex (PL [W (- k)] false) (W k) eps = PL [W (- k); W k] false).
  { unfold add_or_replace_vertex. cbn [vtx rev app is_closed]. change (pos (W k)) with (P k). change (pos (W (- k))) with (P (- k)). rewrite P_apart; [reflexivity|exact He|]. replace (- k - k) with (- (2 * k)) by ring. rewrite Rabs_Ropp, Rabs_pos_eq; lra. }
  rewrite A2. change (at_ (PL [W (- k); W k] false) 0) with (Ret (W (- k))). cbn [rbind].
  change (set_last (PL [W k; W (- k)] true) (W (- k))) with (Ret (PL [W k; W (- k)] true)). cbn [rbind]. change (extend_vertexes (PL [W k; W (- k)] true) (skipn 1 (vtx (PL [W (- k); W k] false)))) with (PL [W k; W (- k); W k] true).
  cbn [negb]. change (last_ (PL [W (- k); W k] false)) with (Ret (Some (W k))). cbn [rbind unwrap].
  assert (U : update_first_vertex (PL [W k; W (- k); W k] true) (pos (W k)) = Ret (PL [W k; W (- k); W k] true)).
  { unfold update_first_vertex. change (at_ (PL [W k; W (- k); W k] true) 0) with (Ret (W k)). change (at_ (PL [W k; W (- k); W k] true) 1) with (Ret (W (- k))). cbn [rbind]. rewrite W_bulge.
    cbn [vertex_count vtx length Nat.ltb Nat.leb]. rewrite (half_rc k) by lra. cbn [snd]. change (pos (W k)) with (P k). change (pos (W (- k))) with (P (- k)). rewrite opposite_delta by lra. rewrite bulge_again, W_pos, W_neg.
    pose proof PI_pos. rnum. rewrite (proj2 (rltb_false PI 0)) by lra. rewrite (proj2 (rltb_true 0 PI)) by lra. cbn [andb orb].
    assert (E : Vtx (vx (P k)) (vy (P k)) 1 = W k \/ (rltb b 0 = true /\ Vtx (vx (P k)) (vy (P k)) (pbulge (W k)) = W k)).
    { destruct Hb as [B|B]; [left|right; split]; unfold W; cbn [vertex_at pbulge].
      - unfold vertex_at. now rewrite B.
      - apply rltb_true. lra.
      - reflexivity. }
    destruct (rltb b 0) eqn:EB.
    - reflexivity.
    - destruct E as [E|(E & _)]; [rewrite E; reflexivity|discriminate]. }
  rewrite U. cbn [rbind]. unfold prune_singularity. cbn [vertex_count vtx length Nat.ltb Nat.leb].
  change (at_ (PL [W k; W (- k); W k] true) 0) with (Ret (W k)). change (last_ (PL [W k; W (- k); W k] true)) with (Ret (Some (W k))). cbn [rbind unwrap]. change (pos (W k)) with (P k). rewrite P_same by exact He.
  change (remove_last (PL [W k; W (- k); W k] true)) with (Ret (W k, PL [W k; W (- k)] true)). cbn [rbind snd vertex_count vtx length Nat.ltb Nat.leb].
  change (at_ (PL [W k; W (- k)] true) 0) with (Ret (W k)). change (at_ (PL [W k; W (- k)] true) 1) with (Ret (W (- k))). cbn [rbind]. change (pos (W k)) with (P k). change (pos (W (- k))) with (P (- k)).
  rewrite P_apart; [|exact He|replace (k - - k) with (2 * k) by ring; rewrite Rabs_pos_eq; lra]. cbn [rbind vertex_count vtx length Nat.eqb]. reflexivity.
Qed.

Lemma no_cuts cuts : oo_handle_self_intersects o = false -> offset_cuts p d o (circle c u k b) cuts -> cuts = [].
Proof.
  intros HS. unfold offset_cuts. rewrite HS. cbn [p circle is_closed negb andb]. intros (pairs & (PO & _) & ->).
  assert (E : pairs = []).
  { destruct pairs as [|(i, j) t]; [reflexivity|exfalso]. destruct (PO i j (or_introl eq_refl)) as (A & B & (C & D & _) & _). cbn in A, B. apply D. symmetry. change ((j + 1) mod 2 = i)%nat.
    destruct i as [|[|i]], j as [|[|j]]; try reflexivity; lia. }
  subst pairs. unfold self_cuts, local_events. cbn [flat_map app circle vtx length Nat.ltb Nat.leb is_closed andb vertex_at pbulge].
  unfold fuzzy_eq, fuzzy_eq_eps. rnum. rewrite (proj2 (rltb_false (Rabs (b - - b)) (1 / 100000000))); [reflexivity|]. replace (b - - b) with (2 * b) by ring. rewrite Rabs_mult, b_abs, (Rabs_pos_eq 2); lra.
Qed.

(** ** Distance *)
Lemma arc_dist k1 k2 : dist (P k1) (P k2) * dist (P k1) (P k2) = (k1 - k2) * (k1 - k2).
Proof. rewrite dist_sqr. cbn [P moved vx vy]. transitivity ((k1 - k2) * (k1 - k2) * (vx u * vx u + vy u * vy u)); [ring|]. rewrite Hu. ring. Qed.

Lemma within_sweep x y z : point_within_arc_sweep c (P x) (P y) (rltb b 0) (P z) eps = true.
Proof.
  unfold point_within_arc_sweep, is_left_or_coincident_eps, is_right_or_coincident_eps, perp_dot_test_value. cbn [P moved vx vy]. rnum.
  assert (E : forall x, (vx c + x * vx u - vx c) * (vy c + z * vy u - vy c) - (vy c + x * vy u - vy c) * (vx c + z * vx u - vx c) = 0) by (intros; ring). rewrite !E.
  rewrite (proj2 (rltb_true 0 eps)), (proj2 (rltb_true (- eps) 0)) by lra. destruct (rltb b 0); reflexivity.
Qed.

Lemma closest_on z x : (x = r \/ x = - r) -> 2 * eps <= z -> seg_closest_point (W x) (W (- x)) (P z) eps = P r.
Proof.
  intros HX HZ. unfold seg_closest_point. rewrite W_bulge. rewrite half_rc by (destruct HX; lra). replace (Rabs x) with r by (destruct HX as [-> | ->]; rewrite ?Rabs_Ropp, Rabs_pos_eq; lra).
  assert (C : c = P 0) by (unfold P, moved; apply vec2_eq; cbn [vx vy]; ring). rewrite C at 1. rewrite P_apart; [|exact He|rewrite Rminus_0_r, Rabs_pos_eq; lra].
  rewrite W_neg. change (pos (W x)) with (P x). change (pos (W (- x))) with (P (- x)). rewrite within_sweep, normal_P by lra.
  unfold v2add, v2scale, P, moved. rnum. apply vec2_eq; cbn [vx vy]; ring.
Qed.

Lemma circle_clear : 0 < oo_offset_dist_eps o < 2 * Rabs d -> clear_point p d o (P k).
Proof.
  intros Ho v1 v2 I _. cbn [p circle vtx is_closed spec_segs combine tl app] in I. fold eps.
  assert (Q : seg_closest_point v1 v2 (P k) eps = P r).
  { destruct I as [I|[I|[]]]; injection I as <- <-; [apply (closest_on k r); [left; reflexivity|exact Hk]|]. pose proof (closest_on k (- r) (or_intror eq_refl) Hk) as E. rewrite Ropp_involutive in E. exact E. }
  rewrite Q. rnum. apply rltb_true.
  assert (DS : dist_squared (P r) (P k) = d * d).
  { transitivity (dist (P r) (P k) * dist (P r) (P k)); [rewrite dist_sqr; unfold dist_squared, v2dot, v2sub; rnum; cbn [vx vy]; ring|]. rewrite arc_dist. unfold k. replace (r - (r - b * d)) with (b * d) by ring. replace (b * d * (b * d)) with (b * b * (d * d)) by ring. rewrite b_sqr. ring. }
  rewrite DS. assert (E : d * d = Rabs d * Rabs d) by (unfold Rabs; destruct (Rcase_abs d); ring). rewrite E. pose proof (Rabs_pos d). nra.
Qed.

Lemma circle_offset mk idx : makes_index mk -> pline_index p idx -> 0 < oo_slice_join_eps o -> 0 < oo_offset_dist_eps o < 2 * Rabs d -> oo_handle_self_intersects o = false ->
  parallel_offset mk p idx d o = Ret [circle c u k b].
Proof.
  intros MK IDX Hj Ho HS. apply (uncut_whole mk p idx d o (circle c u k b) MK IDX) with (v := W k).
  - cbn. lia.
  - reflexivity.
  - exact raw_circle.
  - cbn. lia.
  - intros cuts. now apply no_cuts.
  - exact Hj.
  - intros a w I. cbn [circle vtx spec_segs combine tl app] in I. fold eps. destruct I as [I|[I|[]]]; injection I as <- <-.
    + apply (P_apart eps k (- k)); [exact He|]. replace (k - - k) with (2 * k) by ring. rewrite Rabs_pos_eq; lra.
    + apply (P_apart eps (- k) k); [exact He|]. replace (- k - k) with (- (2 * k)) by ring. rewrite Rabs_Ropp, Rabs_pos_eq; lra.
  - reflexivity.
  - now apply circle_clear.
Qed.
End Run.

(** ** A circle that vanishes *)
Section Gone.
Context (r d : R) (o : offset_options R).
Let eps := oo_pos_equal_eps o.
Let k := r - b * d.
Let p := circle c u r b.
Let L x := vertex_at (P x) 0.
Hypothesis He : 0 < eps.
Hypothesis Hr : 0 < r.
Hypothesis Hk : 2 * eps <= - k.
Hypothesis Ht : 0 < oo_offset_dist_eps o <= 2 * r.
Hypothesis Ht' : oo_offset_dist_eps o <= 2 * - k.

Lemma L_bulge x : bulge_is_zero (L x) = true.
Proof. apply is_zero_line. reflexivity. Qed.

Lemma gone_half : raw_arc_seg d (W r) (W (- r)) = RS (L k) (W (- k)) (P (- r)) true.
Proof.
  unfold raw_arc_seg. rewrite (half_rc r) by lra. change (nneg d) with (- d). rewrite (offs_val d r).
  change (pos (W r)) with (P r). change (pos (W (- r))) with (P (- r)).
  rewrite (normal_P r Hr), (normal_N (- r)) by lra. rewrite (Rabs_pos_eq r) by lra.
  unfold fuzzy_lt, fuzzy_lt_eps. rnum. replace (r + - (b * d)) with k by (unfold k; ring).
  rewrite (proj2 (rltb_true k (0 + 1 / 100000000))) by lra. f_equal; unfold from_vector2, v2add, v2scale, W, L, vertex_at; cbn [vx vy P moved]; rnum; cbn [pbulge]; f_equal; unfold k; ring.
Qed.

Lemma gone_half' : raw_arc_seg d (W (- r)) (W r) = RS (L (- k)) (W k) (P r) true.
Proof.
  unfold raw_arc_seg. assert (RC : seg_arc_radius_and_center (W (- r)) (W r) = (r, c)). { pose proof (half_rc (- r)) as A. rewrite Ropp_involutive, Rabs_Ropp, (Rabs_pos_eq r) in A by lra. apply A. lra. }
  rewrite RC. change (nneg d) with (- d). rewrite (offs_val d (- r)).
  change (pos (W r)) with (P r). change (pos (W (- r))) with (P (- r)).
  rewrite (normal_P r Hr), (normal_N (- r)) by lra.
  unfold fuzzy_lt, fuzzy_lt_eps. rnum. replace (r + - (b * d)) with k by (unfold k; ring).
  rewrite (proj2 (rltb_true k (0 + 1 / 100000000))) by lra. f_equal; unfold from_vector2, v2add, v2scale, W, L, vertex_at; cbn [vx vy P moved]; rnum; cbn [pbulge]; f_equal; unfold k; ring.
Qed.

Lemma L_apart x y cl : 2 * eps <= Rabs (x - y) -> add_or_replace_vertex (add_or_replace_vertex (PL [L x] cl) (L y) eps) (L y) eps = PL [L x; L y] cl.
Proof.
  intros H. unfold add_or_replace_vertex at 2. cbn [vtx rev app is_closed]. change (pos (L x)) with (P x). change (pos (L y)) with (P y). rewrite (P_apart eps x y He H).
  unfold add_or_replace_vertex, add_vertex. cbn [vtx rev app is_closed]. change (pos (L y)) with (P y). rewrite P_same by exact He. reflexivity.
Qed.

Lemma gone_join x y cl ccw q q' z z' : 2 * eps <= Rabs (x - y) ->
  join_seg_pair ccw eps (PL [L x] cl) (RS (L z) (W y) q true, RS (L y) z' q' true) = Ret (PL [L x; L y] cl).
Proof.
  intros H. unfold join_seg_pair. cbn [rs_v1]. rewrite !L_bulge. unfold line_line_join, connect_using_arc. cbn [rs_collapsed_arc rs_v1 rs_v2 rs_orig_v2_pos orb].
  change (pos (W y)) with (P y). change (pos (L y)) with (P y). unfold bulge_for_connection, delta_angle_signed. rewrite (delta_angle_unique (angle q (P y)) (angle q (P y)) 0).
  2:{ rewrite Rminus_diag_eq by reflexivity. apply congr_refl. } 2:{ pose proof PI_pos. lra. }
  rnum. rewrite Rabs_R0. replace (if negb ccw then - 0 else 0) with 0 by (destruct ccw; cbn; ring). unfold bulge_from_angle. rnum. replace (0 / 4) with 0 by field. rewrite tan_0.
  f_equal. exact (L_apart x y cl H).
Qed.

Lemma raw_gone : create_raw_offset_polyline p d eps = Ret (PL [L k; L (- k)] true).
Proof.
  unfold create_raw_offset_polyline. cbn [p circle vertex_count vtx length Nat.ltb Nat.leb].
  unfold create_untrimmed_raw_offset_segs. rewrite iter_segments_spec. cbn [p circle vtx is_closed spec_segs combine tl app rbind map fst snd].
  fold (P r) (P (- r)). fold (W r) (W (- r)). rewrite !W_bulge, gone_half, gone_half'. cbn [rs_v1 windows2 firstn skipn rfold].
  assert (K1 : 2 * eps <= Rabs (k - - k)) by (replace (k - - k) with (2 * k) by ring; rewrite Rabs_left; lra).
  assert (K2 : 2 * eps <= Rabs (- k - k)) by (replace (- k - k) with (2 * - k) by ring; rewrite Rabs_pos_eq; lra).
  rewrite (gone_join k (- k)) by exact K1. cbn [rbind rfold vertex_count vtx length Nat.eqb Nat.ltb Nat.leb andb last].
  unfold close_raw_offset. change (last_ (PL [L k; L (- k)] true)) with (Ret (Some (L (- k)))). cbn [rbind unwrap].
  rewrite (gone_join (- k) k) by exact K2. cbn [rbind]. change (at_ (PL [L (- k); L k] false) 0) with (Ret (L (- k))). cbn [rbind].
  change (set_last (PL [L k; L (- k)] true) (L (- k))) with (Ret (PL [L k; L (- k)] true)). cbn [rbind]. change (extend_vertexes (PL [L k; L (- k)] true) (skipn 1 (vtx (PL [L (- k); L k] false)))) with (PL [L k; L (- k); L k] true).
  cbn [negb]. change (last_ (PL [L (- k); L k] false)) with (Ret (Some (L k))). cbn [rbind unwrap].
  assert (U : update_first_vertex (PL [L k; L (- k); L k] true) (pos (L k)) = Ret (PL [L k; L (- k); L k] true)).
  { unfold update_first_vertex. change (at_ (PL [L k; L (- k); L k] true) 0) with (Ret (L k)). cbn [rbind]. rewrite L_bulge. reflexivity. }
  rewrite U. cbn [rbind]. unfold prune_singularity. cbn [vertex_count vtx length Nat.ltb Nat.leb].
  change (at_ (PL [L k; L (- k); L k] true) 0) with (Ret (L k)). change (last_ (PL [L k; L (- k); L k] true)) with (Ret (Some (L k))). cbn [rbind unwrap]. change (pos (L k)) with (P k). rewrite P_same by exact He.
  change (remove_last (PL [L k; L (- k); L k] true)) with (Ret (L k, PL [L k; L (- k)] true)). cbn [rbind snd vertex_count vtx length Nat.ltb Nat.leb].
  change (at_ (PL [L k; L (- k)] true) 0) with (Ret (L k)). change (at_ (PL [L k; L (- k)] true) 1) with (Ret (L (- k))). cbn [rbind]. change (pos (L k)) with (P k). change (pos (L (- k))) with (P (- k)).
  rewrite P_apart by assumption. cbn [rbind vertex_count vtx length Nat.eqb]. reflexivity.
Qed.

Lemma gone_cuts cuts : oo_handle_self_intersects o = false -> offset_cuts p d o (PL [L k; L (- k)] true) cuts -> cuts = [].
Proof.
  intros HS. unfold offset_cuts. rewrite HS. cbn [p circle is_closed negb andb]. intros (pairs & (PO & _) & ->).
  assert (E : pairs = []).
  { destruct pairs as [|(i, j) t]; [reflexivity|exfalso]. destruct (PO i j (or_introl eq_refl)) as (A & B & (C & D & _) & _). cbn in A, B. apply D. symmetry. change ((j + 1) mod 2 = i)%nat.
    destruct i as [|[|i]], j as [|[|j]]; try reflexivity; lia. }
  subst pairs. unfold self_cuts, local_events. cbn [flat_map app vtx length Nat.ltb Nat.leb is_closed andb].
  destruct (fuzzy_eq _ _); reflexivity.
Qed.

Lemma gone_closest x : (x = r \/ x = - r) -> seg_closest_point (W x) (W (- x)) (P k) eps = P (- r).
Proof.
  intros HX. unfold seg_closest_point. rewrite W_bulge. rewrite half_rc by (destruct HX; lra). replace (Rabs x) with r by (destruct HX as [-> | ->]; rewrite ?Rabs_Ropp, Rabs_pos_eq; lra).
  assert (C : c = P 0) by (unfold P, moved; apply vec2_eq; cbn [vx vy]; ring). rewrite C at 1. rewrite P_apart; [|exact He|rewrite Rminus_0_r, Rabs_left; lra].
  rewrite W_neg. change (pos (W x)) with (P x). change (pos (W (- x))) with (P (- x)). rewrite (within_sweep o He), normal_N by lra.
  unfold v2add, v2scale, P, moved. rnum. apply vec2_eq; cbn [vx vy]; ring.
Qed.

Lemma gone_near : Rabs (k + r) <= Rabs d - oo_offset_dist_eps o.
Proof.
  assert (D : b * d = Rabs d). { assert (0 < b * d) by (unfold k in Hk; lra). rewrite <- (Rabs_pos_eq (b * d)) by lra. rewrite Rabs_mult, b_abs. ring. }
  unfold k in *. rewrite D in *. apply Rabs_le. lra.
Qed.

Lemma gone_unclear : ~ clear_point p d o (P k).
Proof.
  intros CP. specialize (CP (W r) (W (- r))). pose proof gone_near as G. pose proof (Rabs_pos (k + r)) as G0.
  assert (D0 : dist_squared (P (- r)) (P k) = (k + r) * (k + r)).
  { transitivity (dist (P (- r)) (P k) * dist (P (- r)) (P k)); [rewrite dist_sqr; unfold dist_squared, v2dot, v2sub; rnum; cbn [vx vy]; ring|]. rewrite arc_dist. ring. }
  assert (N : P r <> P (- r)).
  { intros E. pose proof (arc_dist r (- r)) as A. rewrite dist_sqr, E in A. rewrite !Rminus_diag_eq, Rmult_0_l, Rplus_0_l in A by reflexivity. assert (0 < r * r) by (apply Rmult_lt_0_compat; exact Hr). lra. }
  assert (Ok : seg_ok (W r) (W (- r))).
  { split; [right; cbn [W vertex_at pbulge]; rewrite b_abs; lra|]. intros _. exact N. }
  assert (IN : inside (seg_fast_approx_bounding_box (W r) (W (- r))) 0 (P (- r))).
  { apply (fast_box (W r) (W (- r)) (P (- r)) Ok). exists 1. split; [lra|]. exact (seg_at_1 (W r) (W (- r)) Ok). }
  assert (X : Rabs (vx (P (- r)) - vx (P k)) <= Rabs (k + r) /\ Rabs (vy (P (- r)) - vy (P k)) <= Rabs (k + r)).
  { assert (E : dist_squared (P (- r)) (P k) = (vx (P (- r)) - vx (P k)) * (vx (P (- r)) - vx (P k)) + (vy (P (- r)) - vy (P k)) * (vy (P (- r)) - vy (P k))) by (unfold dist_squared, v2dot, v2sub; rnum; cbn [vx vy]; ring).
    rewrite D0 in E. pose proof (Rle_0_sqr (vx (P (- r)) - vx (P k))) as Q1. pose proof (Rle_0_sqr (vy (P (- r)) - vy (P k))) as Q2. unfold Rsqr in Q1, Q2. split; apply Rsqr_le_abs_0; unfold Rsqr; lra. }
  destruct X as (X & Y). destruct (Rabs_le_inv' _ _ X) as (X1 & X2). destruct (Rabs_le_inv' _ _ Y) as (Y1 & Y2). destruct IN as ((I1 & I2) & (I3 & I4)).
  assert (OV : aabb_overlaps (seg_fast_approx_bounding_box (W r) (W (- r))) (AABB (vx (P k) - (Rabs d - oo_offset_dist_eps o)) (vy (P k) - (Rabs d - oo_offset_dist_eps o)) (vx (P k) + (Rabs d - oo_offset_dist_eps o)) (vy (P k) + (Rabs d - oo_offset_dist_eps o))) = true).
  { unfold aabb_overlaps. cbn [bmin_x bmin_y bmax_x bmax_y]. rnum. rewrite !(proj2 (rltb_false _ _)) by lra. reflexivity. }
  specialize (CP (or_introl eq_refl) OV). fold eps in CP. rewrite (gone_closest r (or_introl eq_refl)) in CP. rewrite D0 in CP. revert CP. rnum. intros CP. apply rltb_true in CP.
  replace ((k + r) * (k + r)) with (Rabs (k + r) * Rabs (k + r)) in CP by (unfold Rabs; destruct (Rcase_abs (k + r)); ring). nra.
Qed.

Lemma circle_gone mk idx : makes_index mk -> pline_index p idx -> oo_handle_self_intersects o = false -> parallel_offset mk p idx d o = Ret [].
Proof.
  intros MK IDX HS. apply (uncut_none mk p idx d o (PL [L k; L (- k)] true) MK IDX) with (v := L k).
  - cbn. lia.
  - reflexivity.
  - exact raw_gone.
  - cbn. lia.
  - intros cuts. now apply gone_cuts.
  - reflexivity.
  - exact gone_unclear.
Qed.
End Gone.
End Circle.

(** The index may be given or built. *)
Definition offsets_to (mk : list (aabb R) -> sindex R) (p : pline R) (d : R) (o : offset_options R) (l : list (pline R)) : Prop :=
  (forall idx, pline_index p idx -> parallel_offset mk p idx d o = Ret l) /\ parallel_offset_constructed mk p d o = Ret l.

Lemma offsets_to_intro mk p d o l : makes_index mk -> (2 <= vertex_count p)%nat -> (forall idx, pline_index p idx -> parallel_offset mk p idx d o = Ret l) -> offsets_to mk p d o l.
Proof.
  intros MK TP H. split; [exact H|]. unfold parallel_offset_constructed. destruct (Nat.ltb_spec (vertex_count p) 2); [lia|]. unfold create_approx_aabb_index. rewrite create_index_spec. apply H, MK.
Qed.
