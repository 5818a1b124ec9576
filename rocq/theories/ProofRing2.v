(** Circles and the test of distance (C73). *)
From Coq Require Import Reals List Bool Arith Lra Lia Classical.
From Verif Require Import Num RNum Res ModelMath ModelSeg ModelPline ModelView ModelIndex ModelIntersects ModelBoolean ModelOffset ModelShape.
From Verif Require Import Spec SpecGeom SpecIntr SpecBox SpecIndex SpecOffset SpecOffset2 SpecOffsetJoin SpecCircle SpecPolyBool SpecCurve SpecShape SpecRing.
From Verif Require Import ProofR ProofBase ProofFind ProofArc ProofIntr ProofIndex2 ProofCircleOff ProofCircleOff2 ProofOffset3 ProofDisc ProofDisc2 ProofPolyBool ProofCurve2 ProofWinding4 ProofTotal4.
Import ListNotations.
Local Open Scope R_scope.

Section One.
Context (c u : vec2 R) (b r : R).
Hypothesis Hu : unit_vec u.
Hypothesis Hb : b = 1 \/ b = -1.
Hypothesis Hr : 0 < r.
Let W k := vertex_at (moved c u k) b.
Let p := circle c u r b.

Lemma moved_dist k : dist (moved c u k) c = Rabs k.
Proof.
  assert (E : dist (moved c u k) c * dist (moved c u k) c = k * k) by (rewrite dist_sqr; cbn [moved vx vy]; transitivity (k * k * (vx u * vx u + vy u * vy u)); [ring|rewrite Hu; ring]).
  rewrite <- (Rabs_pos_eq (dist (moved c u k) c)) by apply dist_pos. apply Rsqr_eq_abs_0. exact E.
Qed.

Lemma toward x : x <> c -> let q := V2 (r * ((vx x - vx c) / dist x c) + vx c) (r * ((vy x - vy c) / dist x c) + vy c) in dist q c = r /\ dist x q = Rabs (dist x c - r).
Proof.
  intros NE q. assert (DP : 0 < dist x c).
  { destruct (Rle_lt_or_eq_dec 0 (dist x c) (dist_pos x c)) as [L|L]; [exact L|]. exfalso. apply NE. pose proof (dist_sqr x c) as S. rewrite <- L in S.
    pose proof (Rle_0_sqr (vx x - vx c)) as A. pose proof (Rle_0_sqr (vy x - vy c)) as B. unfold Rsqr in A, B.
    apply vec2_eq; apply Rminus_diag_uniq; apply Rsqr_0_uniq; unfold Rsqr; lra. }
  pose proof (dist_sqr x c) as S. split.
  - rewrite <- (Rabs_pos_eq (dist q c)) by apply dist_pos. rewrite <- (Rabs_pos_eq r) by lra. apply Rsqr_eq_abs_0. unfold Rsqr. rewrite dist_sqr. unfold q. cbn [vx vy].
    transitivity (r * r * (((vx x - vx c) * (vx x - vx c) + (vy x - vy c) * (vy x - vy c)) / (dist x c * dist x c))); [field; lra|]. rewrite <- S. field. lra.
  - rewrite <- (Rabs_pos_eq (dist x q)) by apply dist_pos. apply Rsqr_eq_abs_0. unfold Rsqr. rewrite dist_sqr. unfold q. cbn [vx vy].
    transitivity ((dist x c - r) * (dist x c - r) * (((vx x - vx c) * (vx x - vx c) + (vy x - vy c) * (vy x - vy c)) / (dist x c * dist x c))); [field; lra|]. rewrite <- S. field. lra.
Qed.

(** The closest point of a half circle is on the circle. *)
Lemma closest_half k pt eps : k = r \/ k = - r -> 0 < eps -> dist (seg_closest_point (W k) (W (- k)) pt eps) c = r.
Proof.
  intros Hk He. assert (K : k <> 0) by lra. assert (Ak : Rabs k = r) by (destruct Hk as [-> | ->]; rewrite ?Rabs_Ropp; apply Rabs_pos_eq; lra).
  assert (E1 : dist (moved c u k) c = r) by (rewrite moved_dist; exact Ak). assert (E2 : dist (moved c u (- k)) c = r) by (rewrite moved_dist, Rabs_Ropp; exact Ak).
  unfold seg_closest_point. assert (BZ : bulge_is_zero (W k) = false) by exact (W_bulge c u b Hb k).
  rewrite BZ. pose proof (half_rc c u b Hu Hb k K) as E. fold (W k) (W (- k)) in E. assert (E' : seg_arc_radius_and_center (W k) (W (- k)) = (Rabs k, c)) by exact E. rewrite E'. cbv iota.
  change (pos (W k)) with (moved c u k). change (pos (W (- k))) with (moved c u (- k)). rewrite Ak.
  destruct (v2fuzzy_eq_eps pt c eps) eqn:F; [exact E1|].
  destruct (point_within_arc_sweep _ _ _ _ _ _).
  - assert (NE : pt <> c).
    { intros ->. rewrite ProofWinding4.v2fuzzy_refl in F by exact He. discriminate. }
    destruct (toward pt NE) as (T & _). transitivity (dist (V2 (r * ((vx pt - vx c) / dist pt c) + vx c) (r * ((vy pt - vy c) / dist pt c) + vy c)) c); [|exact T]. f_equal.
    unfold v2add, v2scale, v2normalize, v2length, v2dot, v2sub, v2scale. rnum. unfold dist. apply vec2_eq; cbn [vx vy]; unfold Rdiv; ring.
  - destruct (dist_squared _ _ <? dist_squared _ _)%num; assumption.
Qed.

(** Points far from the circle pass the test, points near to it do not. *)
Lemma circle_valid idx offset tol eps pt : pline_index p idx -> 0 < eps -> 0 <= Rabs offset - tol -> Rabs offset - tol < Rabs (dist pt c - r) ->
  point_valid_for_offset p offset idx pt eps tol = Ret true.
Proof.
  intros IX He HD F. unfold point_valid_for_offset. rnum.
  set (D := Rabs offset - tol) in *. set (Q := aabb_grow (point_box pt) D).
  rewrite (rexists_spec _ (fun _ => false)).
  - cbn [rbind]. do 2 f_equal. clear. induction (ix_query idx Q) as [|a l IH]; [reflexivity|exact IH].
  - intros i Hi. apply (pline_index_query p idx _ i IX) in Hi as (v1 & v2 & E & _). destruct (seg_lookup p i v1 v2 E) as [-> ->]. cbn [rbind]. f_equal.
    apply negb_false_iff. apply rltb_true. rewrite dist_sq_eq.
    assert (DC : dist (seg_closest_point v1 v2 pt eps) c = r).
    { apply nth_error_In in E. change (spec_segs (vtx p) (is_closed p)) with [(W r, W (- r)); (W (- r), W r)] in E. destruct E as [E|[E|[]]]; injection E as <- <-.
      - apply closest_half; auto.
      - pose proof (closest_half (- r) pt eps (or_intror eq_refl) He) as G. rewrite Ropp_involutive in G. exact G. }
    set (q := seg_closest_point v1 v2 pt eps) in *. pose proof (ProofJordan2.dist_triangle pt q c) as T1. pose proof (ProofJordan2.dist_triangle q pt c) as T2. rewrite (ProofJordan2.dist_sym pt q) in T1.
    assert (L : D < dist q pt) by (unfold Rabs in F; destruct (Rcase_abs (dist pt c - r)); fold D in F; lra).
    apply Rmult_le_0_lt_compat; assumption.
Qed.

Lemma circle_invalid idx offset tol eps pt : pline_index p idx -> 0 < eps -> Rabs (dist pt c - r) + 3 * eps + 1 / 5000 <= Rabs offset - tol ->
  point_valid_for_offset p offset idx pt eps tol <> Ret true.
Proof.
  intros IX He F E. pose proof (Rabs_pos (dist pt c - r)) as A. set (D := Rabs offset - tol) in *.
  destruct (point_valid_spec p idx offset tol eps pt (disc_ok c u b Hu Hb r Hr) He IX ltac:(fold D; lra)) as (v & EV & G & _). rewrite E in EV. injection EV as <-. specialize (G eq_refl). fold D in G.
  assert (X : exists q, dist q c = r /\ dist pt q = Rabs (dist pt c - r)).
  { destruct (classic (pt = c)) as [-> |NE].
    - exists (moved c u r). split; [rewrite moved_dist; apply Rabs_pos_eq; lra|]. rewrite ProofJordan2.dist_sym, moved_dist. replace (dist c c) with 0; [|unfold dist; rewrite !Rminus_diag_eq by reflexivity; rewrite Rmult_0_l, Rplus_0_l, sqrt_0; reflexivity].
      replace (0 - r) with (- r) by ring. now rewrite Rabs_Ropp.
    - exists (V2 (r * ((vx pt - vx c) / dist pt c) + vx c) (r * ((vy pt - vy c) / dist pt c) + vy c)). exact (toward pt NE). }
  destruct X as (q & Q1 & Q2). destruct (G q) as (L & _); [apply disc_on; auto|]. rewrite Q2 in L. set (x := Rabs (dist pt c - r)) in *.
  assert (M : (x + 3 * eps + 1 / 5000) * (x + 3 * eps + 1 / 5000) <= D * D) by (apply Rmult_le_compat; lra).
  assert (0 <= (x + 3 * eps) * (1 / 5000)) by (apply Rmult_le_pos; lra). lra.
Qed.

Lemma half_mid k : k <> 0 -> dist (seg_midpoint (W k) (W (- k))) c = Rabs k.
Proof.
  intros K. pose proof (seg_midpoint_spec _ _ (disc_seg_ok c u b Hu Hb k K)) as M. apply (half_on c u b Hu Hb k _ K). exists (1 / 2). split; [lra|exact M].
Qed.
End One.

(** Nothing is found where two circles miss each other. *)
Lemma circles_miss c1 u1 b1 r1 c2 u2 b2 r2 eps idx : unit_vec u1 -> b1 = 1 \/ b1 = -1 -> unit_vec u2 -> b2 = 1 \/ b2 = -1 -> 0 < eps ->
  of_size eps r1 -> of_size eps r2 -> r1 + r2 + eps <= dist c1 c2 \/ dist c1 c2 + eps <= Rabs (r1 - r2) -> pline_index (circle c1 u1 r1 b1) idx ->
  find_intersects (circle c1 u1 r1 b1) (circle c2 u2 r2 b2) idx eps = Ret ([], []).
Proof.
  intros U1 B1 U2 B2 He S1 S2 M IX. assert (C : clear_circles eps c1 u1 r1 c2 u2 r2) by (split; [exact S1|split; [exact S2|tauto]]).
  pose proof (r_pos r1 eps He S1) as R1. pose proof (r_pos r2 eps He S2) as R2.
  destruct (loops_found (circle c1 u1 r1 b1) (circle c2 u2 r2 b2) eps He (discs_clear c1 u1 b1 r1 c2 u2 b2 r2 eps U1 B1 U2 B2 He C) _ idx IX eq_refl) as (bs & E & _ & IN).
  destruct bs as [|x bs]; [exact E|]. exfalso. destruct (common_path _ _ _ (proj1 (IN x) (or_introl eq_refl))) as (P1 & P2). apply disc_on in P1; auto. apply disc_on in P2; auto.
  set (q := bi_point x) in *. pose proof (ProofJordan2.dist_triangle c1 q c2) as T1. pose proof (ProofJordan2.dist_triangle q c1 c2) as T2. pose proof (ProofJordan2.dist_triangle q c2 c1) as T3.
  rewrite (ProofJordan2.dist_sym c1 q) in T1. rewrite (ProofJordan2.dist_sym c2 c1) in T3. destruct M as [M|M]; [lra|]. unfold Rabs in M. destruct (Rcase_abs (r1 - r2)); lra.
Qed.
