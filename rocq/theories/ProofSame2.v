(** Segments that are the same, or clearly have no part in common (C75). *)
From Coq Require Import Reals ZArith Bool List Arith Lra Lia Psatz.
From Verif Require Import Num RNum Res ModelMath ModelSeg ModelPline ModelIntr ModelSegIntr.
From Verif Require Import Spec SpecPline SpecGeom SpecBox SpecIntr SpecPolyOff SpecSame.
From Verif Require Import ProofR ProofBase ProofArc ProofArc2 ProofIntr ProofSegIntr2 ProofSegIntr5 ProofSegIntr6 ProofOffsetJoin2 ProofPolyOff ProofPolyOff2 ProofSlice ProofWinding4 ProofSame1.
Import ListNotations.
Local Open Scope R_scope.

Lemma same_sym v1 v2 u1 u2 : same_seg v1 v2 u1 u2 -> same_seg u1 u2 v1 v2.
Proof. intros [(A & B & C)|(A & B & C)]; [left|right]; rewrite A, B, C; repeat split; ring. Qed.

Lemma is_arc_back p1 p2 b c r a : is_arc p1 p2 b c r a -> is_arc p2 p1 (- b) c r (a + sweep b).
Proof.
  intros (H & E1 & E2). split; [exact H|]. split; [exact E2|]. rewrite E1. f_equal. unfold sweep. rewrite atan_opp. ring.
Qed.

Lemma not_fz_R x eps : eps <= Rabs x -> fuzzy_eq_zero_eps x eps = false.
Proof. intros H. unfold fuzzy_eq_zero_eps. rnum. apply rltb_false. exact H. Qed.
Lemma fz_R x eps : Rabs x < eps -> fuzzy_eq_zero_eps x eps = true.
Proof. intros H. unfold fuzzy_eq_zero_eps. rnum. now apply rltb_true. Qed.

Lemma not_point_dist (a b : vec2 R) eps : ~ is_point a b eps -> eps <= dist a b.
Proof.
  intros N. destruct (Rle_dec eps (dist a b)) as [|K]; [assumption|]. exfalso. apply N. apply Rnot_le_lt in K.
  assert (A : Rabs (vx b - vx a) <= dist a b) by (unfold dist; rewrite <- sqrt_Rsqr_abs; apply sqrt_le_1_alt; unfold Rsqr; pose proof (Rle_0_sqr (vy b - vy a)); unfold Rsqr in *; lra).
  assert (B : Rabs (vy b - vy a) <= dist a b) by (unfold dist; rewrite <- sqrt_Rsqr_abs; apply sqrt_le_1_alt; unfold Rsqr; pose proof (Rle_0_sqr (vx b - vx a)); unfold Rsqr in *; lra).
  split; lra.
Qed.

(** *** Lines *)

Lemma line_same_pts (a b c e : vec2 R) eps : 0 < eps -> ~ is_point a b eps -> (c = a /\ e = b) \/ (c = b /\ e = a) ->
  line_line_intr a b c e eps = LLOverlapping 0 1.
Proof.
  intros He N S. pose proof (not_point_dist _ _ _ N) as D.
  assert (NP : v2fuzzy_eq_eps a b eps = false) by (now apply not_point_R).
  assert (NQ : ~ is_point c e eps).
  { intros (X & Y). apply N. destruct S as [(-> & ->)|(-> & ->)]; [split; assumption|]. split; rewrite Rabs_minus_sym; assumption. }
  assert (NP' : v2fuzzy_eq_eps c e eps = false) by (now apply not_point_R).
  assert (LD : v2length (v2sub e c) = dist a b).
  { unfold v2length, v2dot, v2sub, dist. rnum. f_equal. destruct S as [(-> & ->)|(-> & ->)]; ring. }
  assert (Z1 : v2perp_dot (v2sub b a) (v2sub e c) = 0) by (unfold v2perp_dot, v2sub; rnum; destruct S as [(-> & ->)|(-> & ->)]; ring).
  assert (Z2 : v2perp_dot (v2sub b a) (v2sub a c) = 0) by (unfold v2perp_dot, v2sub; rnum; destruct S as [(-> & ->)|(-> & ->)]; ring).
  assert (Z3 : v2perp_dot (v2sub e c) (v2sub a c) = 0) by (unfold v2perp_dot, v2sub; rnum; destruct S as [(-> & ->)|(-> & ->)]; ring).
  assert (FZ : fuzzy_eq_zero_eps 0 eps = true) by (apply fz_R; rewrite Rabs_R0; exact He).
  unfold line_line_intr. cbv zeta. rewrite LD, Z1, Z2, Z3, FZ, NP, NP'. cbn [negb orb andb].
  assert (PR : exists x y, (if fuzzy_eq_zero_eps (vx (v2sub e c)) eps
     then (ndiv (vy (v2sub a c)) (vy (v2sub e c)), ndiv (vy (v2sub b c)) (vy (v2sub e c)))
     else (ndiv (vx (v2sub a c)) (vx (v2sub e c)), ndiv (vx (v2sub b c)) (vx (v2sub e c)))) = (x, y) /\ ((x = 0 /\ y = 1) \/ (x = 1 /\ y = 0))).
  { unfold fuzzy_eq_zero_eps, v2sub. rnum. destruct (rltb_spec (Rabs (vx e - vx c)) eps) as [H|H]; eexists; eexists; (split; [reflexivity|]).
    - assert (H' : eps <= Rabs (vy e - vy c)) by (apply Rnot_lt_le; intros K; apply NQ; split; assumption).
      assert (NZ : vy e - vy c <> 0) by (intros K; rewrite K, Rabs_R0 in H'; lra).
      destruct S as [(-> & ->)|(-> & ->)]; [left|right]; split; field; exact NZ.
    - assert (NZ : vx e - vx c <> 0) by (intros K; rewrite K, Rabs_R0 in H; lra).
      destruct S as [(-> & ->)|(-> & ->)]; [left|right]; split; field; exact NZ. }
  destruct PR as (x & y & -> & XY).
  assert (SW : (if nltb y x then (y, x) else (x, y)) = (0, 1)).
  { destruct XY as [(-> & ->)|(-> & ->)]; rnum; [rewrite (proj2 (rltb_false 1 0)) by lra|rewrite (proj2 (rltb_true 0 1)) by lra]; reflexivity. }
  rewrite SW. unfold fuzzy_lt_eps, fuzzy_gt_eps. rnum.
  rewrite (proj2 (rltb_true (0 * dist a b) (dist a b + eps))) by lra. rewrite (proj2 (rltb_true 0 (1 * dist a b + eps))) by lra. cbn [negb orb].
  rewrite (Rmax_left 0 0), (Rmin_left 1 1) by lra. rewrite not_fz_R; [reflexivity|]. rewrite Rminus_0_r, Rmult_1_l, Rabs_right by lra. exact D.
Qed.

Lemma line_same (v1 v2 u1 u2 : vertex R) eps : 0 < eps -> ~ is_point (pos v1) (pos v2) eps -> pbulge v1 = 0 -> same_seg v1 v2 u1 u2 ->
  pline_seg_intr v1 v2 u1 u2 eps = SIOverlapLines (pos u1) (pos u2).
Proof.
  intros He N Z S. assert (Zu : pbulge u1 = 0) by (destruct S as [(_ & _ & ->)|(_ & _ & ->)]; lra).
  unfold pline_seg_intr. rewrite (is_zero_line _ Z), (is_zero_line _ Zu). cbn [andb].
  rewrite line_same_pts; [|exact He|exact N|destruct S as [(A & B & _)|(A & B & _)]; auto].
  unfold point_from_parametric, v2add, v2scale, v2sub. rnum. f_equal; apply vec2_eq; cbn [vx vy]; ring.
Qed.

(** *** Arcs *)

Lemma within_yes test start s m : Rabs s < 2 * PI -> congr m (test - Rmin start (start + s)) -> 0 <= m <= Rabs s -> test - Rmin start (start + s) <> 2 * PI ->
  angle_is_within_sweep test start s = true.
Proof.
  intros B C M N. unfold angle_is_within_sweep. apply (angle_is_within_sweep_spec test start s _ m (Rmin start (start + s))); auto; [lra|]. rnum. lra.
Qed.
Lemma within_no test start s m : Rabs s < 2 * PI -> congr m (test - Rmin start (start + s)) -> Rabs s + 1 / 100000000 <= m < 2 * PI ->
  angle_is_within_sweep test start s = false.
Proof.
  intros B C M. unfold angle_is_within_sweep. pose proof (Rabs_pos s).
  assert (N : test - Rmin start (start + s) <> 2 * PI).
  { intros K. rewrite K in C. assert (m = 0); [|lra]. apply congr_range_eq; [|lra]. destruct C as (k & C). exists (k + 1)%Z. rewrite plus_IZR. lra. }
  destruct (angle_is_within_sweep_eps test start s nfuzzy_epsilon) eqn:E; [|reflexivity]. exfalso.
  apply (angle_is_within_sweep_spec test start s _ m (Rmin start (start + s))) in E; auto; [|lra]. revert E. rnum. lra.
Qed.

Lemma delta_abs x s : Rabs s <= PI -> Rabs (delta_angle x (x + s)) = Rabs s.
Proof.
  intros B. pose proof PI_pos. destruct (Req_dec s (- PI)) as [-> | N].
  - rewrite (delta_angle_unique x (x + - PI) PI); [now rewrite Rabs_Ropp|exists 1%Z; lra|lra].
  - rewrite (delta_angle_unique x (x + s) s); [reflexivity|exists 0%Z; lra|]. revert B N. unfold Rabs. destruct (Rcase_abs s); intros; lra.
Qed.

Lemma arc_same (v1 v2 u1 u2 : vertex R) eps : 0 < eps -> seg_ok v1 v2 -> seg_ok u1 u2 -> ~ is_point (pos v1) (pos v2) eps -> pbulge v1 <> 0 -> same_seg v1 v2 u1 u2 ->
  pline_seg_intr v1 v2 u1 u2 eps = SIOverlapArcs (pos u1) (pos u2).
Proof.
  intros He Ok Oku N Z S. pose proof PI_pos as HP. pose proof (not_point_dist _ _ _ N) as D.
  assert (Zu : pbulge u1 <> 0) by (destruct S as [(_ & _ & ->)|(_ & _ & ->)]; lra).
  assert (HPv : pos v1 <> pos v2) by (apply Ok, Z). assert (HPu : pos u1 <> pos u2) by (apply Oku, Zu).
  pose proof (radius_and_center_spec v1 v2 HPv Z) as K. destruct (seg_arc_radius_and_center v1 v2) as (r, c) eqn:E1. destruct K as (Hr & (a & A) & _).
  assert (E2 : seg_arc_radius_and_center u1 u2 = (r, c)).
  { rewrite (arc_radius_and_center_eq u1 u2 HPu Zu). destruct S as [(-> & -> & ->)|(-> & -> & ->)].
    - destruct (arc_unique _ _ _ _ _ _ Z A) as (-> & ->). reflexivity.
    - apply is_arc_back in A. destruct (arc_unique _ _ _ _ _ _ (Ropp_neq_0_compat _ Z) A) as (-> & ->). reflexivity. }
  unfold pline_seg_intr. rewrite (bulge_nonzero_is _ _ Ok Z), (bulge_nonzero_is _ _ Oku Zu). cbn [andb].
  unfold arc_arc_intr. rewrite E1, E2.
  assert (DZ : dist c c = 0) by (unfold dist; rewrite !Rminus_eq_0, Rmult_0_l, Rplus_0_l; apply sqrt_0).
  rewrite (proj2 (circle_circle_overlap r c r c eps)) by (rewrite DZ, Rminus_eq_0, Rabs_R0; auto).
  set (th := normalize_radians (angle c (pos v1))). set (s := sweep (pbulge v1)).
  assert (SB : Rabs s <= PI) by (destruct (proj1 Ok) as [B|(_ & B)]; [contradiction|]; apply sweep_bound in B; fold s in B; apply Rabs_le; lra).
  assert (SN : s <> 0) by (now apply sweep_nonzero).
  assert (ST : (if Bool.eqb (bulge_is_neg v1) (bulge_is_neg u1) then (normalize_radians (angle c (pos u1)), angle_from_bulge (pbulge u1))
     else (normalize_radians (angle c (pos u2)), angle_from_bulge (nneg (pbulge u1)))) = (th, s)).
  { unfold bulge_is_neg. rnum. destruct S as [(-> & -> & ->)|(-> & -> & ->)].
    - rewrite eqb_reflx. reflexivity.
    - rewrite Ropp_involutive. destruct (rltb_spec (pbulge v1) 0), (rltb_spec (- pbulge v1) 0); cbn [Bool.eqb]; try lra; reflexivity. }
  unfold arc_arc_overlap. cbv zeta. rewrite ST. change (angle_from_bulge (pbulge v1)) with s. fold th. rnum.
  assert (AR : eps <= Rabs ((r + r) / 2 * delta_angle th (th + s))).
  { rewrite Rabs_mult, delta_abs by exact SB. rewrite (Rabs_right ((r + r) / 2)) by lra. replace ((r + r) / 2) with r by field.
    destruct A as (_ & P1 & P2). rewrite P1, P2 in D. pose proof (chord_le_arc c r a (a + s) s Hr (congr_refl _)). unfold s in *. lra. }
  rewrite (not_fz_R _ _ AR).
  assert (SL : Rabs s < 2 * PI) by lra.
  rewrite (within_yes th th s (Rabs s - (if Rle_dec 0 s then s else 0))).
  - rewrite (within_yes (th + s) th s (if Rle_dec 0 s then s else 0)); [reflexivity|exact SL|..].
    + destruct (Rle_dec 0 s); [rewrite Rmin_left by lra; exists 0%Z; ring_simplify; ring|rewrite Rmin_right by lra; exists 0%Z; ring].
    + destruct (Rle_dec 0 s); [rewrite Rabs_right by lra; lra|rewrite Rabs_left by lra; lra].
    + unfold Rmin. destruct (Rle_dec th (th + s)); revert SB; unfold Rabs; destruct (Rcase_abs s); intros; lra.
  - exact SL.
  - destruct (Rle_dec 0 s); [rewrite Rmin_left, Rabs_right by lra; exists 0%Z; ring|rewrite Rmin_right, Rabs_left by lra; exists 0%Z; ring].
  - destruct (Rle_dec 0 s); [rewrite Rabs_right by lra; lra|rewrite Rabs_left by lra; lra].
  - unfold Rmin. destruct (Rle_dec th (th + s)); revert SB; unfold Rabs; destruct (Rcase_abs s); intros; lra.
Qed.

(** *** Segments without a common part *)

Lemma beside_back1 eps a b c e : beside eps a b c e -> beside eps b a c e.
Proof.
  intros (s & S & H). exists (- s). split; [destruct S as [-> | ->]; [right|left]; ring|]. intros w W. destruct (H w W) as (H1 & H2).
  assert (E : - s * cross (vec b a) (vec b w) = s * cross (vec a b) (vec a w)) by (unfold cross, vec; cbn [vx vy]; ring).
  rewrite E. assert (DS : dist b a = dist a b) by (unfold dist; f_equal; ring). rewrite DS. auto.
Qed.
Lemma beside_back2 eps a b c e : beside eps a b c e -> beside eps a b e c.
Proof. intros (s & S & H). exists s. split; [exact S|]. intros w [W|W]; apply H; auto. Qed.

Lemma span_same v1 v2 u1 u2 c r a s : same_seg v1 v2 u1 u2 -> arc_span v1 v2 c r a s -> arc_span u1 u2 c r a s.
Proof.
  intros S (P & H). split; [exact P|]. destruct S as [(-> & -> & ->)|(-> & -> & ->)]; [exact H|].
  assert (E : sweep (- pbulge v1) = - sweep (pbulge v1)) by (unfold sweep; rewrite atan_opp; ring). rewrite E.
  destruct H as [(Es & A)|(Es & A)]; [right|left].
  - split; [lra|]. rewrite Es. now apply is_arc_back.
  - split; [exact Es|]. apply is_arc_back in A. replace (a + s + sweep (pbulge v1)) with a in A by lra. exact A.
Qed.

Lemma parted_same eps v1 v2 u1 u2 w1 w2 : parted eps v1 v2 u1 u2 -> same_seg u1 u2 w1 w2 -> parted eps v1 v2 w1 w2.
Proof.
  intros (L & A) S. split.
  - intros Zv Zw. assert (Zu : pbulge u1 = 0) by (destruct S as [(_ & _ & E)|(_ & _ & E)]; lra). specialize (L Zv Zu).
    destruct S as [(-> & -> & _)|(-> & -> & _)]; [exact L|]. destruct L as [L|[L|L]]; [left|right; left|right; right].
    + assert (E : cross (vec (pos v1) (pos v2)) (vec (pos u2) (pos u1)) = - cross (vec (pos v1) (pos v2)) (vec (pos u1) (pos u2))) by (unfold cross, vec; cbn [vx vy]; ring).
      rewrite E, Rabs_Ropp. exact L.
    + now apply beside_back2.
    + now apply beside_back1.
  - intros Zv Zw. assert (Zu : pbulge u1 <> 0) by (destruct S as [(_ & _ & E)|(_ & _ & E)]; lra). destruct (A Zv Zu) as [(c1 & r1 & a1 & c2 & r2 & a2 & A1 & A2 & D)|(c & r & a1 & s1 & a2 & s2 & g & h & A1 & A2 & H)]; [left|right].
    + exists c1, r1, a1, c2, r2. destruct S as [(-> & -> & ->)|(-> & -> & ->)]; [exists a2; auto|]. exists (a2 + sweep (pbulge u1)). auto using is_arc_back.
    + exists c, r, a1, s1, a2, s2, g, h. split; [exact A1|]. split; [now apply (span_same u1 u2)|exact H].
Qed.

Lemma span_bulge v1 v2 c r a s : arc_span v1 v2 c r a s -> pbulge v1 <> 0.
Proof.
  intros (P & [(E & _)|(E & _)]) Z; rewrite Z in E; unfold sweep in E; rewrite atan_0 in E; lra.
Qed.

(** The angles of an arc as the code takes them, with the direction [neg]. *)
Lemma span_angles v1 v2 c r a s neg : seg_ok v1 v2 -> arc_span v1 v2 c r a s ->
  0 < r /\ s <= PI /\ dist (pos v1) (pos v2) <= r * s
  /\ exists x, (if Bool.eqb neg (bulge_is_neg v1) then (normalize_radians (angle c (pos v1)), angle_from_bulge (pbulge v1))
     else (normalize_radians (angle c (pos v2)), angle_from_bulge (nneg (pbulge v1)))) = (x, if neg then - s else s)
     /\ congr x (if neg then a + s else a).
Proof.
  intros Ok Sp. pose proof (span_bulge _ _ _ _ _ _ Sp) as Z. pose proof PI_pos. destruct Sp as (P & Sp).
  assert (SB : - PI <= sweep (pbulge v1) <= PI) by (destruct (proj1 Ok) as [B|(_ & B)]; [contradiction|now apply sweep_bound]).
  assert (SS : sweep (- pbulge v1) = - sweep (pbulge v1)) by (unfold sweep; rewrite atan_opp; ring).
  assert (SG : (0 < sweep (pbulge v1) -> 0 < pbulge v1) /\ (sweep (pbulge v1) < 0 -> pbulge v1 < 0)).
  { pose proof (sweep_ltb (pbulge v1)) as E. split; intros K.
    - destruct (rltb_spec (sweep (pbulge v1)) 0) as [|_]; [lra|]. destruct (rltb_spec (pbulge v1) 0) as [|H0]; [discriminate|]. lra.
    - destruct (rltb_spec (sweep (pbulge v1)) 0) as [_|]; [|lra]. destruct (rltb_spec (pbulge v1) 0) as [|H0]; [assumption|discriminate]. }
  assert (HP : pos v1 <> pos v2) by (apply Ok, Z).
  assert (G : exists a', is_arc (pos v1) (pos v2) (pbulge v1) c r a') by (destruct Sp as [(_ & A)|(_ & A)]; eauto).
  destruct G as (a' & A'). destruct (arc_angle_congr _ _ _ _ _ _ HP Z A') as (Hr & _).
  split; [exact Hr|]. split; [destruct Sp as [(E & _)|(E & _)]; lra|]. split.
  { destruct A' as (_ & -> & ->). pose proof (chord_le_arc c r a' (a' + sweep (pbulge v1)) (sweep (pbulge v1)) Hr (congr_refl _)) as K.
    replace (Rabs (sweep (pbulge v1))) with s in K; [exact K|]. destruct Sp as [(E & _)|(E & _)]; [rewrite Rabs_right by lra|rewrite Rabs_left by lra]; exact E. }
  assert (NA : forall y z, congr (angle c y) z -> congr (normalize_radians (angle c y)) z).
  { intros y z Cy. eapply congr_trans; [apply normalize_radians_spec|exact Cy]. }
  unfold angle_from_bulge, bulge_is_neg. rnum. fold (sweep (pbulge v1)) (sweep (- pbulge v1)). rewrite SS.
  destruct Sp as [(E & A)|(E & A)]; destruct (arc_angle_congr _ _ _ _ _ _ HP Z A) as (_ & C1 & C2).
  - assert (B : 0 < pbulge v1) by (apply SG; lra). rewrite (proj2 (rltb_false (pbulge v1) 0)) by lra. rewrite <- E in *. destruct neg; cbn [Bool.eqb]; eexists; (split; [reflexivity|]); auto.
  - assert (B : pbulge v1 < 0) by (apply SG; lra). rewrite (proj2 (rltb_true (pbulge v1) 0)) by lra.
    replace (sweep (pbulge v1)) with (- s) in * by lra. rewrite Ropp_involutive. replace (a + s + - s) with a in C2 by ring.
    destruct neg; cbn [Bool.eqb]; eexists; (split; [reflexivity|]); auto.
Qed.
