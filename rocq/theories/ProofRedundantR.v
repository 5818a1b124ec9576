(** An exact drop keeps the drawn points (C38). *)
From Coq Require Import Reals List Bool Lra Lia.
From Verif Require Import Num RNum Res ModelMath ModelSeg ModelPline SpecPline SpecGeom SpecRedundant ProofR ProofArc ProofArc2.
Import ListNotations.
Local Open Scope R_scope.

Lemma on_seg_line v1 v2 q : pbulge v1 = 0 -> on_seg v1 v2 q <-> exists t, 0 <= t <= 1 /\ q = line_pt (pos v1) (pos v2) t.
Proof.
  intros E. unfold on_seg. split; intros (t & B & H); exists t; (split; [exact B|]); now apply (seg_at_line v1 v2 t q E).
Qed.

Lemma straight_exact (p1 p2 p3 : vec2 R) :
  (vx p3 - vx p2) * (vy p2 - vy p1) = (vy p3 - vy p2) * (vx p2 - vx p1) ->
  0 <= (vx p3 - vx p2) * (vx p2 - vx p1) + (vy p3 - vy p2) * (vy p2 - vy p1) ->
  exists l, 0 <= l <= 1 /\ p2 = line_pt p1 p3 l.
Proof.
  intros C D. set (dx := vx p3 - vx p1). set (dy := vy p3 - vy p1).
  set (ex := vx p2 - vx p1). set (ey := vy p2 - vy p1).
  replace (vx p3 - vx p2) with (dx - ex) in * by (unfold dx, ex; ring). replace (vy p3 - vy p2) with (dy - ey) in * by (unfold dy, ey; ring).
  fold ex ey in C, D.
  destruct (Req_dec (dx * dx + dy * dy) 0) as [Z|Z].
  - assert (dx = 0) by nra. assert (dy = 0) by nra. assert (ex = 0) by nra. assert (ey = 0) by nra.
    exists 0. split; [lra|]. apply vec2_eq; unfold line_pt; cbn [vx vy]; unfold ex, ey in *; lra.
  - assert (P : 0 < dx * dx + dy * dy) by nra.
    exists ((ex * dx + ey * dy) / (dx * dx + dy * dy)).
    assert (CR : dx * ey = dy * ex) by lra.
    split.
    + split; [apply Rmult_le_pos; [nra|left; now apply Rinv_0_lt_compat]|].
      apply Rmult_le_reg_r with (dx * dx + dy * dy); [exact P|]. unfold Rdiv. rewrite Rmult_assoc, Rinv_l by exact Z.
      assert (0 <= (dx - ex) * dx + (dy - ey) * dy); [|lra].
      (* (d - e) . d = (d - e) . e + |d - e|^2 *)
      nra.
    + apply vec2_eq; unfold line_pt; cbn [vx vy]; fold dx dy.
      * replace (vx p2) with (vx p1 + ex) by (unfold ex; ring). f_equal.
        apply Rmult_eq_reg_r with (dx * dx + dy * dy); [|exact Z].
        replace ((ex * dx + ey * dy) / (dx * dx + dy * dy) * dx * (dx * dx + dy * dy)) with (ex * dx * dx + dx * ey * dy) by (field; exact Z).
        rewrite CR. ring.
      * replace (vy p2) with (vy p1 + ey) by (unfold ey; ring). f_equal.
        apply Rmult_eq_reg_r with (dx * dx + dy * dy); [|exact Z].
        replace ((ex * dx + ey * dy) / (dx * dx + dy * dy) * dy * (dx * dx + dy * dy)) with (dy * ex * dx + ey * dy * dy) by (field; exact Z).
        rewrite <- CR. ring.
Qed.

(** A path cut at an inner parameter. *)
Lemma split_union (f : R -> vec2 R) l q : 0 <= l <= 1 ->
  (exists t, 0 <= t <= 1 /\ q = f t)
  <-> (exists t, 0 <= t <= 1 /\ q = f (t * l)) \/ (exists t, 0 <= t <= 1 /\ q = f (l + t * (1 - l))).
Proof.
  intros B. split.
  - intros (t & Bt & ->). destruct (Rle_dec t l) as [L|L].
    + left. destruct (Req_dec l 0) as [Z|Z]; [exists 0; split; [lra|f_equal; lra]|].
      exists (t / l). split; [|f_equal; field; exact Z].
      split; [apply Rmult_le_pos; [lra|left; apply Rinv_0_lt_compat; lra]|].
      apply Rmult_le_reg_r with l; [lra|]. unfold Rdiv. rewrite Rmult_assoc, Rinv_l by exact Z. lra.
    + right. assert (1 - l > 0) by lra. exists ((t - l) / (1 - l)). split; [|f_equal; field; lra].
      split; [apply Rmult_le_pos; [lra|left; apply Rinv_0_lt_compat; lra]|].
      apply Rmult_le_reg_r with (1 - l); [lra|]. unfold Rdiv. rewrite Rmult_assoc, Rinv_l by lra. lra.
  - intros [(t & Bt & ->)|(t & Bt & ->)]; eexists; (split; [|reflexivity]); nra.
Qed.

Lemma turn_of_R v : bulge_ok (pbulge v) ->
  (turn_of v = None <-> pbulge v = 0) /\ (turn_of v = Some true <-> 0 < pbulge v) /\ (turn_of v = Some false <-> pbulge v < 0).
Proof.
  intros B. unfold turn_of. rnum.
  assert (E : rltb (Rabs (pbulge v)) (1 / 100000000) = true <-> pbulge v = 0) by apply (bulge_ok_zero v B).
  destruct (rltb (Rabs (pbulge v)) (1 / 100000000)).
  - destruct E as (E & _). specialize (E eq_refl). rewrite E. repeat split; intros; try discriminate; lra.
  - assert (NZ : pbulge v <> 0) by (intros Z; apply E in Z; discriminate).
    destruct (rltb 0 (pbulge v)) eqn:P; [apply rltb_true in P|apply rltb_false in P]; repeat split; intros; try discriminate; try reflexivity; try lra.
Qed.

Lemma sweep_pos b : 0 < b -> 0 < sweep b.
Proof.
  intros H. pose proof (sweep_ltb b) as E. assert (NZ : sweep b <> 0) by (apply sweep_nonzero; lra).
  assert (F : rltb b 0 = false) by (apply rltb_false; lra). rewrite F in E. apply rltb_false in E. lra.
Qed.
Lemma sweep_neg b : b < 0 -> sweep b < 0.
Proof.
  intros H. pose proof (sweep_ltb b) as E. assert (F : rltb b 0 = true) by now apply rltb_true. rewrite F in E. now apply rltb_true in E.
Qed.

Lemma exact_drop_path eps m1 m2 v3 m :
  drops eps m1 m2 v3 m -> seg_ok (mk_v m1) (mk_v m2) -> seg_ok (mk_v m2) v3 -> exact_drop eps m1 m2 v3 ->
  forall q, on_seg (mk_v m) v3 q <-> on_seg (mk_v m1) (mk_v m2) q \/ on_seg (mk_v m2) v3 q.
Proof.
  intros D S1 S2 (T1 & T2 & XR & XS & XA) q. destruct m1 as [v1 k1 c1], m2 as [v2 k2 c2]. cbn [mk_v mk_turn mk_circle] in *. subst k1 k2.
  destruct D as [H|_ L1 L2 H|b _ H]; cbn [mk_v mk_turn mk_circle] in *.
  - specialize (XR H).
    assert (E : forall t x, seg_at v1 v3 t x <-> seg_at v1 v2 t x) by (intros t x; unfold seg_at; rewrite XR; reflexivity).
    assert (Z : pbulge v2 = 0). { destruct (Req_dec (pbulge v2) 0) as [Z|Z]; [exact Z|]. now apply S2 in Z. }
    split.
    + intros (t & B & A). left. exists t. split; [exact B|now apply E].
    + intros [(t & B & A)|A]; [exists t; split; [exact B|now apply E]|].
      apply on_seg_line in A as (t & _ & ->); [|exact Z]. exists 1. split; [lra|]. apply E.
      destruct (seg_at_exists v1 v2 1 S1) as (x & X). replace (line_pt (pos v2) (pos v3) t) with x; [exact X|].
      assert (EX : x = pos v2).
      { destruct X as [(_ & ->)|(_ & c & r & a & (_ & _ & ->) & ->)]; [|f_equal; ring].
        unfold line_pt. apply vec2_eq; cbn [vx vy]; ring. }
      rewrite EX, <- XR. unfold line_pt. apply vec2_eq; cbn [vx vy]; ring.
  - apply (turn_of_R v1 (proj1 S1)) in L1. apply (turn_of_R v2 (proj1 S2)) in L2.
    destruct (XS (proj2 (proj1 (turn_of_R v1 (proj1 S1))) L1) H) as (C & DT).
    destruct (straight_exact (pos v1) (pos v2) (pos v3)) as (l & B & E); [exact C|exact DT|].
    rewrite !on_seg_line by assumption. rewrite (split_union (line_pt (pos v1) (pos v3)) l q B).
    assert (E1 : forall t, line_pt (pos v1) (pos v2) t = line_pt (pos v1) (pos v3) (t * l)).
    { intros t. rewrite E. unfold line_pt. apply vec2_eq; cbn [vx vy]; ring. }
    assert (E2 : forall t, line_pt (pos v2) (pos v3) t = line_pt (pos v1) (pos v3) (l + t * (1 - l))).
    { intros t. rewrite E. unfold line_pt. apply vec2_eq; cbn [vx vy]; ring. }
    split; (intros [(t & Bt & ->)|(t & Bt & ->)]; [left|right]; exists t; (split; [exact Bt|]); rewrite ?E1, ?E2; reflexivity).
  - pose proof (XA _ H) as (X1 & X2 & X3). destruct H as (s & L1 & L2 & H). cbn [mk_v mk_turn] in *.
    assert (N1 : pbulge v1 <> 0). { intros Z. apply (turn_of_R v1 (proj1 S1)) in Z. congruence. }
    assert (N2 : pbulge v2 <> 0). { intros Z. apply (turn_of_R v2 (proj1 S2)) in Z. congruence. }
    pose proof (proj2 S1 N1) as P1. pose proof (proj2 S2 N2) as P2.
    destruct (circle_of (MK v1 (turn_of v1) c1) (MK v2 (turn_of v2) c2)) as [r c]. cbn [snd] in X3.
    rewrite arc_radius_and_center_eq in X1, X2 by assumption. rewrite X1 in X2. pose proof (f_equal fst X2) as R2. pose proof (f_equal snd X2) as C2. pose proof (f_equal fst X1) as R1. pose proof (f_equal snd X1) as C1. cbn [fst snd] in R1, C1, R2, C2. subst r c.
    pose proof (computed_is_arc _ _ _ P1 N1) as A1. pose proof (computed_is_arc _ _ _ P2 N2) as A2.
    rewrite <- R2, <- C2 in A2.
    set (c := centre_of (pos v1) (pos v2) (pbulge v1)) in *. set (r := radius_of (pos v1) (pos v2) (pbulge v1)) in *.
    set (a := angle c (pos v1)) in *. set (a2 := angle c (pos v2)) in *.
    destruct (arc_angle_congr _ _ _ _ _ _ P1 N1 A1) as (RP & _ & G2). fold a2 in G2.
    assert (B1 : Rabs (pbulge v1) <= 1) by (destruct (proj1 S1) as [Z|(_ & Z)]; [contradiction|exact Z]).
    assert (B2 : Rabs (pbulge v2) <= 1) by (destruct (proj1 S2) as [Z|(_ & Z)]; [contradiction|exact Z]).
    assert (A2' : is_arc (pos v2) (pos v3) (pbulge v2) c r (a + sweep (pbulge v1))).
    { destruct A2 as (Q1 & Q2 & Q3). split; [exact Q1|]. split.
      - rewrite Q2. now apply circle_pt_congr.
      - rewrite Q3. apply circle_pt_congr. destruct G2 as (k & G2). exists k. rewrite G2. ring. }
    destruct (computed_sweep _ _ _ _ _ _ P1 N1 B1 A1) as (_ & D1).
    destruct (computed_sweep _ _ _ _ _ _ P2 N2 B2 A2') as (_ & D2).
    rewrite arc_radius_and_center_eq in H by assumption. unfold turns in X3, H. rnum. rewrite D1, D2 in X3, H.
    destruct H as (_ & _ & _ & EB).
    assert (SG : sweep b = sweep (pbulge v1) + sweep (pbulge v2) /\ 0 < sweep (pbulge v1) * sweep (pbulge v2)).
    { destruct s.
      - apply (turn_of_R v1 (proj1 S1)) in L1. apply (turn_of_R v2 (proj1 S2)) in L2.
        apply sweep_pos in L1, L2.
        rewrite (Rabs_pos_eq (sweep (pbulge v1))), (Rabs_pos_eq (sweep (pbulge v2))) in * by lra.
        split; [rewrite EB; apply sweep_tan; lra|now apply Rmult_lt_0_compat].
      - apply (turn_of_R v1 (proj1 S1)) in L1. apply (turn_of_R v2 (proj1 S2)) in L2.
        apply sweep_neg in L1, L2.
        rewrite (Rabs_left (sweep (pbulge v1))), (Rabs_left (sweep (pbulge v2))) in * by lra.
        split; [|nra].
        rewrite EB, <- tan_neg. replace (- ((- sweep (pbulge v1) + - sweep (pbulge v2)) / 4)) with ((sweep (pbulge v1) + sweep (pbulge v2)) / 4) by field.
        apply sweep_tan. lra. }
    destruct SG as (SG & SS).
    assert (NB : b <> 0). { intros ->. assert (Z : sweep 0 = 0) by (unfold sweep; rewrite atan_0; ring). rewrite Z in SG. nra. }
    set (w := Vtx (px v1) (py v1) b).
    assert (AW : is_arc (pos w) (pos v3) (pbulge w) c r a).
    { split; [apply A1|]. split; [apply A1|]. destruct A2' as (_ & _ & ->). unfold w. cbn [pbulge]. rewrite SG. f_equal. ring. }
    set (l := sweep (pbulge v1) / sweep b).
    assert (SBN : sweep b <> 0) by now apply sweep_nonzero.
    assert (LB : 0 <= l <= 1).
    { assert (LL : l * (sweep b * sweep b) = sweep (pbulge v1) * sweep b) by (unfold l; field; exact SBN).
      assert (0 < sweep b * sweep b) by nra. rewrite SG in *. split; nra. }
    pose proof (split_union (fun t => circle_pt c r (a + t * sweep b)) l q LB) as SU.
    assert (K0 : on_seg w v3 q <-> exists t, 0 <= t <= 1 /\ q = circle_pt c r (a + t * sweep b)).
    { unfold on_seg. split; intros (t & Bt & X); exists t; (split; [exact Bt|]); now apply (seg_at_known_arc w v3 c r a t q RP NB AW). }
    assert (K1 : on_seg v1 v2 q <-> exists t, 0 <= t <= 1 /\ q = circle_pt c r (a + t * l * sweep b)).
    { unfold on_seg. split; intros (t & Bt & X); exists t; (split; [exact Bt|]).
      - apply (seg_at_known_arc v1 v2 c r a t q RP N1 A1) in X. rewrite X. f_equal. unfold l. field. exact SBN.
      - apply (seg_at_known_arc v1 v2 c r a t q RP N1 A1). rewrite X. f_equal. unfold l. field. exact SBN. }
    assert (K2 : on_seg v2 v3 q <-> exists t, 0 <= t <= 1 /\ q = circle_pt c r (a + (l + t * (1 - l)) * sweep b)).
    { assert (EQ : forall t, a + (l + t * (1 - l)) * sweep b = a + sweep (pbulge v1) + t * sweep (pbulge v2)).
      { intros t. unfold l. replace (sweep (pbulge v2)) with (sweep b - sweep (pbulge v1)) by lra. field. exact SBN. }
      unfold on_seg. split; intros (t & Bt & X); exists t; (split; [exact Bt|]).
      - apply (seg_at_known_arc v2 v3 c r _ t q RP N2 A2') in X. rewrite X, EQ. reflexivity.
      - apply (seg_at_known_arc v2 v3 c r _ t q RP N2 A2'). rewrite X, EQ. reflexivity. }
    rewrite K0, K1, K2. exact SU.
Qed.

(** The tests find what is exactly redundant. *)
Lemma straight_found eps v1 v2 v3 : 0 < eps ->
  (px v3 - px v2) * (py v2 - py v1) = (py v3 - py v2) * (px v2 - px v1) ->
  0 <= (px v3 - px v2) * (px v2 - px v1) + (py v3 - py v2) * (py v2 - py v1) ->
  straight eps v1 v2 v3 = true.
Proof.
  intros E C D. unfold straight. rnum. apply andb_true_intro. split; apply rltb_true.
  - replace (px v1 * (py v2 - py v3) + px v2 * (py v3 - py v1) + px v3 * (py v1 - py v2)) with 0 by lra. rewrite Rabs_R0. exact E.
  - lra.
Qed.

Lemma arc_found eps v1 v2 v3 c r a s : 0 < eps -> seg_ok v1 v2 -> seg_ok v2 v3 ->
  turn_of v1 = Some s -> turn_of v2 = Some s ->
  is_arc (pos v1) (pos v2) (pbulge v1) c r a -> is_arc (pos v2) (pos v3) (pbulge v2) c r (a + sweep (pbulge v1)) ->
  Rabs (sweep (pbulge v1)) + Rabs (sweep (pbulge v2)) <= PI ->
  exists b, one_arc eps (marked v1) (marked v2) v3 b /\ sweep b = sweep (pbulge v1) + sweep (pbulge v2)
    /\ seg_arc_radius_and_center v1 v2 = (r, c) /\ seg_arc_radius_and_center v2 v3 = (r, c)
    /\ turns c v1 v2 v3 < 2 * PI.
Proof.
  intros E S1 S2 T1 T2 A1 A2 L.
  assert (N1 : pbulge v1 <> 0). { intros Z. apply (turn_of_R v1 (proj1 S1)) in Z. congruence. }
  assert (N2 : pbulge v2 <> 0). { intros Z. apply (turn_of_R v2 (proj1 S2)) in Z. congruence. }
  pose proof (proj2 S1 N1) as P1. pose proof (proj2 S2 N2) as P2.
  assert (B1 : Rabs (pbulge v1) <= 1) by (destruct (proj1 S1) as [Z|(_ & Z)]; [contradiction|exact Z]).
  assert (B2 : Rabs (pbulge v2) <= 1) by (destruct (proj1 S2) as [Z|(_ & Z)]; [contradiction|exact Z]).
  destruct (computed_sweep _ _ _ _ _ _ P1 N1 B1 A1) as (_ & D1). destruct (computed_sweep _ _ _ _ _ _ P2 N2 B2 A2) as (_ & D2).
  assert (Q1 : seg_arc_radius_and_center v1 v2 = (r, c)).
  { rewrite arc_radius_and_center_eq by assumption. destruct (arc_unique _ _ _ _ _ _ N1 A1) as [<- <-]. reflexivity. }
  assert (Q2 : seg_arc_radius_and_center v2 v3 = (r, c)).
  { rewrite arc_radius_and_center_eq by assumption. destruct (arc_unique _ _ _ _ _ _ N2 A2) as [<- <-]. reflexivity. }
  assert (TT : turns c v1 v2 v3 = Rabs (sweep (pbulge v1)) + Rabs (sweep (pbulge v2))) by (unfold turns; rnum; rewrite D1, D2; reflexivity).
  pose proof PI_RGT_0 as PP.
  assert (RP : 0 < r) by (destruct (arc_angle_congr _ _ _ _ _ _ P1 N1 A1) as (RP & _); exact RP).
  exists (if s then tan (turns c v1 v2 v3 / 4) else - tan (turns c v1 v2 v3 / 4)). split; [|split; [|split; [exact Q1|split; [exact Q2|rewrite TT; lra]]]].
  - exists s. split; [exact T1|]. split; [exact T2|]. unfold circle_of. cbn [marked mk_v mk_circle]. rewrite Q1, Q2. rnum.
    replace (r - r) with 0 by ring. replace (vx c - vx c) with 0 by ring. replace (vy c - vy c) with 0 by ring. rewrite Rabs_R0.
    assert (Z : rltb 0 eps = true) by now apply rltb_true. rewrite Z. split; [reflexivity|]. split; [reflexivity|].
    split; [|reflexivity]. apply rltb_true. rewrite TT. replace ((r + r) / 2) with r by field. nra.
  - rewrite TT. destruct s.
    + apply (turn_of_R v1 (proj1 S1)), sweep_pos in T1. apply (turn_of_R v2 (proj1 S2)), sweep_pos in T2.
      rewrite (Rabs_pos_eq (sweep (pbulge v1))), (Rabs_pos_eq (sweep (pbulge v2))) in * by lra. apply sweep_tan. lra.
    + apply (turn_of_R v1 (proj1 S1)), sweep_neg in T1. apply (turn_of_R v2 (proj1 S2)), sweep_neg in T2.
      rewrite (Rabs_left (sweep (pbulge v1))), (Rabs_left (sweep (pbulge v2))) in * by lra. rewrite <- tan_neg.
      replace (- ((- sweep (pbulge v1) + - sweep (pbulge v2)) / 4)) with ((sweep (pbulge v1) + sweep (pbulge v2)) / 4) by field.
      apply sweep_tan. lra.
Qed.
