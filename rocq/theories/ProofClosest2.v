(** Closest point on a whole polyline (C14). *)
From Coq Require Import Reals ZArith Bool List Arith Lra Lia Psatz.
From Verif Require Import Num RNum Res ModelMath ModelSeg ModelPline Spec SpecGeom SpecIntr SpecBox SpecClosest.
From Verif Require Import ProofR ProofBase ProofIter ProofInvert ProofArc ProofArc2 ProofSlice ProofIntr ProofMeasure ProofBox ProofBox2 ProofClosest.
Import ListNotations.
Local Open Scope R_scope.

Lemma seg_closest v1 v2 pt eps : seg_ok v1 v2 -> 0 < eps ->
  let q := seg_closest_point v1 v2 pt eps in
  (~ grazing v1 v2 pt eps -> on_seg v1 v2 q)
  /\ (forall q', on_seg v1 v2 q' -> not_much_further (dist pt q) (dist pt q') eps)
  /\ (plain v1 v2 pt eps -> forall q', on_seg v1 v2 q' -> dist pt q <= dist pt q').
Proof.
  intros Hok He q. unfold not_much_further. destruct (Req_dec (pbulge v1) 0) as [E|E].
  - assert (EQ : q = line_seg_closest_point (pos v1) (pos v2) pt).
    { unfold q, seg_closest_point. rewrite (proj2 (bulge_ok_zero v1 (proj1 Hok)) E). reflexivity. }
    destruct (closest_line v1 v2 pt E) as (A & B & C). rewrite EQ. split; [intros _; exact A|]. split.
    + intros q' Hq'. specialize (B q' Hq'). pose proof (dist_pos pt q'). nra.
    + intros (P1 & _) q' Hq'. apply C; auto.
  - destruct (closest_arc v1 v2 pt eps Hok E He) as [(A & B & C)|(A & B & C)]; fold q in B, C.
    + split; [intros _; rewrite B; now apply on_seg_ends|]. split.
      * intros q' Hq'. specialize (C q' Hq'). pose proof (dist_pos pt q'). pose proof (dist_pos pt q). nra.
      * intros (_ & P2 & _). contradiction.
    + split; [exact B|]. split.
      * intros q' Hq'. specialize (C q' Hq'). pose proof (dist_pos pt q'). pose proof (dist_pos pt q). nra.
      * intros _. exact C.
Qed.

Lemma at_seg (p : pline R) i (v1 v2 : vertex R) : nth_error (spec_segs (vtx p) (is_closed p)) i = Some (v1, v2) ->
  at_ p i = Ret v1 /\ at_ p ((i + 1) mod vertex_count p) = Ret v2.
Proof.
  intros H. assert (L : (i < length (spec_segs (vtx p) (is_closed p)))%nat) by (apply nth_error_Some; congruence).
  destruct (spec_segs_nth (vtx p) (is_closed p) i L) as (a & b & E & E1 & E2).
  rewrite H in E. injection E as <- <-. split; now apply at_ok.
Qed.

Lemma len2_dist pt q : v2length_squared (v2sub pt q) = dist pt q * dist pt q.
Proof. rewrite dist_sqr. unfold v2length_squared, v2dot, v2sub. rnum. cbn [vx vy]. ring. Qed.

Definition cand (p : pline R) (pt : vec2 R) (eps : R) (j : nat) (q : vec2 R) (d2 : R) : Prop :=
  exists v1 v2, nth_error (spec_segs (vtx p) (is_closed p)) j = Some (v1, v2)
    /\ q = seg_closest_point v1 v2 pt eps /\ d2 = dist pt q * dist pt q.

Lemma closest_loop (p : pline R) pt eps (st0 : nat * vec2 R * R) : forall m,
  (m <= length (spec_segs (vtx p) (is_closed p)))%nat ->
  exists st, rfold (closest_point_step p pt eps) (map (fun i => (i, (i + 1) mod vertex_count p)) (seq 0 m)) st0 = Ret st
    /\ let '(i, q, d2) := st in
       ((st = st0 /\ forall j q' e2, (j < m)%nat -> cand p pt eps j q' e2 -> snd st0 <= e2)
        \/ ((i < m)%nat /\ cand p pt eps i q d2 /\ d2 < snd st0
            /\ (forall j q' e2, (j < m)%nat -> cand p pt eps j q' e2 -> d2 <= e2)
            /\ (forall j q' e2, (j < i)%nat -> cand p pt eps j q' e2 -> d2 < e2))).
Proof.
  induction m as [|m IH]; intros Hm.
  - exists st0. cbn [seq map rfold]. split; [reflexivity|]. destruct st0 as [[i0 q0] d0]. left. split; [reflexivity|]. intros; lia.
  - destruct (IH ltac:(lia)) as (st & E & H). rewrite seq_S, map_app, rfold_app, E. cbn [rbind map rfold].
    cbn [Nat.add]. unfold closest_point_step at 1.
    destruct (nth_error (spec_segs (vtx p) (is_closed p)) m) as [[v1 v2]|] eqn:EN.
    2:{ apply nth_error_None in EN. lia. }
    destruct (at_seg p m v1 v2 EN) as [-> ->]. cbn [rbind]. rewrite len2_dist. rnum.
    destruct st as [[i q] d2]. set (qm := seg_closest_point v1 v2 pt eps) in *.
    assert (CM : forall q' e2, cand p pt eps m q' e2 -> q' = qm /\ e2 = dist pt qm * dist pt qm).
    { intros q' e2 (w1 & w2 & E1 & -> & ->). rewrite EN in E1. injection E1 as <- <-. split; reflexivity. }
    assert (CE : cand p pt eps m qm (dist pt qm * dist pt qm)) by (exists v1, v2; auto).
    destruct (rltb_spec (dist pt qm * dist pt qm) d2) as [L|L]; eexists; (split; [reflexivity|]).
    + right. destruct H as [(Est & H1)|(H1 & H2 & H3 & H4 & H5)].
      * destruct st0 as [[i0 q0] d0]. injection Est as -> -> ->. cbn [snd] in *.
        split; [lia|]. split; [exact CE|]. split; [exact L|]. split.
        -- intros j q' e2 Hj Hc. destruct (Nat.eq_dec j m) as [->|Hn].
           ++ apply CM in Hc as [_ ->]. lra.
           ++ assert (d0 <= e2) by (apply (H1 j q' e2); [lia|exact Hc]). lra.
        -- intros j q' e2 Hj Hc. assert (d0 <= e2) by (apply (H1 j q' e2); [lia|exact Hc]). lra.
      * split; [lia|]. split; [exact CE|]. split; [lra|]. split.
        -- intros j q' e2 Hj Hc. destruct (Nat.eq_dec j m) as [->|Hn].
           ++ apply CM in Hc as [_ ->]. lra.
           ++ assert (d2 <= e2) by (apply (H4 j q' e2); [lia|exact Hc]). lra.
        -- intros j q' e2 Hj Hc. assert (d2 <= e2) by (apply (H4 j q' e2); [lia|exact Hc]). lra.
    + destruct H as [(Est & H1)|(H1 & H2 & H3 & H4 & H5)].
      * left. split; [exact Est|]. intros j q' e2 Hj Hc. destruct (Nat.eq_dec j m) as [->|Hn].
        -- apply CM in Hc as [_ ->]. destruct st0 as [[i0 q0] d0]. injection Est as -> -> ->. cbn [snd]. lra.
        -- apply (H1 j q' e2); [lia|exact Hc].
      * right. split; [lia|]. split; [exact H2|]. split; [exact H3|]. split; [|exact H5].
        intros j q' e2 Hj Hc. destruct (Nat.eq_dec j m) as [->|Hn].
        -- apply CM in Hc as [_ ->]. lra.
        -- apply (H4 j q' e2); [lia|exact Hc].
Qed.

Lemma huge_bound x : 0 <= x -> x < 10 ^ 100 -> x * x + 1 / 50000000 < nmax_value.
Proof.
  intros H0 H. change (@nmax_value R RNum) with (IZR (2 ^ 1024 - 2 ^ 971)).
  assert (E : 10 ^ 100 = IZR (10 ^ 100)) by (rewrite (pow_IZR 10 100); reflexivity).
  rewrite E in H.
  assert (B : IZR (10 ^ 100) * IZR (10 ^ 100) + 1 < IZR (2 ^ 1024 - 2 ^ 971)).
  { rewrite <- mult_IZR, <- plus_IZR. apply IZR_lt. reflexivity. }
  assert (x * x <= IZR (10 ^ 100) * IZR (10 ^ 100)) by (apply Rmult_le_compat; lra). lra.
Qed.

Lemma closest_point_full (p : pline R) pt eps : pline_ok p -> 0 < eps -> (2 <= vertex_count p)%nat ->
  (exists q, on_path p q /\ dist pt q + 3 * eps < 10 ^ 100) ->
  exists i q d v1 v2, closest_point p pt eps = Ret (Some (CPR i q d))
    /\ nth_error (spec_segs (vtx p) (is_closed p)) i = Some (v1, v2)
    /\ d = dist pt q /\ q = seg_closest_point v1 v2 pt eps
    /\ (~ grazing v1 v2 pt eps -> on_seg v1 v2 q)
    /\ (forall q', on_path p q' -> not_much_further d (dist pt q') eps)
    /\ ((forall w1 w2, In (w1, w2) (spec_segs (vtx p) (is_closed p)) -> plain w1 w2 pt eps) ->
        (forall q', on_path p q' -> d <= dist pt q')
        /\ (forall j w1 w2 q', (j < i)%nat -> nth_error (spec_segs (vtx p) (is_closed p)) j = Some (w1, w2) ->
              on_seg w1 w2 q' -> d < dist pt q')).
Proof.
  intros Hok He Hn (qf & Hqf & Hfar). unfold closest_point.
  assert (E0 : is_empty p = false) by (unfold is_empty; destruct (Nat.eqb_spec (vertex_count p) 0); [lia|reflexivity]).
  rewrite E0. destruct (vtx p) as [|v0 vs] eqn:EV; [unfold vertex_count in Hn; rewrite EV in Hn; cbn in Hn; lia|].
  rewrite (at_ok p 0 v0) by (rewrite EV; reflexivity). cbn [rbind].
  destruct (Nat.eqb_spec (vertex_count p) 1) as [?|_]; [lia|].
  rewrite iter_segment_indexes_spec. cbn [rbind]. unfold spec_seg_indexes.
  set (m := if (vertex_count p <? 2)%nat then 0%nat else if is_closed p then vertex_count p else (vertex_count p - 1)%nat).
  assert (Em : m = length (spec_segs (vtx p) (is_closed p))) by (rewrite spec_segs_length; reflexivity).
  destruct (closest_loop p pt eps (0%nat, pos v0, nmax_value) m ltac:(lia)) as (st & E & H). rewrite E. cbn [rbind].
  destruct st as [[i q] d2]. rewrite <- EV.
  assert (CJ : forall j w1 w2, nth_error (spec_segs (vtx p) (is_closed p)) j = Some (w1, w2) ->
               (j < m)%nat /\ cand p pt eps j (seg_closest_point w1 w2 pt eps) (dist pt (seg_closest_point w1 w2 pt eps) * dist pt (seg_closest_point w1 w2 pt eps))).
  { intros j w1 w2 Hj. split; [rewrite Em; apply nth_error_Some; congruence|]. exists w1, w2. auto. }
  destruct H as [(_ & H1)|(H1 & H2 & H3 & H4 & H5)].
  - exfalso. destruct Hqf as (w1 & w2 & Hin & Hon). pose proof (Hok _ _ Hin) as Hs.
    destruct (In_nth_error _ _ Hin) as [j Hj]. destruct (CJ j w1 w2 Hj) as [Lj Hc].
    specialize (H1 j _ _ Lj Hc). cbn [snd] in H1.
    destruct (seg_closest w1 w2 pt eps Hs He) as (_ & B & _). specialize (B qf Hon). unfold not_much_further in B.
    pose proof (dist_pos pt qf). pose proof (huge_bound (dist pt qf + 3 * eps) ltac:(lra) Hfar). lra.
  - destruct H2 as (v1 & v2 & Hi & -> & ->). pose proof (Hok _ _ (nth_error_In _ _ Hi)) as Hs.
    destruct (seg_closest v1 v2 pt eps Hs He) as (A & _ & _).
    set (q := seg_closest_point v1 v2 pt eps) in *.
    exists i, q, (dist pt q), v1, v2. split.
    { do 3 f_equal. rnum. apply sqrt_square. apply dist_pos. }
    split; [exact Hi|]. split; [reflexivity|]. split; [reflexivity|]. split; [exact A|]. split.
    + intros q' (w1 & w2 & Hin & Hon). destruct (In_nth_error _ _ Hin) as [j Hj]. destruct (CJ j w1 w2 Hj) as [Lj Hc].
      specialize (H4 j _ _ Lj Hc). destruct (seg_closest w1 w2 pt eps (Hok _ _ Hin) He) as (_ & B & _).
      specialize (B q' Hon). unfold not_much_further in *. lra.
    + intros HP. split.
      * intros q' (w1 & w2 & Hin & Hon). destruct (In_nth_error _ _ Hin) as [j Hj]. destruct (CJ j w1 w2 Hj) as [Lj Hc].
        specialize (H4 j _ _ Lj Hc). destruct (seg_closest w1 w2 pt eps (Hok _ _ Hin) He) as (_ & _ & B).
        specialize (B (HP _ _ Hin) q' Hon). eapply Rle_trans; [|exact B]. apply dist_le_sqr. exact H4.
      * intros j w1 w2 q' Lij Hj Hon. destruct (CJ j w1 w2 Hj) as [Lj Hc]. pose proof (nth_error_In _ _ Hj) as Hin.
        specialize (H5 j _ _ Lij Hc). destruct (seg_closest w1 w2 pt eps (Hok _ _ Hin) He) as (_ & _ & B).
        specialize (B (HP _ _ Hin) q' Hon). eapply Rlt_le_trans; [|exact B].
        apply Rsqr_incrst_0; [exact H5|apply dist_pos|apply dist_pos].
Qed.

Lemma closest_point_spec (p : pline R) pt eps : pline_ok p -> 0 < eps -> (2 <= vertex_count p)%nat ->
  (exists q, on_path p q /\ dist pt q + 3 * eps < 10 ^ 100) ->
  exists i q d v1 v2, closest_point p pt eps = Ret (Some (CPR i q d))
    /\ nth_error (spec_segs (vtx p) (is_closed p)) i = Some (v1, v2)
    /\ d = dist pt q
    /\ (~ grazing v1 v2 pt eps -> on_seg v1 v2 q)
    /\ (forall q', on_path p q' -> not_much_further d (dist pt q') eps)
    /\ ((forall w1 w2, In (w1, w2) (spec_segs (vtx p) (is_closed p)) -> plain w1 w2 pt eps) ->
        (forall q', on_path p q' -> d <= dist pt q')
        /\ (forall j w1 w2 q', (j < i)%nat -> nth_error (spec_segs (vtx p) (is_closed p)) j = Some (w1, w2) ->
              on_seg w1 w2 q' -> d < dist pt q')).
Proof.
  intros A B C D. destruct (closest_point_full p pt eps A B C D) as (i & q & d & v1 & v2 & E & Hi & Ed & _ & H).
  exists i, q, d, v1, v2. auto.
Qed.

Lemma closest_point_small (p : pline R) pt eps :
  (vtx p = [] -> closest_point p pt eps = Ret None)
  /\ (forall v, vtx p = [v] -> closest_point p pt eps = Ret (Some (CPR 0 (pos v) (dist pt (pos v)))))
  /\ (closest_point p pt eps = Ret None -> vtx p = []).
Proof.
  split; [|split].
  - intros E. unfold closest_point, is_empty, vertex_count. rewrite E. reflexivity.
  - intros v E. unfold closest_point, is_empty, vertex_count. rewrite E. cbn [length Nat.eqb].
    rewrite (at_ok p 0 v) by (rewrite E; reflexivity). cbn [rbind]. rewrite dist_v2length. reflexivity.
  - intros H. destruct (vtx p) as [|v t] eqn:E; [reflexivity|exfalso].
    unfold closest_point, is_empty, vertex_count in H. rewrite E in H. cbn [length Nat.eqb] in H.
    rewrite (at_ok p 0 v) in H by (rewrite E; reflexivity). cbn [rbind] in H.
    destruct t as [|w t]; [discriminate|]. cbn [length Nat.eqb] in H.
    rewrite iter_segment_indexes_spec in H. cbn [rbind] in H.
    destruct (rfold _ _ _) as [[[i q] d]|]; discriminate.
Qed.

(** ** Examples *)
(** A small arc seen from the far side of its circle: the code answers with the near side of the
    circle, where the arc is not. *)
Definition ex_y : R := 1 / 4000.
Definition ex_x : R := 6399 / 640000.
Definition ex_a1 : vertex R := Vtx ex_x (- ex_y) (1 / 80).
Definition ex_a2 : vertex R := Vtx ex_x ex_y 0.

Lemma ex_arc_ok : seg_ok ex_a1 ex_a2.
Proof.
  split; cbn [ex_a1 pbulge].
  - right. rewrite Rabs_pos_eq by lra. lra.
  - intros _ E. apply (f_equal vy) in E. cbn in E. unfold ex_y in E. lra.
Qed.

Lemma ex_arc_far q : on_seg ex_a1 ex_a2 q -> 19 / 1000 <= dist (V2 (- ex_x) 0) q.
Proof.
  intros Hq. assert (Hb : pbulge ex_a1 <> 0) by (cbn; lra).
  destruct (arc_in_rectangle ex_a1 ex_a2 q ex_arc_ok Hb Hq) as (u & s & Hu & Hs & EX & _).
  cbn [ex_a1 ex_a2 px py pbulge] in EX.
  assert (X : ex_x <= vx q) by (rewrite EX; unfold ex_x, ex_y; lra).
  unfold dist. cbn [vx vy]. rewrite <- (sqrt_square (19 / 1000)) by lra. apply sqrt_le_1_alt.
  pose proof (Rle_0_sqr (0 - vy q)) as S. unfold Rsqr in S. unfold ex_x in *. nra.
Qed.

Lemma ex_arc_centre : centre_of (pos ex_a1) (pos ex_a2) (pbulge ex_a1) = V2 0 0.
Proof. unfold centre_of, pos, ex_a1, ex_a2, ex_x, ex_y. cbn [vx vy px py pbulge]. apply vec2_eq; cbn [vx vy]; field. Qed.

Lemma ex_arc_radius : radius_of (pos ex_a1) (pos ex_a2) (pbulge ex_a1) = 6401 / 640000.
Proof.
  unfold radius_of, chord2, pos, ex_a1, ex_a2, ex_x, ex_y. cbn [vx vy px py pbulge].
  rewrite (sqrt_of_sqr (1 / 2000)) by lra. rewrite (Rabs_pos_eq (1 / 80)) by lra. field.
Qed.

Lemma ex_arc_closest : seg_closest_point ex_a1 ex_a2 (V2 (- ex_x) 0) (1 / 100000) = V2 (- (6401 / 640000)) 0.
Proof.
  unfold seg_closest_point. destruct (bulge_is_zero ex_a1) eqn:Z.
  { apply bulge_ok_zero in Z; [cbn in Z; lra|apply ex_arc_ok]. }
  rewrite arc_radius_and_center_eq, ex_arc_centre, ex_arc_radius.
  2:{ apply ex_arc_ok. cbn. lra. } 2:{ cbn. lra. }
  destruct (v2fuzzy_eq_eps (V2 (- ex_x) 0) (V2 0 0) (1 / 100000)) eqn:F.
  { apply v2fuzzy_R in F as [F _]. cbn [vx vy] in F. unfold ex_x in F. revert F. unfold Rabs. destruct (Rcase_abs _); lra. }
  assert (PW : point_within_arc_sweep (V2 0 0) (pos ex_a1) (pos ex_a2) (bulge_is_neg ex_a1) (V2 (- ex_x) 0) (1 / 100000) = true).
  { assert (EN : bulge_is_neg ex_a1 = rltb (1 / 80) 0) by reflexivity. rewrite EN.
    destruct (rltb_spec (1 / 80) 0) as [?|_]; [lra|].
    unfold point_within_arc_sweep, is_left_or_coincident_eps, is_right_or_coincident_eps, perp_dot_test_value, pos, ex_a1, ex_a2. rnum. cbn [vx vy px py].
    rewrite andb_true_iff, !rltb_true. unfold ex_x, ex_y. lra. }
  rewrite PW. unfold v2add, v2scale, v2normalize, v2length, v2dot, v2sub, v2scale. rnum. cbn [vx vy].
  rewrite (sqrt_of_sqr ex_x) by (unfold ex_x; lra). unfold ex_x. apply vec2_eq; cbn [vx vy]; field.
Qed.

Lemma closest_opposite : exists p pt q d i, pline_ok p
  /\ (forall q', on_path p q' -> 19 / 1000 <= dist pt q')
  /\ closest_point p pt (1 / 100000) = Ret (Some (CPR i q d)) /\ d <= 1 / 100000 /\ ~ on_path p q.
Proof.
  set (p := PL [ex_a1; ex_a2] false).
  assert (Hok : pline_ok p). { intros v1 v2 [H|[]]. injection H as <- <-. apply ex_arc_ok. }
  assert (Hfar : forall q', on_path p q' -> 19 / 1000 <= dist (V2 (- ex_x) 0) q').
  { intros q' (v1 & v2 & [H|[]] & Hon). injection H as <- <-. now apply ex_arc_far. }
  assert (Hon : on_path p (pos ex_a1)).
  { exists ex_a1, ex_a2. split; [now left|]. apply on_seg_ends. apply ex_arc_ok. }
  destruct (closest_point_full p (V2 (- ex_x) 0) (1 / 100000) Hok ltac:(lra) ltac:(cbn; lia)) as (i & q & d & v1 & v2 & E & Hi & Ed & Eq & _).
  { exists (pos ex_a1). split; [exact Hon|].
    assert (dist (V2 (- ex_x) 0) (pos ex_a1) <= 1).
    { unfold dist, pos, ex_a1. cbn [vx vy px py]. rewrite <- sqrt_1. apply sqrt_le_1_alt. unfold ex_x, ex_y. lra. }
    assert (10 <= 10 ^ 100). { replace 10 with (10 ^ 1) at 1 by ring. apply Rle_pow; [lra|lia]. } lra. }
  exists p, (V2 (- ex_x) 0), q, d, i. split; [exact Hok|]. split; [exact Hfar|]. split; [exact E|].
  assert (EQ : q = V2 (- (6401 / 640000)) 0).
  { destruct i as [|[|i]]; cbn in Hi; try discriminate. injection Hi as <- <-. rewrite Eq. apply ex_arc_closest. }
  split.
  - rewrite Ed, EQ. unfold dist. cbn [vx vy]. rewrite (sqrt_of_sqr (6401 / 640000 - ex_x)); unfold ex_x; lra.
  - intros Hq. specialize (Hfar q Hq). rewrite <- Ed in Hfar.
    assert (d <= 1 / 100000); [|lra]. rewrite Ed, EQ. unfold dist. cbn [vx vy]. rewrite (sqrt_of_sqr (6401 / 640000 - ex_x)); unfold ex_x; lra.
Qed.

(** A point outside the unit circle: the hypotheses hold and the nearest point is on the first arc. *)
Lemma ex_circle_plain : forall w1 w2, In (w1, w2) (spec_segs (vtx ex_circle) (is_closed ex_circle)) -> plain w1 w2 (V2 0 (-2)) (1 / 100000).
Proof.
  intros w1 w2 H.
  assert (K : pbulge w1 = 1 /\ ((pos w1 = V2 (-1) 0 /\ pos w2 = V2 1 0) \/ (pos w1 = V2 1 0 /\ pos w2 = V2 (-1) 0))).
  { cbn in H. destruct H as [H|[H|[]]]; injection H as <- <-; cbn; auto. }
  destruct K as (Hb & Hp).
  assert (HC : forall c r a, is_arc (pos w1) (pos w2) (pbulge w1) c r a -> c = V2 0 0).
  { intros c r a HA. rewrite Hb in HA. destruct (arc_unique _ _ _ _ _ _ R1_neq_R0 HA) as [-> _].
    unfold centre_of. destruct Hp as [[-> ->]|[-> ->]]; cbn [vx vy]; apply vec2_eq; cbn [vx vy]; field. }
  split; [intros E; lra|]. split.
  - intros (_ & c & r & a & HA & [_ I]). rewrite (HC _ _ _ HA) in I. cbn [vx vy] in I. revert I. unfold Rabs. destruct (Rcase_abs _); lra.
  - intros (_ & c & r & a & HA & _ & I). rewrite (HC _ _ _ HA) in I. unfold cross, vec in I.
    destruct Hp as [[E1 E2]|[E1 E2]]; rewrite E1, E2 in I; cbn [vx vy] in I; revert I; unfold Rabs;
    repeat destruct (Rcase_abs _); lra.
Qed.

Lemma ex_circle_closest : exists q, closest_point ex_circle (V2 0 (-2)) (1 / 100000) = Ret (Some (CPR 0%nat q (dist (V2 0 (-2)) q)))
  /\ dist (V2 0 (-2)) q <= 1.
Proof.
  assert (B : on_path ex_circle (V2 0 (-1))).
  { exists (Vtx (-1) 0 1), (Vtx 1 0 1). split; [cbn; auto|].
    exists (1 / 2). split; [lra|]. right. cbn [pbulge]. split; [lra|].
    exists (V2 0 0), 1, PI. unfold is_arc, circle_pt, pos. cbn [vx vy px py]. rewrite atan_1_val.
    replace (PI + PI) with (2 * PI) by ring. replace (PI + 1 / 2 * PI) with (3 * (PI / 2)) by field.
    rewrite cos_2PI, sin_2PI, cos_PI, sin_PI, cos_3PI2, sin_3PI2.
    repeat split; try lra; apply vec2_eq; cbn [vx vy]; ring. }
  assert (D1 : dist (V2 0 (-2)) (V2 0 (-1)) = 1) by (apply dist_eq_sqr; cbn [vx vy]; lra).
  destruct (closest_point_spec ex_circle (V2 0 (-2)) (1 / 100000) ex_circle_ok ltac:(lra) ltac:(cbn; lia)) as (i & q & d & v1 & v2 & E & Hi & Ed & Hon & _ & HP).
  { exists (V2 0 (-1)). split; [exact B|]. rewrite D1.
    assert (10 <= 10 ^ 100). { replace 10 with (10 ^ 1) at 1 by ring. apply Rle_pow; [lra|lia]. } lra. }
  destruct (HP ex_circle_plain) as [H1 H2].
  assert (Hd : d <= 1) by (rewrite <- D1; now apply H1).
  exists q. rewrite <- Ed. split; [|exact Hd].
  rewrite E. destruct i as [|i]; [reflexivity|exfalso].
  (* the second arc is in the upper half plane *)
  assert (S0 : nth_error (spec_segs (vtx ex_circle) (is_closed ex_circle)) 0 = Some (Vtx (-1) 0 1, Vtx 1 0 1)) by reflexivity.
  destruct i as [|i]; [|cbn in Hi; destruct i; discriminate].
  cbn in Hi. injection Hi as <- <-.
  assert (G : ~ grazing (Vtx 1 0 1) (Vtx (-1) 0 1) (V2 0 (-2)) (1 / 100000)).
  { apply ex_circle_plain. cbn. auto. }
  specialize (Hon G).
  destruct (arc_in_rectangle (Vtx 1 0 1) (Vtx (-1) 0 1) q) as (u & s & Hu & Hs & EX & EY); [|cbn; lra|exact Hon|].
  { apply ex_circle_ok. cbn. auto. }
  cbn [px py pbulge] in EX, EY.
  assert (Y : 0 <= vy q) by (rewrite EY; lra).
  assert (2 <= d). { rewrite Ed. unfold dist. cbn [vx vy]. rewrite <- (sqrt_square 2) by lra. apply sqrt_le_1_alt.
    pose proof (Rle_0_sqr (0 - vx q)) as S. unfold Rsqr in S. nra. }
  lra.
Qed.
