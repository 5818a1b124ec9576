(** Raw offset segments (C33). *)
From Coq Require Import Reals ZArith Bool List Arith Lra Lia Psatz.
From Verif Require Import Num RNum Res ModelMath ModelIntr ModelSeg ModelPline ModelView ModelSegIntr ModelIndex ModelIntersects ModelBoolean ModelOffset.
From Verif Require Import Spec SpecGeom SpecIntr SpecOffset.
From Verif Require Import ProofR ProofBase ProofIter ProofArc ProofArc2 ProofSlice ProofIntr ProofMeasure.
Import ListNotations.
Local Open Scope R_scope.

Lemma left_normal_val p q n : p <> q -> left_normal p q n ->
  n = V2 (- (vy q - vy p) / dist p q) ((vx q - vx p) / dist p q).
Proof.
  intros Hp (H1 & H2 & H3). unfold cross, vec in *. cbn [vx vy] in *.
  set (dx := vx q - vx p) in *. set (dy := vy q - vy p) in *.
  assert (D : dist p q = sqrt (dx * dx + dy * dy)).
  { unfold dist. f_equal. unfold dx, dy. ring. }
  assert (P : 0 < dx * dx + dy * dy).
  { destruct (Req_dec dx 0) as [E1|E1]; [destruct (Req_dec dy 0) as [E2|E2]|].
    - exfalso. apply Hp. destruct p as [x0 y0], q as [x1 y1]. unfold dx, dy in *. cbn [vx vy] in *. f_equal; lra.
    - nra.
    - nra. }
  assert (S : sqrt (dx * dx + dy * dy) * sqrt (dx * dx + dy * dy) = dx * dx + dy * dy) by (apply sqrt_sqrt; lra).
  pose proof (sqrt_lt_R0 _ P) as SP. rewrite D. set (L := sqrt (dx * dx + dy * dy)) in *.
  assert (C : dx * vy n - dy * vx n = L).
  { assert ((dx * vy n - dy * vx n) * (dx * vy n - dy * vx n) = L * L).
    { rewrite S. replace ((dx * vy n - dy * vx n) * (dx * vy n - dy * vx n))
        with ((dx * dx + dy * dy) * (vx n * vx n + vy n * vy n) - (dx * vx n + dy * vy n) * (dx * vx n + dy * vy n)) by ring.
      rewrite H1, H2. ring. }
    nra. }
  destruct n as [nx ny]. cbn [vx vy] in *. f_equal.
  - apply Rmult_eq_reg_r with (L * L); [|nra]. replace (- dy / L * (L * L)) with (- dy * L) by (field; lra).
    rewrite S, <- C. transitivity (dx * (dx * nx + dy * ny) - dy * (dx * ny - dy * nx)); [ring|rewrite H2; ring].
  - apply Rmult_eq_reg_r with (L * L); [|nra]. replace (dx / L * (L * L)) with (dx * L) by (field; lra).
    rewrite S, <- C. transitivity (dy * (dx * nx + dy * ny) + dx * (dx * ny - dy * nx)); [ring|rewrite H2; ring].
Qed.

Lemma raw_line_ok offset v1 v2 : pos v1 <> pos v2 ->
  let s := raw_line_seg offset v1 v2 in
  line_moved offset v1 v2 (rs_v1 s) (rs_v2 s) /\ rs_orig_v2_pos s = pos v2 /\ rs_collapsed_arc s = false.
Proof.
  intros Hp. cbv zeta. split; [|split; reflexivity]. split; [reflexivity|].
  intros n Hn. rewrite (left_normal_val _ _ _ Hp Hn).
  unfold raw_line_seg, from_vector2, v2unit_perp, v2normalize, v2scale, v2perp, v2length, v2dot, v2sub, v2add, moved, dist.
  cbn [rs_v1 rs_v2]. unfold pos. rnum. cbn [px py vx vy].
  destruct v1 as [x1 y1 b1], v2 as [x2 y2 b2]. cbn [px py vx vy].
  replace (- (y2 - y1) * - (y2 - y1) + (x2 - x1) * (x2 - x1)) with ((x1 - x2) * (x1 - x2) + (y1 - y2) * (y1 - y2)) by ring.
  split; f_equal; unfold Rdiv; ring.
Qed.

Lemma circle_norm c r a : 0 < r -> v2normalize (v2sub (circle_pt c r a) c) = V2 (cos a) (sin a).
Proof.
  intros Hr. unfold v2normalize, v2scale, v2length, v2dot, v2sub, circle_pt. rnum.
  replace ((vx c + r * cos a - vx c) * (vx c + r * cos a - vx c) + (vy c + r * sin a - vy c) * (vy c + r * sin a - vy c))
    with (r * r).
  - rewrite sqrt_square by lra. f_equal; field; lra.
  - pose proof (sin2_cos2 a) as S. unfold Rsqr in S.
    transitivity (r * r * (sin a * sin a + cos a * cos a)); [rewrite S; ring|ring].
Qed.

Lemma raw_arc_ok offset v1 v2 : seg_ok v1 v2 -> pbulge v1 <> 0 ->
  let s := raw_arc_seg offset v1 v2 in
  ends_moved offset v1 v2 (rs_v1 s) (rs_v2 s) /\ rs_orig_v2_pos s = pos v2
  /\ (rs_collapsed_arc s = true <-> collapses offset v1 v2)
  /\ (rs_collapsed_arc s = true -> pbulge (rs_v1 s) = 0)
  /\ (rs_collapsed_arc s = false -> arc_moved offset v1 v2 (rs_v1 s) (rs_v2 s)).
Proof.
  intros Hok Hb. pose proof (proj2 Hok Hb) as Hp.
  pose proof (computed_is_arc (pos v1) (pos v2) (pbulge v1) Hp Hb) as HA.
  pose proof (radius_pos (pos v1) (pos v2) (pbulge v1) Hp Hb) as Hr.
  cbv zeta. unfold raw_arc_seg. rewrite (arc_radius_and_center_eq v1 v2 Hp Hb). cbv beta iota zeta.
  set (offs := if bulge_is_neg v1 then offset else - offset).
  assert (EO : forall r, r + offs = moved_radius offset (pbulge v1) r).
  { intros r. unfold offs, moved_radius. change (bulge_is_neg v1) with (rltb (pbulge v1) 0).
    destruct (rltb_spec (pbulge v1) 0) as [L|L]; destruct (Rlt_dec 0 (pbulge v1)); lra. }
  assert (EU : forall c r a, is_arc (pos v1) (pos v2) (pbulge v1) c r a ->
     c = centre_of (pos v1) (pos v2) (pbulge v1) /\ r = radius_of (pos v1) (pos v2) (pbulge v1)).
  { intros c r a H. apply (arc_unique _ _ _ _ _ a Hb H). }
  set (c0 := centre_of (pos v1) (pos v2) (pbulge v1)) in *. set (r0 := radius_of (pos v1) (pos v2) (pbulge v1)) in *.
  assert (ENDS : forall b1, ends_moved offset v1 v2
     (from_vector2 (v2add (v2scale (v2normalize (v2sub (pos v1) c0)) offs) (pos v1)) b1)
     (from_vector2 (v2add (v2scale (v2normalize (v2sub (pos v2) c0)) offs) (pos v2)) (pbulge v2))).
  { intros b1 c r a H. destruct (EU c r a H) as [-> ->]. destruct H as (_ & E1 & E2).
    rewrite E1, E2. rewrite !circle_norm by exact Hr. rewrite <- EO.
    unfold from_vector2, v2add, v2scale, circle_pt, pos. rnum. cbn [px py vx vy]. split; f_equal; ring. }
  assert (CL : collapses offset v1 v2 <-> moved_radius offset (pbulge v1) r0 < 1 / 100000000).
  { split.
    - intros H. eapply H; exact HA.
    - intros H c r a K. destruct (EU c r a K) as [-> ->]. exact H. }
  unfold fuzzy_lt, fuzzy_lt_eps. rnum. rewrite EO.
  destruct (rltb_spec (moved_radius offset (pbulge v1) r0) (0 + 1 / 100000000)) as [L|L];
    cbn [rs_v1 rs_v2 rs_orig_v2_pos rs_collapsed_arc].
  - split; [apply ENDS|]. split; [reflexivity|]. split; [|split].
    + rewrite CL. split; [lra|reflexivity].
    + intros _. reflexivity.
    + discriminate.
  - split; [apply ENDS|]. split; [reflexivity|]. split; [|split].
    + rewrite CL. split; [discriminate|lra].
    + discriminate.
    + intros _. set (w1 := from_vector2 _ _). set (w2 := from_vector2 _ (pbulge v2)).
      assert (EB : pbulge w1 = pbulge v1) by reflexivity.
      assert (AR : forall c r a, is_arc (pos v1) (pos v2) (pbulge v1) c r a ->
        is_arc (pos w1) (pos w2) (pbulge w1) c (moved_radius offset (pbulge v1) r) a).
      { intros c r a H. destruct (ENDS (pbulge v1) c r a H) as [E1 E2]. destruct (EU c r a H) as [-> ->].
        split; [lra|]. rewrite EB. split; [exact E1|exact E2]. }
      split; [exact EB|]. split; [exact AR|].
      intros t q q' Hq Hq'. destruct Hq as [[Z _]|[_ (c & r & a & H & ->)]]; [contradiction|].
      destruct Hq' as [[Z _]|[_ (c' & r' & a' & H' & ->)]]; [rewrite EB in Z; contradiction|].
      pose proof (AR _ _ _ H) as H2. rewrite EB in *.
      assert (R' : 0 < moved_radius offset (pbulge v1) r) by (destruct (EU _ _ _ H) as [_ ->]; lra).
      assert (W : pos w1 <> pos w2) by (eapply arc_pts_distinct; eauto).
      assert (Hw : seg_ok w1 w2) by (split; [rewrite EB; apply Hok|intros _; exact W]).
      assert (E : circle_pt c' r' (a' + t * sweep (pbulge v1)) = circle_pt c (moved_radius offset (pbulge v1) r) (a + t * sweep (pbulge v1))).
      { apply (seg_at_unique w1 w2 t); [| |exact Hw]; right; rewrite EB; (split; [exact Hb|]).
        - exists c', r', a'. split; [exact H'|reflexivity].
        - exists c, (moved_radius offset (pbulge v1) r), a. split; [exact H2|reflexivity]. }
      rewrite E. set (m := moved_radius offset (pbulge v1) r) in *. set (x := a + t * sweep (pbulge v1)).
      unfold dist, circle_pt. cbn [vx vy]. apply sqrt_of_sqr; [apply Rabs_pos|].
      pose proof (sin2_cos2 x) as S. unfold Rsqr in S.
      transitivity ((r - m) * (r - m) * (sin x * sin x + cos x * cos x)); [ring|]. rewrite S.
      assert (M : r - m = offset \/ r - m = - offset) by (unfold m, moved_radius; destruct (Rlt_dec 0 (pbulge v1)); [left|right]; ring).
      assert (A2 : Rabs offset * Rabs offset = offset * offset) by (rewrite <- Rabs_mult; apply Rabs_pos_eq; nra).
      rewrite A2. destruct M as [-> | ->]; ring.
Qed.

Lemma raw_segs_ok (p : pline R) offset : pline_ok p ->
  (forall v1 v2, In (v1, v2) (spec_segs (vtx p) (is_closed p)) -> pos v1 <> pos v2) ->
  exists l, create_untrimmed_raw_offset_segs p offset = Ret l
    /\ Forall2 (raw_ok offset) (spec_segs (vtx p) (is_closed p)) l.
Proof.
  intros Hok Hd. unfold create_untrimmed_raw_offset_segs. rewrite iter_segments_spec. cbn [rbind].
  eexists. split; [reflexivity|]. unfold pline_ok in Hok. revert Hok Hd. generalize (spec_segs (vtx p) (is_closed p)) as segs.
  induction segs as [|[v1 v2] t IH]; intros Hok Hd; cbn [map]; constructor.
  - cbn [fst snd]. pose proof (Hok v1 v2 (or_introl eq_refl)) as H. pose proof (Hd v1 v2 (or_introl eq_refl)) as D.
    destruct (bulge_is_zero v1) eqn:Z.
    + apply (bulge_ok_zero v1 (proj1 H)) in Z. destruct (raw_line_ok offset v1 v2 D) as (A & B & C).
      split; [exact B|]. split; [intros _; split; assumption|]. intros N. cbn [fst] in N. contradiction.
    + assert (N : pbulge v1 <> 0) by (intros E; apply (bulge_ok_zero v1 (proj1 H)) in E; congruence).
      destruct (raw_arc_ok offset v1 v2 H N) as (A & B & C). split; [exact B|]. split; [intros E; cbn [fst] in E; contradiction|].
      intros _. split; [exact A|exact C].
  - apply IH; intros; [apply Hok|apply Hd]; now right.
Qed.

(** The arc joining two ends about the original vertex. *)
Lemma corner_ok c r a th (ccw : bool) : 0 < r -> - PI <= th <= PI -> (if ccw then 0 <= th else th < 0) ->
  is_arc (circle_pt c r a) (circle_pt c r (a + th))
         (bulge_for_connection c (circle_pt c r a) (circle_pt c r (a + th)) ccw) c r a.
Proof.
  intros Hr Ht Hs. unfold bulge_for_connection.
  assert (EN : negb ccw = rltb th 0) by (destruct (rltb_spec th 0); destruct ccw; cbn; auto; lra). rewrite EN.
  destruct (delta_angle_signed_sweep (angle c (circle_pt c r a)) (angle c (circle_pt c r (a + th))) th) as [E _]; [|exact Ht|].
  - destruct (angle_congr c r a Hr) as [k K]. destruct (angle_congr c r (a + th) Hr) as [m M]. exists (m - k)%Z.
    rewrite minus_IZR. lra.
  - rewrite E. split; [lra|]. split; [reflexivity|]. f_equal. f_equal.
    pose proof (angle_from_bulge_from_angle th) as A. unfold angle_from_bulge in A. rnum. unfold sweep. symmetry. apply A. pose proof PI_pos. lra.
Qed.

Lemma ex_offset : exists s1 s2, create_untrimmed_raw_offset_segs ex_path (1 / 2) = Ret [s1; s2]
  /\ rs_v1 s1 = Vtx (-2 / 5) (3 / 10) 0 /\ rs_collapsed_arc s2 = false
  /\ exists s3 s4, create_untrimmed_raw_offset_segs ex_path 2 = Ret [s3; s4] /\ rs_collapsed_arc s4 = true.
Proof.
  assert (D : forall v1 v2, In (v1, v2) (spec_segs (vtx ex_path) (is_closed ex_path)) -> pos v1 <> pos v2).
  { intros v1 v2 H. cbn in H. destruct H as [H|[H|[]]]; injection H as <- <-; unfold pos; cbn; intros E; injection E; lra. }
  assert (A : forall o, o = 1 / 2 \/ o = 2 -> (collapses o (Vtx 3 4 1) (Vtx 3 6 0) <-> o = 2)).
  { intros o Ho. assert (HA : is_arc (V2 3 4) (V2 3 6) 1 (V2 3 5) 1 (- PI / 2)).
    { split; [lra|]. unfold circle_pt. cbn [vx vy]. rewrite atan_1_val. replace (- PI / 2 + PI) with (PI / 2) by field.
      replace (- PI / 2) with (- (PI / 2)) by field. rewrite cos_neg, sin_neg, cos_PI2, sin_PI2. split; f_equal; ring. }
    split.
    - intros H. specialize (H _ _ _ HA). unfold moved_radius in H. cbn [pbulge] in H. destruct (Rlt_dec 0 1); [|lra]. destruct Ho; lra.
    - intros -> c r a K. unfold pos in K. cbn [px py pbulge] in K. destruct (arc_unique _ _ _ _ _ _ R1_neq_R0 K) as [_ E].
      destruct (arc_unique _ _ _ _ _ _ R1_neq_R0 HA) as [_ E']. unfold moved_radius. cbn [pbulge]. destruct (Rlt_dec 0 1); lra. }
  destruct (raw_segs_ok ex_path (1 / 2) (proj1 ex_path_ok) D) as (l & E & F).
  destruct (raw_segs_ok ex_path 2 (proj1 ex_path_ok) D) as (l' & E' & F').
  cbn [ex_path vtx is_closed spec_segs tl combine app] in F, F'.
  inversion F as [|? s1 ? l1 F1 FA]; subst. inversion FA as [|? s2 ? l2 F2 FB]; subst. inversion FB; subst.
  inversion F' as [|? s3 ? l3 F3 FC]; subst. inversion FC as [|? s4 ? l4 F4 FD]; subst. inversion FD; subst.
  exists s1, s2. split; [exact E|]. split; [|split; [|exists s3, s4; split; [exact E'|]]].
  - destruct F1 as (_ & G & _). destruct (G eq_refl) as [[B M] _]. cbn [fst snd] in M.
    destruct (M (V2 (-4 / 5) (3 / 5))) as [P _].
    { unfold left_normal, cross, vec, pos. cbn [vx vy px py]. repeat split; lra. }
    destruct (rs_v1 s1) as [x y b]. unfold pos, moved in P. cbn [vx vy px py pbulge] in *. injection P as -> ->. subst b. f_equal; field.
  - destruct F2 as (_ & _ & G). cbn [fst snd pbulge] in G. destruct (G R1_neq_R0) as (_ & G' & _).
    destruct (rs_collapsed_arc s2); [|reflexivity]. exfalso. assert (1 / 2 = 2); [|lra]. apply A; [left; reflexivity|]. apply G'. reflexivity.
  - destruct F4 as (_ & _ & G). cbn [fst snd pbulge] in G. destruct (G R1_neq_R0) as (_ & G' & _).
    apply G'. apply A; [right|]; reflexivity.
Qed.
