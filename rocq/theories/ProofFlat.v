(** Flattening of arcs (C17). *)
From Coq Require Import Reals ZArith Bool List Arith Lra Lia Psatz.
From Verif Require Import Num RNum Res ModelMath ModelSeg ModelPline Spec SpecGeom SpecFlat.
From Verif Require Import ProofR ProofBase ProofIter ProofInvert ProofArc ProofArc2 ProofSlice ProofMeasure ProofIntr ProofWalk.
Import ListNotations.
Local Open Scope R_scope.

Lemma rceil_spec x : exists k, rceil x = IZR k /\ IZR k - 1 < x <= IZR k.
Proof.
  unfold rceil, rfloor. exists (- Int_part (- x))%Z. rewrite opp_IZR. split; [reflexivity|].
  destruct (base_Int_part (- x)) as [A B]. lra.
Qed.

Lemma int_part_IZR k : Int_part (IZR k) = k.
Proof.
  destruct (base_Int_part (IZR k)) as [A B].
  assert (IZR (Int_part (IZR k)) <= IZR k) by lra. apply le_IZR in H.
  assert (IZR (k - 1) < IZR (Int_part (IZR k))) by (rewrite minus_IZR; lra). apply lt_IZR in H0. lia.
Qed.

Lemma to_usize_IZR k : (0 <= k)%Z -> rto_usize (IZR k) = if (k <? 2 ^ 64)%Z then Some (Z.to_nat k) else None.
Proof.
  intros H. unfold rto_usize. assert (0 <= IZR k) by (apply (IZR_le 0); exact H).
  destruct (Rlt_dec (-1) (IZR k)) as [_|N]; [|lra].
  rewrite int_part_IZR. destruct (Z.ltb_spec k (2 ^ 64)) as [L|L], (Rlt_dec (IZR k) (IZR (2 ^ 64))) as [L'|L']; try reflexivity; exfalso.
  - apply L', IZR_lt, L.
  - apply lt_IZR in L'. lia.
Qed.

(** ** Distance between a part and its chord *)
Lemma sin_sign_le x h : 0 < h <= PI / 2 -> Rabs x <= h -> -1 <= sin x / sin h <= 1.
Proof.
  intros H Hx. pose proof PI_pos. assert (0 < sin h) by (apply sin_gt_0; lra).
  assert (- h <= x <= h) by (revert Hx; unfold Rabs; destruct (Rcase_abs x); lra).
  assert (HS : sin (- h) <= sin x <= sin h) by (split; apply sin_incr_1; lra). rewrite sin_neg in HS.
  split; apply Rmult_le_reg_r with (sin h); auto; unfold Rdiv; rewrite Rmult_assoc, Rinv_l; lra.
Qed.

Lemma cos_abs_eq x : cos (Rabs x) = cos x.
Proof. unfold Rabs. destruct (Rcase_abs x); [apply cos_neg|reflexivity]. Qed.

Lemma chord_near c r m h x : 0 <= r -> h <> 0 -> Rabs h <= PI / 2 -> Rabs x <= Rabs h ->
  exists s, 0 <= s <= 1 /\ dist (circle_pt c r (m + x)) (line_pt (circle_pt c r (m - h)) (circle_pt c r (m + h)) s)
                         <= r * (1 - cos h).
Proof.
  intros Hr Hh H2 Hx. pose proof (Rabs_pos_lt h Hh) as Hp.
  set (k := sin x / sin h).
  assert (SH : sin h <> 0).
  { intros E. assert (sin (Rabs h) = 0). { unfold Rabs. destruct (Rcase_abs h); [rewrite sin_neg, E; ring|exact E]. }
    assert (0 < sin (Rabs h)) by (apply sin_gt_0; pose proof PI_pos; lra). lra. }
  assert (K : -1 <= k <= 1).
  { unfold k. destruct (Rcase_abs h) as [N|N] eqn:EE.
    - assert (Rabs h = - h) by (apply Rabs_left; lra). rewrite H in *.
      pose proof (sin_sign_le x (- h) ltac:(lra) Hx) as Q. rewrite sin_neg in Q.
      replace (sin x / sin h) with (- (sin x / - sin h)) by (field; lra). lra.
    - assert (Rabs h = h) by (apply Rabs_pos_eq; lra). rewrite H in *. apply sin_sign_le; lra. }
  exists ((1 + k) / 2). split; [lra|].
  assert (ES : k * sin h = sin x) by (unfold k; field; exact SH).
  assert (EL : line_pt (circle_pt c r (m - h)) (circle_pt c r (m + h)) ((1 + k) / 2)
               = V2 (vx c + r * (cos m * cos h - sin m * sin x)) (vy c + r * (sin m * cos h + cos m * sin x))).
  { unfold line_pt, circle_pt. cbn [vx vy]. rewrite !cos_plus, !cos_minus, !sin_plus, !sin_minus, <- ES.
    apply vec2_eq; cbn [vx vy]; field. }
  rewrite EL. unfold dist, circle_pt. cbn [vx vy]. rewrite cos_plus, sin_plus.
  replace ((vx c + r * (cos m * cos x - sin m * sin x) - (vx c + r * (cos m * cos h - sin m * sin x))) *
    (vx c + r * (cos m * cos x - sin m * sin x) - (vx c + r * (cos m * cos h - sin m * sin x))) +
    (vy c + r * (sin m * cos x + cos m * sin x) - (vy c + r * (sin m * cos h + cos m * sin x))) *
    (vy c + r * (sin m * cos x + cos m * sin x) - (vy c + r * (sin m * cos h + cos m * sin x))))
    with ((r * (cos x - cos h)) * (r * (cos x - cos h))).
  2:{ pose proof (sin2_cos2 m) as S. unfold Rsqr in S.
      replace (r * (cos x - cos h) * (r * (cos x - cos h))) with (r * (cos x - cos h) * (r * (cos x - cos h)) * (sin m * sin m + cos m * cos m)) by (rewrite S; ring). ring. }
  assert (CX : cos h <= cos x).
  { rewrite <- (cos_abs_eq h), <- (cos_abs_eq x). pose proof (Rabs_pos x). pose proof PI_pos. apply cos_decr_1; lra. }
  rewrite sqrt_square by (apply Rmult_le_pos; lra).
  apply Rmult_le_compat_l; [exact Hr|]. pose proof (COS_bound x). lra.
Qed.

Lemma chord_far c r m h s : 0 <= r ->
  r * (1 - cos h) <= dist (circle_pt c r m) (line_pt (circle_pt c r (m - h)) (circle_pt c r (m + h)) s).
Proof.
  intros Hr. pose proof (COS_bound h).
  assert (P : 0 <= r * (1 - cos h)) by (apply Rmult_le_pos; lra).
  rewrite <- (sqrt_square (r * (1 - cos h)) P). unfold dist. apply sqrt_le_1_alt.
  unfold line_pt, circle_pt. cbn [vx vy]. rewrite !cos_plus, !cos_minus, !sin_plus, !sin_minus.
  pose proof (sin2_cos2 m) as S. unfold Rsqr in S.
  set (A := r * (1 - cos h)). set (B := r * (1 - 2 * s) * sin h).
  assert (EX : vx c + r * cos m - (vx c + r * (cos m * cos h + sin m * sin h) +
     s * (vx c + r * (cos m * cos h - sin m * sin h) - (vx c + r * (cos m * cos h + sin m * sin h)))) = A * cos m - B * sin m) by (unfold A, B; ring).
  assert (EY : vy c + r * sin m - (vy c + r * (sin m * cos h - cos m * sin h) +
     s * (vy c + r * (sin m * cos h + cos m * sin h) - (vy c + r * (sin m * cos h - cos m * sin h)))) = A * sin m + B * cos m) by (unfold A, B; ring).
  rewrite EX, EY.
  replace ((A * cos m - B * sin m) * (A * cos m - B * sin m) + (A * sin m + B * cos m) * (A * sin m + B * cos m))
    with ((A * A + B * B) * (sin m * sin m + cos m * cos m)) by ring.
  rewrite S. pose proof (Rle_0_sqr B) as Q. unfold Rsqr in Q. lra.
Qed.

Lemma seg_at_arc_iff v1 v2 c r a t q : seg_ok v1 v2 -> pbulge v1 <> 0 -> is_arc (pos v1) (pos v2) (pbulge v1) c r a ->
  seg_at v1 v2 t q <-> q = circle_pt c r (a + t * sweep (pbulge v1)).
Proof.
  intros Hok Hb HA.
  assert (G : seg_at v1 v2 t (circle_pt c r (a + t * sweep (pbulge v1)))).
  { right. split; [exact Hb|]. exists c, r, a. split; [exact HA|reflexivity]. }
  split; [|intros ->; exact G]. intros Hq. apply (seg_at_unique v1 v2 t); assumption.
Qed.

Lemma good_cut_iff v1 v2 n e c r a : seg_ok v1 v2 -> pbulge v1 <> 0 -> (1 <= n)%Z ->
  is_arc (pos v1) (pos v2) (pbulge v1) c r a ->
  good_cut v1 v2 n e <-> r * (1 - cos (Rabs (sweep (pbulge v1)) / (2 * IZR n))) <= e.
Proof.
  intros Hok Hb Hn HA. pose proof (fun t q => seg_at_arc_iff v1 v2 c r a t q Hok Hb HA) as Hat.
  assert (Hb1 : Rabs (pbulge v1) <= 1) by (destruct (proj1 Hok) as [?|[_ ?]]; [contradiction|assumption]).
  set (th := sweep (pbulge v1)) in *. set (N := IZR n).
  assert (HN : 1 <= N) by (apply (IZR_le 1); exact Hn).
  pose proof (sweep_bound _ Hb1) as SB. pose proof (sweep_nonzero _ Hb) as SN. fold th in SB, SN.
  assert (Hr : 0 <= r) by apply HA.
  assert (EC : cos (Rabs th / (2 * N)) = cos (th / (2 * N))).
  { rewrite <- (cos_abs_eq (th / (2 * N))). unfold Rdiv. rewrite Rabs_mult, (Rabs_pos_eq (/ (2 * N))); [reflexivity|].
    apply Rlt_le, Rinv_0_lt_compat. lra. }
  rewrite EC. set (h := th / (2 * N)).
  assert (IN : 0 < / N) by (apply Rinv_0_lt_compat; lra).
  assert (IN1 : / N <= 1) by (rewrite <- Rinv_1; apply Rinv_le_contravar; lra).
  assert (Hh : h <> 0). { unfold h. intros E. apply SN. replace th with (th / (2 * N) * (2 * N)) by (field; lra). rewrite E. ring. }
  assert (Hh2 : Rabs h <= PI / 2).
  { replace h with (th * / N / 2) by (unfold h; field; lra). unfold Rdiv. rewrite !Rabs_mult, (Rabs_pos_eq (/ N)), (Rabs_pos_eq (/ 2)) by lra.
    assert (Rabs th <= PI) by (unfold Rabs; destruct (Rcase_abs th); lra). pose proof (Rabs_pos th). nra. }
  split.
  - intros G. specialize (G 0%Z (/ (2 * N)) (circle_pt c r a) (circle_pt c r (a + 1 / N * th)) (circle_pt c r (a + / (2 * N) * th))).
    destruct G as (s & _ & D); fold N; rewrite ?Hat.
    + lia.
    + replace (/ (2 * N)) with (/ N / 2) by (field; lra). unfold Rdiv. lra.
    + unfold Rdiv. rewrite !Rmult_0_l, Rplus_0_r. reflexivity.
    + rewrite Rplus_0_l. reflexivity.
    + reflexivity.
    + eapply Rle_trans; [|exact D].
      replace (circle_pt c r a) with (circle_pt c r (a + / (2 * N) * th - h)) by (f_equal; unfold h; field; lra).
      replace (a + 1 / N * th) with (a + / (2 * N) * th + h) by (unfold h; field; lra).
      now apply chord_far.
  - intros HE i t A B q Hi Ht HAa HB Hq. fold N in Ht, HAa, HB. rewrite Hat in HAa, HB, Hq. subst A B q.
    set (m := a + (IZR i + 1 / 2) / N * th). set (x := (t - (IZR i + 1 / 2) / N) * th).
    destruct (chord_near c r m h x Hr Hh Hh2) as (s & Hs & D).
    + unfold x, h. replace (th / (2 * N)) with (/ (2 * N) * th) by (field; lra). rewrite !Rabs_mult.
      apply Rmult_le_compat_r; [apply Rabs_pos|]. rewrite (Rabs_pos_eq (/ (2 * N))) by (apply Rlt_le, Rinv_0_lt_compat; lra).
      replace (IZR i / N) with ((IZR i + 1 / 2) / N - / (2 * N)) in Ht by (field; lra).
      replace ((IZR i + 1) / N) with ((IZR i + 1 / 2) / N + / (2 * N)) in Ht by (field; lra).
      unfold Rabs. destruct (Rcase_abs _); lra.
    + exists s. split; [exact Hs|]. eapply Rle_trans; [|exact HE].
      replace (a + IZR i / N * th) with (m - h) by (unfold m, h; field; lra).
      replace (a + (IZR i + 1) / N * th) with (m + h) by (unfold m, h; field; lra).
      replace (a + t * th) with (m + x) by (unfold m, x; field; lra). exact D.
Qed.

Lemma cos_le_iff x y : 0 <= x <= PI -> 0 <= y <= PI -> (cos y <= cos x <-> x <= y).
Proof. intros Hx Hy. split; intros H; [apply cos_decr_0|apply cos_decr_1]; lra. Qed.

(** The number of parts computed by the code is the least good one. *)
Lemma count_iff r th e k N : 0 < r -> 0 < th <= PI -> 0 < e <= 2 * r -> (1 <= N)%Z ->
  IZR k - 1 < th / (2 * Rabs (acos (1 - e / r))) <= IZR k ->
  (k <= N)%Z <-> r * (1 - cos (th / (2 * IZR N))) <= e.
Proof.
  intros Hr Ht He HN Hk. set (al := acos (1 - e / r)) in *.
  assert (E1 : 0 < e / r <= 2).
  { split; [apply Rdiv_lt_0_compat; lra|]. apply Rmult_le_reg_r with r; [exact Hr|]. unfold Rdiv. rewrite Rmult_assoc, Rinv_l; lra. }
  assert (CA : cos al = 1 - e / r) by (apply cos_acos; lra).
  pose proof (acos_bound (1 - e / r)) as AB. fold al in AB.
  assert (A0 : 0 < al). { destruct (Req_dec al 0) as [Z|]; [|lra]. rewrite Z, cos_0 in CA. lra. }
  rewrite (Rabs_pos_eq al) in Hk by lra.
  assert (HN' : 1 <= IZR N) by (apply (IZR_le 1); exact HN).
  assert (Q : r * (1 - cos (th / (2 * IZR N))) <= e <-> th / (2 * IZR N) <= al).
  { assert (TH : 0 <= th / (2 * IZR N) <= PI).
    { split; [apply Rlt_le, Rdiv_lt_0_compat; lra|]. apply Rmult_le_reg_r with (2 * IZR N); [lra|].
      unfold Rdiv. rewrite Rmult_assoc, Rinv_l by lra. nra. }
    rewrite <- (cos_le_iff _ _ TH AB). rewrite CA.
    assert (e = r * (e / r)) by (field; lra). split; intros G; nra. }
  rewrite Q. assert (EQ : th / (2 * al) <= IZR N <-> th / (2 * IZR N) <= al).
  { split; intros G.
    - apply Rmult_le_reg_r with (2 * IZR N); [lra|]. unfold Rdiv. rewrite Rmult_assoc, Rinv_l by lra.
      apply (Rmult_le_compat_r (2 * al)) in G; [|lra]. unfold Rdiv in G. rewrite Rmult_assoc, Rinv_l in G; lra.
    - apply Rmult_le_reg_r with (2 * al); [lra|]. unfold Rdiv. rewrite Rmult_assoc, Rinv_l by lra.
      apply (Rmult_le_compat_r (2 * IZR N)) in G; [|lra]. unfold Rdiv in G. rewrite Rmult_assoc, Rinv_l in G; lra. }
  rewrite <- EQ. split; intros G.
  - apply IZR_le in G. lra.
  - assert (IZR (k - 1) < IZR N) by (rewrite minus_IZR; lra). apply lt_IZR in H. lia.
Qed.

Lemma flat_arc v1 v2 e acc : seg_ok v1 v2 -> pbulge v1 <> 0 -> e <> 0 -> error_fits e (v1, v2) ->
  (exists vs, arcs_to_approx_lines_step e acc (v1, v2) = Some (acc ++ vs) /\ flattened (Rabs e) (v1, v2) vs
     /\ Forall (fun w => pbulge w = 0) vs)
  \/ (arcs_to_approx_lines_step e acc (v1, v2) = None /\ ~ good_cut v1 v2 (2 ^ 64 - 1) (Rabs e)).
Proof.
  intros Hok Hb He Hfit. pose proof (proj2 Hok Hb) as Hp.
  assert (Hb1 : Rabs (pbulge v1) <= 1) by (destruct (proj1 Hok) as [?|[_ ?]]; [contradiction|assumption]).
  assert (EZ : bulge_is_zero v1 = false).
  { destruct (bulge_is_zero v1) eqn:Z; [|reflexivity]. apply bulge_ok_zero in Z; [contradiction|apply Hok]. }
  pose proof (computed_is_arc (pos v1) (pos v2) (pbulge v1) Hp Hb) as HA.
  pose proof (radius_pos (pos v1) (pos v2) (pbulge v1) Hp Hb) as Hr.
  unfold arcs_to_approx_lines_step. rewrite EZ, (arc_radius_and_center_eq v1 v2 Hp Hb). cbv beta iota zeta.
  set (c := centre_of (pos v1) (pos v2) (pbulge v1)) in *. set (r := radius_of (pos v1) (pos v2) (pbulge v1)) in *.
  set (a := angle c (pos v1)) in *.
  pose proof (fun t q => seg_at_arc_iff v1 v2 c r a t q Hok Hb HA) as Hat.
  pose proof (fun n x Hn => good_cut_iff v1 v2 n x c r a Hok Hb Hn HA) as GC.
  pose proof (sweep_bound _ Hb1) as SB. pose proof (sweep_nonzero _ Hb) as SN. pose proof (sweep_ltb (pbulge v1)) as SL.
  pose proof PI_pos as HPI. pose proof (Rabs_pos_lt _ SN) as AS.
  assert (AS2 : Rabs (sweep (pbulge v1)) <= PI) by (unfold Rabs; destruct (Rcase_abs _); lra).
  unfold fuzzy_lt, fuzzy_lt_eps. rnum.
  destruct (rltb_spec r (e + 1 / 100000000)) as [L|L].
  - left. exists [Vtx (px v1) (py v1) 0]. split; [reflexivity|]. split; [|repeat constructor].
    split; [intros; contradiction|]. intros _. cbn [length Z.of_nat]. split; [|split; [lia|split]].
    + intros [|i] w Hw; [|destruct i; discriminate]. injection Hw as <-. split; [reflexivity|].
      match goal with |- seg_at _ _ ?t _ => replace t with 0 by (cbn; field) end.
      change (seg_at v1 v2 0 (pos v1)). apply seg_at_0. exact Hok.
    + right. split; [reflexivity|]. apply GC; [lia|].
      assert (0 <= cos (Rabs (sweep (pbulge v1)) / (2 * 1))) by (apply cos_ge_0; lra).
      assert (e <= Rabs e) by apply Rle_abs. change (Z.pos 1) with 1%Z. nra.
    + intros N. exfalso. apply N. reflexivity.
  - assert (E2 : 0 < Rabs e <= 2 * r).
    { split; [now apply Rabs_pos_lt|]. specialize (Hfit Hb). unfold Rabs. destruct (Rcase_abs e) as [N|N]; [|lra].
      destruct Hfit as [?|Hfit]; [lra|]. apply (Hfit c r a HA). }
    assert (CG : congr (angle c (pos v2)) (a + sweep (pbulge v1))).
    { destruct HA as (_ & _ & ->). now apply angle_congr. }
    destruct (delta_angle_signed_sweep a (angle c (pos v2)) (sweep (pbulge v1)) CG SB) as [_ ED].
    rewrite ED. set (th := sweep (pbulge v1)) in *. set (ath := Rabs th) in *.
    set (x := ath / (2 * Rabs (acos (1 - Rabs e / r)))).
    destruct (rceil_spec x) as (k & EK & HK). rewrite EK.
    assert (CI : forall N, (1 <= N)%Z -> (k <= N)%Z <-> good_cut v1 v2 N (Rabs e)).
    { intros N HN. rewrite (GC N (Rabs e) HN). apply count_iff; auto; lra. }
    assert (K1 : (1 <= k)%Z).
    { assert (0 < IZR k).
      { assert (0 < x); [|lra]. unfold x. apply Rdiv_lt_0_compat; [lra|].
        assert (acos (1 - Rabs e / r) <> 0).
        { intros Z. assert (CC : cos (acos (1 - Rabs e / r)) = 1 - Rabs e / r).
          { apply cos_acos. assert (0 < Rabs e / r <= 2); [|lra].
            split; [apply Rdiv_lt_0_compat; lra|]. apply Rmult_le_reg_r with r; [exact Hr|]. unfold Rdiv. rewrite Rmult_assoc, Rinv_l; lra. }
          rewrite Z, cos_0 in CC. assert (0 < Rabs e / r) by (apply Rdiv_lt_0_compat; lra). lra. }
        pose proof (Rabs_pos_lt _ H). lra. }
      apply (lt_IZR 0) in H. lia. }
    rewrite to_usize_IZR by lia. destruct (Z.ltb_spec k (2 ^ 64)) as [LK|LK].
    + left. eexists. split; [reflexivity|].
      set (off := if bulge_is_neg v1 then - ath / IZR k else ath / IZR k).
      assert (HK0 : 1 <= IZR k) by (apply (IZR_le 1); exact K1).
      assert (EO : off = th / IZR k).
      { unfold off, ath. assert (EN : bulge_is_neg v1 = rltb (pbulge v1) 0) by reflexivity. rewrite EN, <- SL.
        destruct (rltb_spec th 0) as [N|N]; [rewrite (Rabs_left th N); field; lra|rewrite Rabs_pos_eq by lra; reflexivity]. }
      assert (LEN : Z.of_nat (length (Vtx (px v1) (py v1) 0 :: map (fun i => from_vector2 (point_on_circle r c (INR i * off + a)) 0) (seq 1 (Z.to_nat k - 1)))) = k).
      { cbn [length]. rewrite map_length, seq_length. lia. }
      set (vs := Vtx (px v1) (py v1) 0 :: map (fun i => from_vector2 (point_on_circle r c (INR i * off + a)) 0) (seq 1 (Z.to_nat k - 1))) in *.
      assert (HB : Forall (fun w => pbulge w = 0) vs).
      { constructor; [reflexivity|]. apply Forall_forall. intros w Hw. apply in_map_iff in Hw as (i & <- & _). reflexivity. }
      split; [|exact HB]. split; [intros; contradiction|]. intros _. cbv zeta. rewrite LEN.
      split; [|split; [lia|split]].
      * intros i w Hw. split; [eapply Forall_forall in HB; [exact HB|eapply nth_error_In; eassumption]|].
        assert (EL : INR (length vs) = IZR k) by (rewrite INR_IZR_INZ, LEN; reflexivity). rewrite EL.
        destruct i as [|i].
        -- injection Hw as <-. replace (INR 0 / IZR k) with 0 by (cbn; field; lra). change (seg_at v1 v2 0 (pos v1)). apply seg_at_0. exact Hok.
        -- cbn [vs nth_error] in Hw. rewrite nth_error_map in Hw.
           destruct (nth_error (seq 1 (Z.to_nat k - 1)) i) as [j|] eqn:EJ; [|discriminate]. cbn [option_map] in Hw. injection Hw as <-.
           assert (EJ' : j = S i).
           { assert (i < Z.to_nat k - 1)%nat by (rewrite <- (seq_length (Z.to_nat k - 1) 1); apply nth_error_Some; congruence).
             rewrite (nth_error_nth' _ 0%nat) in EJ by (rewrite seq_length; lia). rewrite seq_nth in EJ by lia. injection EJ as <-. lia. }
           subst j. apply Hat. clearbody a. unfold from_vector2, point_on_circle, pos, circle_pt. rnum. cbn [vx vy px py].
           rewrite EO. replace (INR (S i) * (th / IZR k) + a) with (a + INR (S i) / IZR k * th) by (field; lra). reflexivity.
      * left. apply CI; lia.
      * intros Hn1. rewrite <- CI by lia. lia.
    + right. split; [reflexivity|]. rewrite <- CI by lia. lia.
Qed.

Lemma flat_line v1 v2 e acc : seg_ok v1 v2 -> pbulge v1 = 0 ->
  arcs_to_approx_lines_step e acc (v1, v2) = Some (acc ++ [v1]) /\ flattened (Rabs e) (v1, v2) [v1] /\ Forall (fun w => pbulge w = 0) [v1].
Proof.
  intros Hok Hb. unfold arcs_to_approx_lines_step. rewrite (proj2 (bulge_ok_zero v1 (proj1 Hok)) Hb).
  split; [reflexivity|]. split; [|repeat constructor; exact Hb]. split; [reflexivity|intros; contradiction].
Qed.

Lemma flat_loop e segs : e <> 0 -> (forall v1 v2, In (v1, v2) segs -> seg_ok v1 v2 /\ error_fits e (v1, v2)) -> forall acc,
  (exists parts, arcs_to_approx_lines_loop e segs acc = Some (acc ++ concat parts)
     /\ Forall2 (flattened (Rabs e)) segs parts /\ Forall (fun w => pbulge w = 0) (concat parts))
  \/ (arcs_to_approx_lines_loop e segs acc = None
      /\ exists v1 v2, In (v1, v2) segs /\ pbulge v1 <> 0 /\ ~ good_cut v1 v2 (2 ^ 64 - 1) (Rabs e)).
Proof.
  intros He. induction segs as [|[v1 v2] t IH]; intros H acc.
  - left. exists []. cbn. rewrite app_nil_r. repeat split; constructor.
  - destruct (H v1 v2 (or_introl eq_refl)) as [Hok Hf]. cbn [arcs_to_approx_lines_loop].
    assert (G : (exists vs, arcs_to_approx_lines_step e acc (v1, v2) = Some (acc ++ vs) /\ flattened (Rabs e) (v1, v2) vs
                   /\ Forall (fun w => pbulge w = 0) vs)
                \/ (arcs_to_approx_lines_step e acc (v1, v2) = None /\ pbulge v1 <> 0 /\ ~ good_cut v1 v2 (2 ^ 64 - 1) (Rabs e))).
    { destruct (Req_dec (pbulge v1) 0) as [E|E].
      - left. exists [v1]. now apply flat_line.
      - destruct (flat_arc v1 v2 e acc Hok E He Hf) as [G|G]; [now left|right; tauto]. }
    destruct G as [(vs & -> & F & B)|(-> & E & N)].
    + destruct (IH (fun a b Hab => H a b (or_intror Hab)) (acc ++ vs)) as [(ps & -> & F' & B')|(-> & w1 & w2 & Hin & K)].
      * left. exists (vs :: ps). cbn [concat]. rewrite app_assoc. split; [reflexivity|]. split; [constructor; assumption|].
        apply Forall_app. auto.
      * right. split; [reflexivity|]. exists w1, w2. split; [now right|exact K].
    + right. split; [reflexivity|]. exists v1, v2. split; [now left|auto].
Qed.

Lemma flat_pline (p : pline R) e : pline_ok p -> e <> 0 ->
  (forall v1 v2, In (v1, v2) (spec_segs (vtx p) (is_closed p)) -> error_fits e (v1, v2)) ->
  (exists p' parts, arcs_to_approx_lines p e = Ret (Some p')
     /\ Forall2 (flattened (Rabs e)) (spec_segs (vtx p) (is_closed p)) parts
     /\ is_closed p' = is_closed p
     /\ vtx p' = concat parts ++ (if is_closed p then [] else skipn (vertex_count p - 1) (vtx p))
     /\ forall v1 v2, In (v1, v2) (spec_segs (vtx p') (is_closed p')) -> pbulge v1 = 0)
  \/ (arcs_to_approx_lines p e = Ret None
      /\ exists v1 v2, In (v1, v2) (spec_segs (vtx p) (is_closed p)) /\ pbulge v1 <> 0
           /\ ~ good_cut v1 v2 (2 ^ 64 - 1) (Rabs e)).
Proof.
  intros Hok He Hf. unfold arcs_to_approx_lines.
  destruct (vtx p) as [|v0 vs0] eqn:EV.
  { left. exists (PL [] (is_closed p)), []. unfold is_empty, vertex_count. rewrite EV. cbn.
    destruct (is_closed p); cbn; (split; [reflexivity|]; split; [constructor|]; split; [reflexivity|]; split; [reflexivity|];
      intros; contradiction). }
  assert (NE : is_empty p = false) by (unfold is_empty, vertex_count; rewrite EV; reflexivity).
  rewrite NE, iter_segments_spec. cbn [rbind]. rewrite EV.
  assert (HH : forall v1 v2, In (v1, v2) (spec_segs (v0 :: vs0) (is_closed p)) -> seg_ok v1 v2 /\ error_fits e (v1, v2)).
  { intros v1 v2 H. split; [apply Hok; rewrite EV; exact H|apply Hf; exact H]. }
  destruct (flat_loop e _ He HH []) as [(parts & -> & F & B)|(-> & K)].
  - left. cbn [app]. destruct (is_closed p) eqn:C; cbn [negb].
    + exists (PL (concat parts) true), parts. rewrite app_nil_r. repeat split; auto.
      intros v1 v2 H. cbn [vtx is_closed] in H. destruct (In_nth_error _ _ H) as [i Hi].
      assert (L : (i < length (spec_segs (concat parts) true))%nat) by (apply nth_error_Some; congruence).
      destruct (spec_segs_nth _ _ i L) as (x & y & E & E1 & _). rewrite Hi in E. injection E as <- <-.
      eapply Forall_forall in B; [exact B|eapply nth_error_In; eassumption].
    + assert (LL : exists w, last_ p = Ret (Some w) /\ skipn (vertex_count p - 1) (v0 :: vs0) = [w]).
      { unfold last_. rewrite usub_ok by (unfold vertex_count; rewrite EV; cbn; lia). cbn [rbind].
        unfold get, vertex_count. rewrite EV. cbn [length].
        destruct (exists_last (l := v0 :: vs0) ltac:(discriminate)) as (l' & w & EE).
        exists w. assert (LE : length (v0 :: vs0) = S (length l')) by (rewrite EE, app_length; cbn; lia). cbn [length] in LE.
        rewrite EE. replace (S (length vs0) - 1)%nat with (length l') by lia. split.
        - rewrite nth_error_app2, Nat.sub_diag by lia. reflexivity.
        - rewrite skipn_app, skipn_all, Nat.sub_diag. reflexivity. }
      destruct LL as (w & -> & ->). cbn [rbind unwrap].
      exists (PL (concat parts ++ [w]) false), parts. repeat split; auto.
      intros v1 v2 H. cbn [vtx is_closed] in H. destruct (In_nth_error _ _ H) as [i Hi].
      assert (L : (i < length (spec_segs (concat parts ++ [w]) false))%nat) by (apply nth_error_Some; congruence).
      destruct (spec_segs_nth _ _ i L) as (x & y & E & E1 & _). rewrite Hi in E. injection E as <- <-.
      rewrite spec_segs_length in L. rewrite app_length in L. cbn [length] in L.
      assert (L' : (i < length (concat parts))%nat) by (destruct (_ <? _)%nat eqn:LT in L; lia).
      rewrite nth_error_app1 in E1 by exact L'.
      eapply Forall_forall in B; [exact B|eapply nth_error_In; eassumption].
  - right. split; [reflexivity|exact K].
Qed.

Lemma ex_flat_cut v1 v2 n : In (v1, v2) (spec_segs (vtx ex_circle) (is_closed ex_circle)) -> (1 <= n)%Z ->
  good_cut v1 v2 n (1 / 2) <-> (2 <= n)%Z.
Proof.
  intros Hin Hn. pose proof (ex_circle_ok _ _ Hin) as Hok.
  assert (B1 : pbulge v1 = 1 /\ radius_of (pos v1) (pos v2) 1 = 1).
  { cbn in Hin. destruct Hin as [H|[H|[]]]; injection H as <- <-; (split; [reflexivity|]);
    unfold radius_of, chord2, pos; cbn [vx vy px py]; rewrite (Rabs_pos_eq 1) by lra; rewrite (sqrt_of_sqr 2) by lra; field. }
  destruct B1 as [B1 BR]. assert (Hb : pbulge v1 <> 0) by lra.
  pose proof (computed_is_arc (pos v1) (pos v2) (pbulge v1) (proj2 Hok Hb) Hb) as HA.
  rewrite (good_cut_iff v1 v2 n (1 / 2) _ _ _ Hok Hb Hn HA). rewrite B1, BR, atan_1_val, Rabs_pos_eq by (pose proof PI_pos; lra).
  pose proof PI_pos as HP. rewrite Rmult_1_l. split; intros H.
  - destruct (Z.eq_dec n 1) as [->|]; [|lia]. replace (PI / (2 * 1)) with (PI / 2) in H by field. rewrite cos_PI2 in H. lra.
  - assert (N2 : 2 <= IZR n) by (apply (IZR_le 2); exact H).
    assert (P : 0 < PI / (2 * IZR n) <= PI / 3).
    { split; [apply Rdiv_lt_0_compat; lra|]. apply Rmult_le_compat_l; [lra|]. apply Rinv_le_contravar; lra. }
    assert (cos (PI / 3) <= cos (PI / (2 * IZR n))) by (apply cos_decr_1; lra). rewrite cos_PI3 in H0. lra.
Qed.

(** The unit circle within 1/2: four chords. *)
Lemma ex_flat : exists p', arcs_to_approx_lines ex_circle (1 / 2) = Ret (Some p')
  /\ is_closed p' = true /\ vertex_count p' = 4%nat.
Proof.
  destruct (flat_pline ex_circle (1 / 2) ex_circle_ok ltac:(lra)) as [(p' & parts & E & F & C & V & _)|(_ & v1 & v2 & Hin & _ & N)].
  - intros v1 v2 _ _. left. lra.
  - exists p'. split; [exact E|]. split; [exact C|].
    assert (LEN : forall s l, In s (spec_segs (vtx ex_circle) (is_closed ex_circle)) -> flattened (Rabs (1 / 2)) s l -> length l = 2%nat).
    { intros [v1 v2] l Hin [_ G]. pose proof (fun n => ex_flat_cut v1 v2 n Hin) as K.
      assert (Hb : pbulge v1 <> 0) by (cbn in Hin; destruct Hin as [H|[H|[]]]; injection H as <- <-; cbn; lra).
      destruct (G Hb) as (_ & L1 & L2 & L3). rewrite Rabs_pos_eq in L2, L3 by lra.
      assert (2 <= Z.of_nat (length l))%Z.
      { destruct L2 as [L2|[L2 L2']]; [apply K; assumption|].
        exfalso. pose proof (ex_circle_ok _ _ Hin) as Hok.
        pose proof (computed_is_arc (pos v1) (pos v2) (pbulge v1) (proj2 Hok Hb) Hb) as HA.
        rewrite (good_cut_iff v1 v2 1 _ _ _ _ Hok Hb ltac:(lia) HA) in L2'.
        assert (B1 : pbulge v1 = 1 /\ radius_of (pos v1) (pos v2) 1 = 1).
        { cbn in Hin. destruct Hin as [H|[H|[]]]; injection H as <- <-; (split; [reflexivity|]);
          unfold radius_of, chord2, pos; cbn [vx vy px py]; rewrite (Rabs_pos_eq 1) by lra; rewrite (sqrt_of_sqr 2) by lra; field. }
        destruct B1 as [B1 BR]. rewrite B1, BR, atan_1_val, Rabs_pos_eq in L2' by (pose proof PI_pos; lra).
        replace (PI / (2 * 1)) with (PI / 2) in L2' by field. rewrite cos_PI2 in L2'. lra. }
      destruct (Z.eq_dec (Z.of_nat (length l)) 2) as [|NE]; [lia|]. exfalso. apply L3; [lia|]. apply K; lia. }
    unfold vertex_count. rewrite V. cbn [is_closed ex_circle]. rewrite app_nil_r.
    remember (spec_segs (vtx ex_circle) (is_closed ex_circle)) as segs.
    assert (ES : length segs = 2%nat) by (rewrite Heqsegs; reflexivity).
    destruct segs as [|s1 [|s2 [|]]]; try discriminate.
    inversion F as [|? l1 ? ls1 F1 F' ]; subst. inversion F' as [|? l2 ? ls2 F2 F'']; subst. inversion F''; subst.
    cbn [concat]. rewrite !app_length. rewrite (LEN s1 l1), (LEN s2 l2); auto; [right; left; reflexivity|left; reflexivity].
  - exfalso. apply N. rewrite Rabs_pos_eq by lra. apply (ex_flat_cut v1 v2 _ Hin); lia.
Qed.

(** A closed polyline with one vertex becomes the empty polyline. *)
Lemma flat_lost : exists p : pline R, vertex_count p = 1%nat /\ forall e, arcs_to_approx_lines p e = Ret (Some (PL [] true)).
Proof. exists (PL [Vtx 0 0 0] true). split; [reflexivity|]. intros e. reflexivity. Qed.
