(** Pieces of segments (C28). *)
From Coq Require Import Reals List Arith Bool Lra Lia.
From Verif Require Import Num RNum Res ModelMath ModelSeg ModelPline ModelView Spec SpecPline SpecGeom SpecView
  ProofBase ProofIter ProofInvert ProofR ProofArc ProofArc2 ProofIntr ProofView.
Import ListNotations.
Local Open Scope R_scope.

Lemma seg_at_ext v1 v2 w1 w2 t q : pos v1 = pos w1 -> pbulge v1 = pbulge w1 -> pos v2 = pos w2 ->
  seg_at v1 v2 t q <-> seg_at w1 w2 t q.
Proof. intros H1 H2 H3. unfold seg_at. now rewrite H1, H2, H3. Qed.

Lemma seg_at_0 v1 v2 : seg_ok v1 v2 -> seg_at v1 v2 0 (pos v1).
Proof.
  intros [HB HP]. destruct (Req_dec (pbulge v1) 0) as [E|E].
  - apply seg_at_line; [exact E|]. unfold line_pt. apply vec2_eq; simpl; ring.
  - pose proof (computed_is_arc _ _ _ (HP E) E) as HA. destruct HA as (R0 & P1 & P2).
    apply seg_at_arc; [exact (HP E)|exact E|]. rewrite P1 at 1. f_equal. ring.
Qed.

Lemma seg_at_1 v1 v2 : seg_ok v1 v2 -> seg_at v1 v2 1 (pos v2).
Proof.
  intros [HB HP]. destruct (Req_dec (pbulge v1) 0) as [E|E].
  - apply seg_at_line; [exact E|]. unfold line_pt. apply vec2_eq; simpl; ring.
  - pose proof (computed_is_arc _ _ _ (HP E) E) as HA. destruct HA as (R0 & P1 & P2).
    apply seg_at_arc; [exact (HP E)|exact E|]. rewrite P2 at 1. f_equal. ring.
Qed.

Lemma circle_chord_sqr c r a b :
  (vx (circle_pt c r b) - vx (circle_pt c r a)) * (vx (circle_pt c r b) - vx (circle_pt c r a))
  + (vy (circle_pt c r b) - vy (circle_pt c r a)) * (vy (circle_pt c r b) - vy (circle_pt c r a))
  = 2 * (r * r) * (1 - cos (b - a)).
Proof.
  unfold circle_pt. cbn [vx vy]. rewrite cos_minus.
  pose proof (sin2_cos2 a) as H1. pose proof (sin2_cos2 b) as H2. unfold Rsqr in *.
  replace (2 * (r * r) * (1 - (cos b * cos a + sin b * sin a)))
    with (r * r * ((sin a * sin a + cos a * cos a) + (sin b * sin b + cos b * cos b)
          - 2 * (cos b * cos a + sin b * sin a))) by (rewrite H1, H2; ring).
  ring.
Qed.

Lemma cos_abs x : cos (Rabs x) = cos x.
Proof. unfold Rabs. destruct (Rcase_abs x); [apply cos_neg|reflexivity]. Qed.

Lemma chord_mono v1 v2 t u q q' : seg_ok v1 v2 -> pos v1 <> pos v2 -> 0 <= t <= 1 -> 0 <= u <= 1 ->
  seg_at v1 v2 t q -> seg_at v1 v2 u q' ->
  (dist_squared (pos v1) q < dist_squared (pos v1) q' <-> t < u).
Proof.
  intros [HB HP] HD Ht Hu Q Q'. unfold dist_squared, v2dot, v2sub. rnum. cbn [vx vy].
  destruct (Req_dec (pbulge v1) 0) as [E|E].
  - apply seg_at_line in Q; [|exact E]. apply seg_at_line in Q'; [|exact E]. subst q q'.
    unfold line_pt. cbn [vx vy].
    set (x := vx (pos v2) - vx (pos v1)). set (y := vy (pos v2) - vy (pos v1)).
    assert (P : 0 < x * x + y * y).
    { apply sumsq_pos. apply vec2_neq. intros C. apply HD. now symmetry. }
    set (a := vx (pos v1)). set (b := vy (pos v1)).
    replace ((a - (a + t * x)) * (a - (a + t * x)) + (b - (b + t * y)) * (b - (b + t * y)))
      with (t * t * (x * x + y * y)) by ring.
    replace ((a - (a + u * x)) * (a - (a + u * x)) + (b - (b + u * y)) * (b - (b + u * y)))
      with (u * u * (x * x + y * y)) by ring.
    set (k := x * x + y * y) in *.
    split; intros L.
    + destruct (Rlt_le_dec t u) as [G|G]; [exact G|exfalso].
      assert (u * u <= t * t) by (apply Rmult_le_compat; lra).
      assert (u * u * k <= t * t * k) by (apply Rmult_le_compat_r; lra).
      eapply Rle_not_lt; eassumption.
    + apply Rmult_lt_compat_r; [exact P|]. apply Rmult_le_0_lt_compat; lra.
  - assert (HB1 : Rabs (pbulge v1) <= 1) by (destruct HB as [HB|HB]; [contradiction|apply HB]).
    pose proof (computed_is_arc _ _ _ (HP E) E) as HA.
    pose proof (radius_pos _ _ _ (HP E) E) as HR.
    apply seg_at_arc in Q; [|exact HD|exact E]. apply seg_at_arc in Q'; [|exact HD|exact E].
    set (c := centre_of (pos v1) (pos v2) (pbulge v1)) in *.
    set (r := radius_of (pos v1) (pos v2) (pbulge v1)) in *.
    set (a := angle c (pos v1)) in *. destruct HA as (_ & P1 & _). rewrite P1. subst q q'.
    set (th := sweep (pbulge v1)) in *.
    pose proof (sweep_bound _ HB1) as SB. fold th in SB.
    assert (HT : th <> 0) by (apply sweep_nonzero; exact E).
    rewrite !circle_chord_sqr.
    replace (a - (a + t * th)) with (- (t * th)) by ring. replace (a - (a + u * th)) with (- (u * th)) by ring.
    rewrite !cos_neg. rewrite <- (cos_abs (t * th)), <- (cos_abs (u * th)), !Rabs_mult.
    rewrite (Rabs_right t), (Rabs_right u) by lra.
    assert (HA0 : 0 < Rabs th) by (apply Rabs_pos_lt; exact HT).
    assert (HA1 : Rabs th <= PI) by (unfold Rabs; destruct (Rcase_abs th); lra).
    assert (B1 : forall x, 0 <= x <= 1 -> 0 <= x * Rabs th <= PI).
    { intros x Hx. split; [apply Rmult_le_pos; lra|].
      apply Rle_trans with (1 * Rabs th); [apply Rmult_le_compat_r; lra|lra]. }
    assert (HR2 : 0 < 2 * (r * r)) by (assert (0 < r * r) by (apply Rmult_lt_0_compat; exact HR); lra).
    split; intros L.
    + destruct (Rlt_le_dec t u) as [G|G]; [exact G|exfalso].
      assert (cos (t * Rabs th) <= cos (u * Rabs th)).
      { apply cos_decr_1; try apply B1; try lra. apply Rmult_le_compat_r; lra. }
      assert (2 * (r * r) * (1 - cos (u * Rabs th)) <= 2 * (r * r) * (1 - cos (t * Rabs th)))
        by (apply Rmult_le_compat_l; lra). lra.
    + apply Rmult_lt_compat_l; [exact HR2|].
      assert (cos (u * Rabs th) < cos (t * Rabs th)).
      { apply cos_decreasing_1; try apply B1; try lra. apply Rmult_lt_compat_r; lra. }
      lra.
Qed.

Lemma seg_at_inj v1 v2 t u q : seg_ok v1 v2 -> pos v1 <> pos v2 -> 0 <= t <= 1 -> 0 <= u <= 1 ->
  seg_at v1 v2 t q -> seg_at v1 v2 u q -> t = u.
Proof.
  intros HS HD Ht Hu Q Q'.
  pose proof (chord_mono v1 v2 t u q q HS HD Ht Hu Q Q') as H1.
  pose proof (chord_mono v1 v2 u t q q HS HD Hu Ht Q' Q) as H2.
  destruct (Rtotal_order t u) as [L|[E|L]]; [|exact E|].
  - apply H1 in L. lra.
  - apply H2 in L. lra.
Qed.

(** ** Fuzzy comparison of crisp points *)
Lemma crisp_false eps p q : crisp eps p q -> p <> q -> v2fuzzy_eq_eps p q eps = false.
Proof.
  intros [E|E] H; [contradiction|]. destruct (v2fuzzy_eq_eps p q eps) eqn:F; [|reflexivity].
  apply v2fuzzy_R in F. destruct E; lra.
Qed.
Lemma fuzzy_refl eps p : 0 < eps -> v2fuzzy_eq_eps p p eps = true.
Proof.
  intros H. apply v2fuzzy_R. split; rewrite Rminus_diag_eq, Rabs_R0 by reflexivity; exact H.
Qed.
Lemma crisp_true eps p q : 0 < eps -> crisp eps p q -> (v2fuzzy_eq_eps p q eps = true <-> p = q).
Proof.
  intros H C. split.
  - intros F. destruct C as [E|E]; [exact E|]. apply v2fuzzy_R in F. destruct E; lra.
  - intros ->. apply fuzzy_refl. exact H.
Qed.
Lemma crisp_sym eps p q : crisp eps p q -> crisp eps q p.
Proof.
  intros [E|[E|E]]; [left; now symmetry|right; left|right; right]; now rewrite Rabs_minus_sym.
Qed.

(** ** Pieces made by splitting *)
Lemma piece_whole v1 v2 w1 w2 : pos v1 = pos w1 -> pbulge v1 = pbulge w1 -> pos v2 = pos w2 ->
  piece v1 v2 0 1 w1 w2.
Proof.
  intros H1 H2 H3 s q. replace (0 + s * (1 - 0)) with s by ring. symmetry. now apply seg_at_ext.
Qed.

Lemma piece_second v1 v2 t u w1 w2 w2' : pos w2 = pos w2' -> piece v1 v2 t u w1 w2 -> piece v1 v2 t u w1 w2'.
Proof. intros E H s q. rewrite <- (H s q). apply seg_at_ext; auto. Qed.

Lemma from_pos (q : vec2 R) b : pos (Vtx (vx q) (vy q) b) = q.
Proof. now destruct q. Qed.

Lemma tail_piece a b t sp eps : 0 < eps -> seg_ok a b -> v2fuzzy_eq_eps (pos a) (pos b) eps = false ->
  0 <= t < 1 -> seg_at a b t sp -> crisp eps (pos a) sp -> crisp eps (pos b) sp ->
  let w := split_vertex (seg_split_at_point a b sp eps) in
  pos w = sp /\ piece a b t 1 w b /\ sweep (pbulge w) = (1 - t) * sweep (pbulge a)
  /\ (pbulge a = 0 -> pbulge w = 0).
Proof.
  intros He HS HD Ht Q C1 C2.
  pose proof (fuzzy_false_neq _ _ _ He HD) as HD'.
  destruct (Req_dec t 0) as [E0|E0].
  - assert (sp = pos a) by (subst t; apply (seg_at_unique a b 0); auto; now apply seg_at_0).
    subst t sp.
    destruct (Req_dec (pbulge a) 0) as [E|E].
    + rewrite seg_split_line by exact E. cbn [split_vertex pbulge]. rewrite from_pos.
      split; [reflexivity|]. split; [|split; [rewrite E; ring|reflexivity]].
      apply piece_whole; auto.
    + destruct (split_ends a b (pos a) eps (proj1 HS)) as (_ & H & _).
      destruct H as (H1 & H2 & H3 & H4); [exact E| | |].
      1,2: cbn [pos vx vy]; rewrite Rminus_diag_eq, Rabs_R0 by reflexivity; exact He.
      cbv zeta. split; [exact H3|]. split; [|split; [rewrite H4; ring|intros; contradiction]].
      apply piece_whole; auto.
  - assert (Ht' : 0 < t < 1) by lra.
    assert (N1 : pos a <> sp).
    { intros C. subst sp. apply E0. apply (seg_at_inj a b t 0 (pos a)); auto; try lra. now apply seg_at_0. }
    assert (N2 : pos b <> sp).
    { intros C. subst sp. assert (t = 1); [|lra].
      apply (seg_at_inj a b t 1 (pos b)); auto; try lra. now apply seg_at_1. }
    destruct (split_halves a b sp eps t HS Ht' Q) as (_ & H2 & _ & H4 & _ & H6).
    { intros _. split; [exact HD|]. split; apply crisp_false; auto. }
    cbv zeta. split; [exact H2|]. split; [|split; [exact H6|]].
    + intros s q. apply H4.
    + intros E. rewrite seg_split_line by exact E. reflexivity.
Qed.

Lemma head_piece a b u ep eps : 0 < eps -> seg_ok a b -> v2fuzzy_eq_eps (pos a) (pos b) eps = false ->
  0 < u <= 1 -> seg_at a b u ep -> crisp eps (pos a) ep -> crisp eps (pos b) ep ->
  let w := updated_start (seg_split_at_point a b ep eps) in
  pos w = pos a /\ (forall e, pos e = ep -> piece a b 0 u w e).
Proof.
  intros He HS HD Hu Q C1 C2.
  pose proof (fuzzy_false_neq _ _ _ He HD) as HD'.
  assert (N1 : pos a <> ep).
  { intros C. subst ep. assert (u = 0); [|lra].
    apply (seg_at_inj a b u 0 (pos a)); auto; try lra. now apply seg_at_0. }
  destruct (Req_dec u 1) as [E1|E1].
  - assert (ep = pos b) by (subst u; apply (seg_at_unique a b 1); auto; now apply seg_at_1).
    subst u ep.
    assert (U : updated_start (seg_split_at_point a b (pos b) eps) = a).
    { destruct (Req_dec (pbulge a) 0) as [E|E].
      - rewrite seg_split_line by exact E. reflexivity.
      - destruct (split_ends a b (pos b) eps (proj1 HS)) as (_ & _ & H).
        destruct H as (H1 & _); [exact E| | | | |exact H1].
        + cbn [pos vx vy]. rewrite Rminus_diag_eq, Rabs_R0 by reflexivity. exact He.
        + cbn [pos vx vy]. rewrite Rminus_diag_eq, Rabs_R0 by reflexivity. exact He.
        + intros F. apply (v2fuzzy_R (pos a) (pos b) eps) in F. congruence.
        + intros F. apply (v2fuzzy_R (pos a) (pos b) eps) in F. congruence. }
    cbv zeta. rewrite U. split; [reflexivity|]. intros e Ee. apply piece_whole; auto.
  - assert (Hu' : 0 < u < 1) by lra.
    assert (N2 : pos b <> ep).
    { intros C. subst ep. apply E1. apply (seg_at_inj a b u 1 (pos b)); auto; try lra. now apply seg_at_1. }
    destruct (split_halves a b ep eps u HS Hu' Q) as (H1 & H2 & H3 & _).
    { intros _. split; [exact HD|]. split; apply crisp_false; auto. }
    cbv zeta. split; [exact H1|]. intros e Ee s q.
    replace (0 + s * (u - 0)) with (s * u) by ring. rewrite <- (H3 s q). apply seg_at_ext; auto.
    now rewrite H2.
Qed.

Lemma mid_piece a b t u sp ep eps : 0 < eps -> seg_ok a b -> v2fuzzy_eq_eps (pos a) (pos b) eps = false ->
  0 <= t < u -> u <= 1 -> seg_at a b t sp -> seg_at a b u ep ->
  crisp eps (pos a) sp -> crisp eps (pos b) sp -> crisp eps (pos b) ep -> crisp eps sp ep ->
  rest_ok a t ->
  let w := updated_start (seg_split_at_point (split_vertex (seg_split_at_point a b sp eps)) b ep eps) in
  pos w = sp /\ (forall e, pos e = ep -> piece a b t u w e).
Proof.
  intros He HS HD Ht Hu Q Q' C1 C2 C3 C4 HR.
  pose proof (fuzzy_false_neq _ _ _ He HD) as HD'.
  destruct (tail_piece a b t sp eps He HS HD) as (H1 & H2 & H3 & H4); auto; [lra|].
  cbv zeta. set (m := split_vertex (seg_split_at_point a b sp eps)) in *.
  assert (N1 : sp <> pos b).
  { intros C. assert (t = 1); [|lra].
    apply (seg_at_inj a b t 1 (pos b)); auto; try lra; [now rewrite <- C|now apply seg_at_1]. }
  assert (HM : v2fuzzy_eq_eps (pos m) (pos b) eps = false).
  { rewrite H1. apply crisp_false; [now apply crisp_sym|exact N1]. }
  assert (HSm : seg_ok m b).
  { split; [|intros _; rewrite H1; exact N1].
    destruct HR as [E|E]; [left; now apply H4|].
    destruct (Req_dec (pbulge a) 0) as [Z|Z]; [left; now apply H4|].
    assert (Em : pbulge m = tan ((1 - t) * atan (pbulge a))).
    { unfold sweep in H3. rewrite <- (tan_atan (pbulge m)). f_equal. lra. }
    right. rewrite Em. split; [exact E|].
    destruct HS as [[HB|[_ HB]] _]; [contradiction|].
    assert (HA : Rabs (atan (pbulge a)) <= PI / 4).
    { pose proof (atan_1_bound _ HB). unfold Rabs; destruct (Rcase_abs _); lra. }
    assert (HX : Rabs ((1 - t) * atan (pbulge a)) <= PI / 4).
    { rewrite Rabs_mult, (Rabs_right (1 - t)) by lra.
      apply Rle_trans with (1 * Rabs (atan (pbulge a))); [apply Rmult_le_compat_r; [apply Rabs_pos|lra]|lra]. }
    set (x := (1 - t) * atan (pbulge a)) in *. pose proof PI_pos.
    assert (HT1 : tan x <= 1).
    { rewrite <- tan_PI4. destruct (Req_dec x (PI / 4)) as [->|]; [lra|].
      left. apply tan_increasing; unfold Rabs in HX; destruct (Rcase_abs x); lra. }
    assert (HT2 : -1 <= tan x).
    { replace (-1) with (tan (- (PI / 4))) by (rewrite tan_neg, tan_PI4; ring).
      destruct (Req_dec x (- (PI / 4))) as [->|]; [lra|].
      left. apply tan_increasing; unfold Rabs in HX; destruct (Rcase_abs x); lra. }
    apply Rabs_le. lra. }
  set (v := (u - t) / (1 - t)).
  assert (Hv : 0 < v <= 1).
  { unfold v. split; [apply Rdiv_lt_0_compat; lra|]. apply Rmult_le_reg_r with (1 - t); [lra|].
    unfold Rdiv. rewrite Rmult_assoc, Rinv_l by lra. lra. }
  assert (Ev : t + v * (1 - t) = u) by (unfold v; field; lra).
  assert (Qm : seg_at m b v ep) by (apply H2; rewrite Ev; exact Q').
  destruct (head_piece m b v ep eps He HSm HM Hv Qm) as (G1 & G2); [rewrite H1; exact C4|exact C3|].
  split; [now rewrite G1|]. intros e Ee s q. rewrite (G2 e Ee s q), (H2 (0 + s * (v - 0)) q).
  replace (t + (0 + s * (v - 0)) * (1 - t)) with (t + s * (v * (1 - t))) by ring.
  replace (v * (1 - t)) with (u - t) by (unfold v; field; lra). reflexivity.
Qed.

(** ** Segments of a forward view *)
Lemma Forall2_nth {A B} (P : A -> B -> Prop) l m : length l = length m ->
  (forall i x y, nth_error l i = Some x -> nth_error m i = Some y -> P x y) -> Forall2 P l m.
Proof.
  revert m. induction l as [|x l IH]; intros [|y m] HL H; try discriminate; [constructor|].
  constructor; [apply (H 0%nat); reflexivity|]. apply IH; [simpl in HL; lia|].
  intros i x' y' Hx Hy. apply (H (S i) x' y' Hx Hy).
Qed.

Lemma fwd_pieces_one d (p : pline R) t u a b :
  (vd_start_index d < vertex_count p)%nat -> vd_end_index_offset d = 0%nat ->
  nth_error (vtx p) (vd_start_index d) = Some a ->
  nth_error (vtx p) ((vd_start_index d + 1) mod vertex_count p)%nat = Some b ->
  (forall e, pos e = vd_end_point d -> piece a b t u (vd_updated_start d) e) ->
  Forall2 (is_piece (vtx p)) [(vd_start_index d, t, u)] (spec_segs (fwd_list d p) false).
Proof.
  intros H1 H2 Ha Hb HP. unfold fwd_list. rewrite H2. unfold spec_following, spec_view. cbn [firstn rebulge_last app].
  cbn [spec_segs combine tl app]. constructor; [|constructor].
  exists a, b. split; [exact Ha|]. split; [exact Hb|]. cbn [fst snd]. apply HP. apply from_pos.
Qed.

Lemma fwd_pieces_many d (p : pline R) t u a b c e :
  (vd_start_index d < vertex_count p)%nat -> (0 < vd_end_index_offset d <= vertex_count p)%nat ->
  nth_error (vtx p) (vd_start_index d) = Some a ->
  nth_error (vtx p) ((vd_start_index d + 1) mod vertex_count p)%nat = Some b ->
  nth_error (vtx p) ((vd_start_index d + vd_end_index_offset d) mod vertex_count p)%nat = Some c ->
  nth_error (vtx p) ((vd_start_index d + vd_end_index_offset d + 1) mod vertex_count p)%nat = Some e ->
  piece a b t 1 (vd_updated_start d) b ->
  (forall x, pos x = vd_end_point d -> piece c e 0 u (with_bulge c (vd_updated_end_bulge d)) x) ->
  Forall2 (is_piece (vtx p))
    ((vd_start_index d, t, 1)
      :: map (fun k => ((vd_start_index d + 1 + k) mod vertex_count p, 0%R, 1%R))%nat (seq 0 (vd_end_index_offset d - 1)%nat)
      ++ [((vd_start_index d + vd_end_index_offset d) mod vertex_count p, 0%R, u)%nat])
    (spec_segs (fwd_list d p) false).
Proof.
  intros H1 H2 Ha Hb Hc He HP HQ.
  pose proof (fwd_list_length d p ltac:(lia)) as HL.
  pose proof (fun i => fwd_list_nth d p i H1 ltac:(lia)) as HN.
  set (s := vd_start_index d) in *. set (off := vd_end_index_offset d) in *. set (n := vertex_count p) in *.
  assert (HS : length (spec_segs (fwd_list d p) false) = (off + 1)%nat).
  { rewrite spec_segs_length, HL. destruct (Nat.ltb_spec (off + 2) 2); lia. }
  apply Forall2_nth.
  { rewrite HS. cbn [length]. rewrite app_length, map_length, seq_length. simpl. lia. }
  intros i [[k t'] u'] [w1 w2] Hx Hy.
  assert (Hi : (i < off + 1)%nat) by (rewrite <- HS; apply nth_error_Some; congruence).
  destruct (spec_segs_nth (fwd_list d p) false i) as (y1 & y2 & Y1 & Y2 & Y3); [lia|].
  rewrite Y1 in Hy. injection Hy as -> ->.
  rewrite HL, Nat.mod_small in Y3 by lia. rewrite HN in Y2. rewrite HN in Y3.
  assert (Hn : (n <> 0)%nat) by lia.
  assert (E2 : forall v, (i + 1 <= off)%nat -> nth_error (vtx p) ((s + (i + 1)) mod n)%nat = Some v -> pos w2 = pos v).
  { intros v Hi' Hv. destruct (Nat.eqb_spec (i + 1) 0); [lia|].
    destruct (Nat.leb_spec (i + 1) off); [|lia]. rewrite Hv in Y3. injection Y3 as <-.
    destruct (i + 1 =? off)%nat; reflexivity. }
  destruct (Nat.eqb_spec i 0) as [E0|E0].
  - subst i. cbn [nth_error] in Hx. injection Hx as <- <- <-. injection Y2 as <-.
    exists a, b. fold (vertex_count p). fold n. split; [exact Ha|]. split; [exact Hb|]. cbn [fst snd].
    apply piece_second with b; [|exact HP]. symmetry. apply E2; [lia|exact Hb].
  - destruct i as [|i]; [lia|]. cbn [nth_error] in Hx.
    destruct (Nat.leb_spec (S i) off) as [L|L]; [|lia].
    destruct (Nat.eqb_spec (S i) off) as [E|E].
    + rewrite nth_error_app2 in Hx by (rewrite map_length, seq_length; lia).
      rewrite map_length, seq_length in Hx. replace (i - (off - 1))%nat with 0%nat in Hx by lia.
      cbn [nth_error] in Hx. injection Hx as <- <- <-. rewrite E in Y2. rewrite Hc in Y2. injection Y2 as <-.
      exists c, e. fold (vertex_count p). fold n. split; [exact Hc|].
      split; [rewrite Nat.add_mod_idemp_l by exact Hn; exact He|]. cbn [fst snd]. apply HQ.
      destruct (Nat.eqb_spec (S i + 1) 0); [lia|]. destruct (Nat.leb_spec (S i + 1) off); [lia|].
      destruct (Nat.eqb_spec (S i + 1) (off + 1)); [|lia]. injection Y3 as <-. apply from_pos.
    + rewrite nth_error_app1 in Hx by (rewrite map_length, seq_length; lia).
      erewrite map_nth_error in Hx by (apply nth_error_seq'; lia). simpl Nat.add in Hx. injection Hx as <- <- <-.
      replace (s + 1 + i)%nat with (s + S i)%nat by lia.
      destruct (nth_error_some (vtx p) ((s + S i) mod n)%nat) as [v Hv].
      { fold (vertex_count p). fold n. apply Nat.mod_upper_bound. exact Hn. }
      destruct (nth_error_some (vtx p) ((s + (S i + 1)) mod n)%nat) as [v' Hv'].
      { fold (vertex_count p). fold n. apply Nat.mod_upper_bound. exact Hn. }
      exists v, v'. fold (vertex_count p). fold n. split; [exact Hv|].
      split. { rewrite Nat.add_mod_idemp_l by exact Hn. rewrite <- Hv'. f_equal. f_equal. lia. }
      cbn [fst snd]. rewrite Hv in Y2. injection Y2 as <-.
      apply piece_whole; auto. symmetry. apply E2; [lia|exact Hv'].
Qed.
