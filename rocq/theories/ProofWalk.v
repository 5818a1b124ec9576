(** Proofs about walking along a polyline (C16) and images of the drawn path (C40). *)
From Coq Require Import Reals ZArith Bool List Arith Lra Lia.
From Verif Require Import Num RNum Res ModelMath ModelSeg ModelPline Spec SpecGeom SpecWalk.
From Verif Require Import ProofR ProofBase ProofIter ProofInvert ProofArc ProofArc2 ProofMeasure ProofSlice.
Import ListNotations.
Local Open Scope R_scope.

(** ** Walking *)
Lemma walk_point v1 v2 t : seg_ok v1 v2 ->
  seg_at v1 v2 t
    (if bulge_is_zero v1 then v2add (pos v1) (v2scale (v2sub (pos v2) (pos v1)) t)
     else let '(radius, center) := seg_arc_radius_and_center v1 v2 in
          point_on_circle radius center (nadd (angle center (pos v1)) (nmul (angle_from_bulge (pbulge v1)) t))).
Proof.
  intros [HB HP]. destruct (bulge_is_zero v1) eqn:Z.
  - apply bulge_ok_zero in Z; [|exact HB]. apply seg_at_line; [exact Z|].
    unfold line_pt, v2add, v2scale, v2sub. rnum. apply vec2_eq; cbn [vx vy]; ring.
  - assert (E : pbulge v1 <> 0) by (intros E; apply bulge_ok_zero in E; congruence).
    rewrite arc_radius_and_center_eq by auto. apply seg_at_arc; auto.
    unfold point_on_circle, circle_pt, angle_from_bulge, sweep. rnum.
    rewrite (Rmult_comm (4 * atan (pbulge v1)) t). reflexivity.
Qed.

Lemma seg_length_0_or v1 v2 : seg_ok v1 v2 ->
  (seg_length v1 v2 = 0 /\ tiny_seg v1 v2 /\ 0 <= seg_len_R v1 v2 <= 1 / 10000000)
  \/ (seg_length v1 v2 = seg_len_R v1 v2 /\ 0 <= seg_len_R v1 v2).
Proof.
  intros Hok. destruct (vfuzzy_eq v1 v2) eqn:F.
  - left. pose proof (seg_length_err v1 v2 Hok) as HE. pose proof (seg_len_R_bounds v1 v2 Hok) as HB.
    assert (E : seg_length v1 v2 = 0) by (unfold seg_length; rewrite F; reflexivity).
    split; [exact E|]. rewrite E in HE. split.
    + unfold vfuzzy_eq, vfuzzy_eq_eps, fuzzy_eq_eps in F. rnum.
      apply andb_true_iff in F as [F F3]. apply andb_true_iff in F as [F1 F2].
      apply rltb_true in F1. apply rltb_true in F2. apply rltb_true in F3. repeat split; assumption.
    + split; [lra|]. rewrite Rabs_minus_sym, Rminus_0_r, Rabs_pos_eq in HE; lra.
  - right. split; [now apply seg_length_R|]. apply (seg_len_R_bounds v1 v2 Hok).
Qed.

Lemma lens_ok segs :
  (forall v1 v2, In (v1, v2) segs -> seg_ok v1 v2) ->
  Forall2 (fun s L => seg_has_length (fst s) (snd s) L) segs (map (fun s => seg_len_R (fst s) (snd s)) segs).
Proof.
  intros H. induction segs as [|[v1 v2] l IH]; constructor.
  - cbn. apply seg_len_R_spec. apply H. now left.
  - apply IH. intros a b Hin. apply H. now right.
Qed.

Definition lens (segs : list (vertex R * vertex R)) : R := rsum (map (fun s => seg_len_R (fst s) (snd s)) segs).

Lemma find_point_loop_spec target : forall segs i acc,
  (forall v1 v2, In (v1, v2) segs -> seg_ok v1 v2) -> acc < target ->
  match find_point_loop target i segs acc with
  | inr L => L < target /\ acc + lens segs - INR (length segs) * (1 / 10000000) <= L <= acc + lens segs
             /\ ((forall v1 v2, In (v1, v2) segs -> ~ tiny_seg v1 v2) -> L = acc + lens segs)
  | inl (j, q) => exists k v1 v2 d, j = (i + k)%nat /\ nth_error segs k = Some (v1, v2)
      /\ target <= d <= target + INR k * (1 / 10000000)
      /\ ((forall v1 v2, In (v1, v2) segs -> ~ tiny_seg v1 v2) -> d = target)
      /\ acc + lens (firstn k segs) < d <= acc + lens (firstn k segs) + seg_len_R v1 v2
      /\ seg_at v1 v2 ((d - acc - lens (firstn k segs)) / seg_len_R v1 v2) q
  end.
Proof.
  induction segs as [|[v1 v2] segs IH]; intros i acc Hok Hacc.
  - cbn [find_point_loop]. unfold lens. cbn [map length]. rewrite rsum_nil. cbn [INR]. lra.
  - cbn [find_point_loop]. rnum.
    assert (Hs : seg_ok v1 v2) by (apply Hok; now left).
    assert (Hok' : forall a b, In (a, b) segs -> seg_ok a b) by (intros a b Hin; apply Hok; now right).
    assert (EL : lens ((v1, v2) :: segs) = seg_len_R v1 v2 + lens segs) by (unfold lens; cbn [map]; now rewrite rsum_cons).
    destruct (rltb_spec (acc + seg_length v1 v2) target) as [L|L].
    + specialize (IH (i + 1)%nat (acc + seg_length v1 v2) Hok' L).
      destruct (find_point_loop target (i + 1) segs (acc + seg_length v1 v2)) as [[j q]|L'].
      * destruct IH as (k & w1 & w2 & d & -> & Hn & Hd & Ht & HA & Hq).
        set (e := seg_len_R v1 v2 - seg_length v1 v2).
        assert (He : 0 <= e <= 1 / 10000000 /\ (~ tiny_seg v1 v2 -> e = 0)).
        { unfold e. destruct (seg_length_0_or v1 v2 Hs) as [(E1 & E2 & E3)|(E1 & E2)]; rewrite E1.
          - split; [lra|]. intros HH. contradiction.
          - split; [lra|]. intros _. lra. }
        exists (S k), w1, w2, (d + e). split; [lia|]. split; [exact Hn|].
        assert (EF : lens (firstn (S k) ((v1, v2) :: segs)) = seg_len_R v1 v2 + lens (firstn k segs)).
        { cbn [firstn]. unfold lens. cbn [map]. now rewrite rsum_cons. }
        rewrite EF, S_INR. split; [lra|]. split.
        { intros HT. rewrite (proj2 He), Ht; [ring| |].
          - intros a b Hin. apply HT. now right.
          - apply HT. now left. }
        unfold e in *. split; [lra|].
        replace (d + (seg_len_R v1 v2 - seg_length v1 v2) - acc - (seg_len_R v1 v2 + lens (firstn k segs)))
          with (d - (acc + seg_length v1 v2) - lens (firstn k segs)) by ring.
        exact Hq.
      * destruct IH as (H1 & H2 & H3). rewrite EL. cbn [length]. rewrite S_INR.
        split; [exact H1|]. split.
        { destruct (seg_length_0_or v1 v2 Hs) as [(E1 & E2 & E3)|(E1 & E2)]; rewrite E1 in H2; lra. }
        intros HT. rewrite H3 by (intros a b Hin; apply HT; now right).
        destruct (seg_length_0_or v1 v2 Hs) as [(E1 & E2 & E3)|(E1 & E2)].
        { exfalso. apply (HT v1 v2); [now left|exact E2]. }
        rewrite E1. ring.
    + destruct (seg_length_0_or v1 v2 Hs) as [(E1 & E2 & E3)|(E1 & E2)]; [rewrite E1 in L; lra|].
      pose proof (walk_point v1 v2 ((target - acc) / seg_length v1 v2) Hs) as W.
      assert (G : forall q, seg_at v1 v2 ((target - acc) / seg_length v1 v2) q ->
        exists k w1 w2 d, i = (i + k)%nat /\ nth_error ((v1, v2) :: segs) k = Some (w1, w2)
          /\ target <= d <= target + INR k * (1 / 10000000)
          /\ ((forall v3 v4, In (v3, v4) ((v1, v2) :: segs) -> ~ tiny_seg v3 v4) -> d = target)
          /\ acc + lens (firstn k ((v1, v2) :: segs)) < d <= acc + lens (firstn k ((v1, v2) :: segs)) + seg_len_R w1 w2
          /\ seg_at w1 w2 ((d - acc - lens (firstn k ((v1, v2) :: segs))) / seg_len_R w1 w2) q).
      { intros q Hq. exists 0%nat, v1, v2, target. split; [lia|]. split; [reflexivity|].
        cbn [INR firstn]. change (lens []) with 0. rewrite E1 in L, Hq.
        split; [lra|]. split; [reflexivity|]. split; [lra|].
        now replace (target - acc - 0) with (target - acc) by ring. }
      rnum. destruct (bulge_is_zero v1); [apply G; exact W|].
      destruct (seg_arc_radius_and_center v1 v2) as [r c]. apply G. exact W.
Qed.

Lemma find_point_spec p target : pline_ok p -> 0 < target ->
  (exists i q d, find_point_at_path_length p target = Ret (inl (i, q)) /\ walk p d i q
     /\ target <= d <= target + INR i * (1 / 10000000) /\ (no_tiny p -> d = target))
  \/ (exists L L', find_point_at_path_length p target = Ret (inr L) /\ L < target /\ path_has_length p L'
     /\ L' - INR (segment_count p) * (1 / 10000000) <= L <= L' /\ (no_tiny p -> L = L')).
Proof.
  intros Hok Ht. unfold find_point_at_path_length. rnum.
  destruct (rleb_spec target 0) as [H|_]; [lra|]. rewrite iter_segments_spec. cbn [rbind].
  pose proof (find_point_loop_spec target (spec_segs (vtx p) (is_closed p)) 0 0 Hok Ht) as H.
  destruct (find_point_loop target 0 _ 0) as [[j q]|L].
  - left. destruct H as (k & v1 & v2 & d & -> & Hn & Hd & HT & HA & Hq). cbn [Nat.add].
    exists k, q, d. split; [reflexivity|]. split; [|split; [exact Hd|exact HT]].
    exists v1, v2, (map (fun s => seg_len_R (fst s) (snd s)) (firstn k (spec_segs (vtx p) (is_closed p)))), (seg_len_R v1 v2).
    split; [exact Hn|]. split.
    { apply lens_ok. intros a b Hin. apply Hok.
      rewrite <- (firstn_skipn k (spec_segs (vtx p) (is_closed p))). apply in_or_app. now left. }
    split; [apply seg_len_R_spec; apply Hok; eapply nth_error_In; exact Hn|].
    fold (lens (firstn k (spec_segs (vtx p) (is_closed p)))). split; [lra|].
    replace (d - lens (firstn k (spec_segs (vtx p) (is_closed p)))) with (d - 0 - lens (firstn k (spec_segs (vtx p) (is_closed p)))) by ring.
    exact Hq.
  - right. destruct H as (H1 & H2 & H3). exists L, (true_length p). split; [reflexivity|]. split; [exact H1|].
    split; [now apply true_length_spec|]. rewrite segment_count_spec.
    fold (lens (spec_segs (vtx p) (is_closed p))). change (true_length p) with (lens (spec_segs (vtx p) (is_closed p))).
    split; [lra|]. intros HT. rewrite H3; [ring|exact HT].
Qed.

(** Exact statement for polylines without tiny segments. *)
Lemma find_point_exact p target : pline_ok p -> no_tiny p -> 0 < target ->
  exists x, find_point_at_path_length p target = Ret x
    /\ match x with
       | inl (i, q) => walk p target i q
       | inr L => path_has_length p L /\ L < target
       end.
Proof.
  intros Hok HT Ht. destruct (find_point_spec p target Hok Ht) as [(i & q & d & E & W & _ & D)|(L & L' & E & H1 & H2 & _ & D)].
  - rewrite <- (D HT). eexists. split; [rewrite (D HT); exact E|]. exact W.
  - eexists. split; [exact E|]. rewrite (D HT) in *. now split.
Qed.

(** The stopping point is unique: the specification determines the answer. *)
Lemma lens_firstn_mono segs i j : (forall v1 v2, In (v1, v2) segs -> seg_ok v1 v2) -> (i <= j)%nat ->
  lens (firstn i segs) <= lens (firstn j segs).
Proof.
  revert i j. induction segs as [|[v1 v2] l IH]; intros i j Hok Hij.
  - rewrite !firstn_nil. lra.
  - assert (Hok' : forall a b, In (a, b) l -> seg_ok a b) by (intros a b Hin; apply Hok; now right).
    assert (P : 0 <= seg_len_R v1 v2) by (apply seg_len_R_bounds; apply Hok; now left).
    destruct i as [|i], j as [|j]; try lia; cbn [firstn]; unfold lens; cbn [map]; rewrite ?rsum_cons, ?rsum_nil; cbn [fst snd].
    + lra.
    + pose proof (IH 0%nat j Hok' ltac:(lia)) as H. unfold lens in H. cbn [firstn map] in H. rewrite rsum_nil in H. lra.
    + pose proof (IH i j Hok' ltac:(lia)) as H. unfold lens in H. lra.
Qed.

Lemma lens_firstn_S segs i v1 v2 : nth_error segs i = Some (v1, v2) ->
  lens (firstn (S i) segs) = lens (firstn i segs) + seg_len_R v1 v2.
Proof.
  revert i. induction segs as [|s l IH]; intros [|i] H; try discriminate.
  - cbn in H. injection H as ->. unfold lens. cbn [firstn map fst snd]. rewrite rsum_cons, rsum_nil. cbn [fst snd]. ring.
  - cbn [nth_error] in H. specialize (IH _ H). cbn [firstn] in *. unfold lens in *. cbn [map] in *. rewrite !rsum_cons.
    rewrite IH. ring.
Qed.

Lemma walk_lens p d i q : pline_ok p -> walk p d i q ->
  exists v1 v2, nth_error (spec_segs (vtx p) (is_closed p)) i = Some (v1, v2)
    /\ lens (firstn i (spec_segs (vtx p) (is_closed p))) < d <= lens (firstn (S i) (spec_segs (vtx p) (is_closed p)))
    /\ seg_at v1 v2 ((d - lens (firstn i (spec_segs (vtx p) (is_closed p)))) / seg_len_R v1 v2) q.
Proof.
  intros Hok (v1 & v2 & Ls & L & Hn & HF & HL & HA & Hq). exists v1, v2. split; [exact Hn|].
  assert (Hs : seg_ok v1 v2) by (apply Hok; eapply nth_error_In; exact Hn).
  assert (E : L = seg_len_R v1 v2) by (eapply seg_has_length_unique; eauto using seg_len_R_spec). subst L.
  assert (E : rsum Ls = lens (firstn i (spec_segs (vtx p) (is_closed p)))).
  { eapply Forall2_rsum; [|exact HF]. intros [w1 w2] Hin L HLw. cbn [fst snd] in *.
    assert (Hw : seg_ok w1 w2).
    { apply Hok. rewrite <- (firstn_skipn i (spec_segs (vtx p) (is_closed p))). apply in_or_app. now left. }
    eapply seg_has_length_unique; [exact Hw|exact HLw|now apply seg_len_R_spec]. }
  rewrite (lens_firstn_S _ _ _ _ Hn). rewrite <- E. split; [exact HA|exact Hq].
Qed.

Lemma walk_unique p d i q j q' : pline_ok p -> walk p d i q -> walk p d j q' -> i = j /\ q = q'.
Proof.
  intros Hok W W'. destruct (walk_lens _ _ _ _ Hok W) as (v1 & v2 & Hn & HA & Hq).
  destruct (walk_lens _ _ _ _ Hok W') as (w1 & w2 & Hn' & HA' & Hq').
  assert (E : i = j).
  { destruct (Nat.lt_total i j) as [L|[E|L]]; [|exact E|].
    - pose proof (lens_firstn_mono _ (S i) j Hok L). lra.
    - pose proof (lens_firstn_mono _ (S j) i Hok L). lra. }
  subst j. split; [reflexivity|]. rewrite Hn in Hn'. injection Hn' as <- <-.
  eapply seg_at_unique; [exact Hq|exact Hq'|]. apply Hok. eapply nth_error_In. exact Hn.
Qed.

Lemma walk_not_long p d i q L : pline_ok p -> walk p d i q -> path_has_length p L -> d <= L.
Proof.
  intros Hok W HL. rewrite (path_has_length_unique p L Hok HL).
  destruct (walk_lens _ _ _ _ Hok W) as (v1 & v2 & Hn & HA & _).
  change (true_length p) with (lens (spec_segs (vtx p) (is_closed p))).
  assert (Hl : (S i <= length (spec_segs (vtx p) (is_closed p)))%nat) by (apply nth_error_Some; congruence).
  pose proof (lens_firstn_mono _ (S i) (length (spec_segs (vtx p) (is_closed p))) Hok Hl) as H.
  rewrite firstn_all in H. lra.
Qed.

Lemma find_point_nonpos p target v : nth_error (vtx p) 0 = Some v -> target <= 0 ->
  find_point_at_path_length p target = Ret (inl (0%nat, pos v)).
Proof.
  intros Hv Ht. unfold find_point_at_path_length. rnum. destruct (rleb_spec target 0) as [_|H]; [|lra].
  unfold at_, index. rewrite Hv. reflexivity.
Qed.

(** ** Images of the drawn path *)
Lemma seg_at_exists_any v1 v2 t : exists q, seg_at v1 v2 t q.
Proof.
  destruct (Req_dec (pbulge v1) 0) as [E|E].
  - eexists. apply seg_at_line; [exact E|reflexivity].
  - destruct (Req_dec (chord2 (pos v1) (pos v2)) 0) as [C|C].
    + exists (pos v1). right. split; [exact E|]. exists (pos v1), 0, 0.
      assert (P : pos v2 = pos v1).
      { unfold chord2 in C. destruct (Rplus_sqr_eq_0 _ _ C) as [C1 C2]. apply vec2_eq; lra. }
      rewrite P. repeat split; try lra; unfold circle_pt; apply vec2_eq; cbn [vx vy]; ring.
    + assert (P : pos v1 <> pos v2).
      { intros P. apply C. rewrite P. unfold chord2. ring. }
      eexists. apply seg_at_arc; [exact P|exact E|reflexivity].
Qed.

Lemma scale_seg_fwd s v1 v2 t q : seg_at v1 v2 t q ->
  seg_at (Vtx (s * px v1) (s * py v1) (pbulge v1)) (Vtx (s * px v2) (s * py v2) (pbulge v2)) t
         (V2 (s * vx q) (s * vy q)).
Proof.
  intros [[E ->]|[E (c & r & a & (Hr & P1 & P2) & ->)]].
  - left. split; [exact E|]. unfold line_pt, pos. cbn [vx vy px py]. apply vec2_eq; cbn [vx vy]; ring.
  - right. split; [exact E|]. cbn [pbulge]. unfold pos in *. cbn [px py].
    injection P1 as X1 Y1. injection P2 as X2 Y2.
    destruct (Rle_dec 0 s) as [Hs|Hs].
    + exists (V2 (s * vx c) (s * vy c)), (s * r), a. repeat split.
      * apply Rmult_le_pos; assumption.
      * unfold circle_pt. cbn [vx vy]. rewrite X1, Y1. apply vec2_eq; cbn [vx vy]; ring.
      * unfold circle_pt. cbn [vx vy]. rewrite X2, Y2. apply vec2_eq; cbn [vx vy]; ring.
      * unfold circle_pt. cbn [vx vy]. apply vec2_eq; cbn [vx vy]; ring.
    + exists (V2 (s * vx c) (s * vy c)), (- s * r), (a + PI). unfold is_arc, circle_pt. cbn [vx vy].
      replace (a + PI + sweep (pbulge v1)) with (a + sweep (pbulge v1) + PI) by ring.
      replace (a + PI + t * sweep (pbulge v1)) with (a + t * sweep (pbulge v1) + PI) by ring.
      rewrite !neg_cos, !neg_sin. repeat split.
      * apply Rmult_le_pos; lra.
      * rewrite X1, Y1. apply vec2_eq; cbn [vx vy]; ring.
      * rewrite X2, Y2. apply vec2_eq; cbn [vx vy]; ring.
      * apply vec2_eq; cbn [vx vy]; ring.
Qed.

Lemma translate_seg_fwd x y v1 v2 t q : seg_at v1 v2 t q ->
  seg_at (Vtx (px v1 + x) (py v1 + y) (pbulge v1)) (Vtx (px v2 + x) (py v2 + y) (pbulge v2)) t
         (V2 (vx q + x) (vy q + y)).
Proof.
  intros [[E ->]|[E (c & r & a & (Hr & P1 & P2) & ->)]].
  - left. split; [exact E|]. unfold line_pt, pos. cbn [vx vy px py]. apply vec2_eq; cbn [vx vy]; ring.
  - right. split; [exact E|]. cbn [pbulge]. unfold pos in *. cbn [px py].
    injection P1 as X1 Y1. injection P2 as X2 Y2.
    exists (V2 (vx c + x) (vy c + y)), r, a. repeat split; [exact Hr| | |];
      unfold circle_pt; cbn [vx vy]; rewrite ?X1, ?Y1, ?X2, ?Y2; apply vec2_eq; cbn [vx vy]; ring.
Qed.

Lemma scale_seg s v1 v2 t q' :
  seg_at (Vtx (s * px v1) (s * py v1) (pbulge v1)) (Vtx (s * px v2) (s * py v2) (pbulge v2)) t q'
  <-> exists q, seg_at v1 v2 t q /\ q' = V2 (s * vx q) (s * vy q).
Proof.
  split; [|intros (q & H & ->); now apply scale_seg_fwd]. intros H.
  destruct (Req_dec s 0) as [->|Hs].
  - destruct (seg_at_exists_any v1 v2 t) as [q Hq]. exists q. split; [exact Hq|].
    rewrite !Rmult_0_l in *. destruct H as [[E ->]|[E (c & r & a & (Hr & P1 & P2) & ->)]].
    + unfold line_pt, pos. cbn [vx vy px py]. apply vec2_eq; cbn [vx vy]; ring.
    + cbn [pbulge] in *.
      assert (R0 : r = 0).
      { destruct Hr as [Hr|Hr]; [|lra]. exfalso.
        apply (arc_pts_distinct _ _ _ _ _ _ Hr E (conj (Rlt_le _ _ Hr) (conj P1 P2))). reflexivity. }
      subst r. unfold pos, circle_pt in *. cbn [vx vy px py] in *. injection P1 as X1 Y1.
      apply vec2_eq; cbn [vx vy]; lra.
  - exists (V2 (/ s * vx q') (/ s * vy q')). split.
    + apply (scale_seg_fwd (/ s)) in H. cbn [px py pbulge] in H.
      destruct v1 as [x1 y1 b1], v2 as [x2 y2 b2]. cbn [px py pbulge] in *.
      rewrite <- !Rmult_assoc, !Rinv_l, !Rmult_1_l in H by assumption. exact H.
    + cbn [vx vy]. apply vec2_eq; cbn [vx vy]; field; assumption.
Qed.

Lemma translate_seg x y v1 v2 t q' :
  seg_at (Vtx (px v1 + x) (py v1 + y) (pbulge v1)) (Vtx (px v2 + x) (py v2 + y) (pbulge v2)) t q'
  <-> exists q, seg_at v1 v2 t q /\ q' = V2 (vx q + x) (vy q + y).
Proof.
  split; [|intros (q & H & ->); now apply translate_seg_fwd]. intros H.
  exists (V2 (vx q' + - x) (vy q' + - y)). split.
  - apply (translate_seg_fwd (- x) (- y)) in H. cbn [px py pbulge] in H.
    destruct v1 as [x1 y1 b1], v2 as [x2 y2 b2]. cbn [px py pbulge] in *.
    replace (x1 + x + - x) with x1 in H by ring. replace (y1 + y + - y) with y1 in H by ring.
    replace (x2 + x + - x) with x2 in H by ring. replace (y2 + y + - y) with y2 in H by ring. exact H.
  - cbn [vx vy]. apply vec2_eq; cbn [vx vy]; ring.
Qed.

Lemma Forall2_map_r {A} (P : A -> A -> Prop) (f : A -> A) l : (forall a, P a (f a)) -> Forall2 P l (map f l).
Proof. intros H. induction l; constructor; auto. Qed.

Lemma path_images p s x y :
  (exists p', scale_mut p s = Ret p' /\ path_image (fun q => V2 (s * vx q) (s * vy q)) p p')
  /\ (exists p', translate_mut p x y = Ret p' /\ path_image (fun q => V2 (vx q + x) (vy q + y)) p p').
Proof.
  split.
  - eexists. split; [apply scale_mut_spec|]. unfold path_image. cbn [vtx is_closed].
    rewrite spec_segs_map. apply Forall2_map_r. intros [v1 v2] t q'. cbn [fst snd]. rnum. apply scale_seg.
  - eexists. split; [apply translate_mut_spec|]. unfold path_image. cbn [vtx is_closed].
    rewrite spec_segs_map. apply Forall2_map_r. intros [v1 v2] t q'. cbn [fst snd]. rnum. apply translate_seg.
Qed.
