(** The offset of a single line (C55). *)
From Coq Require Import Reals ZArith Bool List Arith Lra Lia Psatz Permutation Sorted.
From Verif Require Import Num RNum Res ModelMath ModelIntr ModelSeg ModelPline ModelView ModelSegIntr ModelIndex ModelIntersects ModelBoolean ModelOffset.
From Verif Require Import Spec SpecPline SpecGeom SpecIntr SpecBox SpecOffset SpecOffsetJoin SpecView SpecStitch SpecIndex SpecIntersects SpecShape SpecChain SpecCuts SpecRawNear SpecOffNear SpecClosest.
From Verif Require Import ProofR ProofBase ProofIter ProofIntr ProofArc ProofView ProofSlice ProofSlice2 ProofRepeat ProofSegIntr ProofSegIntr2 ProofOffsetJoin2 ProofClosest2 ProofRegion4 ProofRegion7 ProofOffsetJoin4 ProofChain2 ProofCuts ProofCuts3 ProofShape3 ProofOffNear ProofOffNear2 ProofOffNear3 ProofOffNear4.
Import ListNotations.
Local Open Scope R_scope.

Lemma line_line_parallel v1 v2 u1 u2 eps : 0 < eps -> cross (vec v1 v2) (vec u1 u2) = 0 -> eps <= Rabs (cross (vec v1 v2) (vec u1 v1)) ->
  line_line_intr v1 v2 u1 u2 eps = LLNoIntersect.
Proof.
  intros He H0 H1. unfold line_line_intr. cbv zeta. unfold v2perp_dot, v2sub, fuzzy_eq_zero_eps, cross, vec in *. rnum. cbn [vx vy] in *.
  rewrite H0, Rabs_R0. rewrite (proj2 (rltb_true 0 eps) He). cbn [negb]. rewrite (proj2 (rltb_false (Rabs ((vx v2 - vx v1) * (vy v1 - vy u1) - (vy v2 - vy v1) * (vx v1 - vx u1))) eps) H1). reflexivity.
Qed.

Section Line.
Context (v1 v2 : vertex R) (n : vec2 R) (d : R) (o : offset_options R).
Let eps := oo_pos_equal_eps o.
Let p := PL [v1; v2] false.
Hypothesis He : 0 < eps.
Hypothesis Hz : pbulge v1 = 0.
Hypothesis Hp : ~ is_point (pos v1) (pos v2) eps.
Hypothesis Hc : clear_direction (pos v1) (pos v2).
Hypothesis Hn : left_normal (pos v1) (pos v2) n.
Hypothesis Hd : d <> 0.
Hypothesis Hl : eps <= Rabs d * dist (pos v1) (pos v2).
Hypothesis Ho : 0 < oo_offset_dist_eps o < 2 * Rabs d.

Let w1 := vertex_at (moved (pos v1) n d) 0.
Let w2 := vertex_at (moved (pos v2) n d) 0.
Let raw := PL [w1; w2] false.

Lemma v_neq : pos v1 <> pos v2.
Proof. intros E. apply Hp. rewrite E. unfold is_point. rewrite !Rminus_diag_eq, Rabs_R0 by reflexivity. auto. Qed.

Lemma w1_pos : pos w1 = moved (pos v1) n d. Proof. reflexivity. Qed.
Lemma w2_pos : pos w2 = moved (pos v2) n d. Proof. reflexivity. Qed.

Lemma raw_line k : create_raw_offset_polyline p k eps = Ret (PL [vertex_at (moved (pos v1) n k) 0; vertex_at (moved (pos v2) n k) 0] false).
Proof.
  unfold create_raw_offset_polyline. cbn [vertex_count vtx p length Nat.ltb Nat.leb].
  unfold create_untrimmed_raw_offset_segs. rewrite iter_segments_spec. cbn [p vtx is_closed spec_segs combine tl app rbind map fst snd].
  rewrite (is_zero_line v1 Hz), (raw_line_val k v1 v2 n v_neq Hn). cbn [rs_collapsed_arc windows2 firstn skipn rfold rbind last andb rs_v1 rs_v2].
  assert (NF : v2fuzzy_eq_eps (pos (vertex_at (moved (pos v1) n k) 0)) (pos (vertex_at (moved (pos v2) n k) 0)) eps = false).
  { apply not_true_is_false. intros F. apply v2fuzzy_R in F. cbn [vertex_at moved pos px py vx vy] in F. apply Hp. unfold is_point. rewrite (Rabs_minus_sym (vx (pos v2))), (Rabs_minus_sym (vy (pos v2))).
    cbn [pos vx vy]. replace (px v1 - px v2) with (px v1 + k * vx n - (px v2 + k * vx n)) by ring. replace (py v1 - py v2) with (py v1 + k * vy n - (py v2 + k * vy n)) by ring. exact F. }
  cbn [create_raw_offset_polyline]. unfold add_or_replace_vertex. cbn [vtx is_closed rev app]. rewrite NF. reflexivity.
Qed.

Lemma cross_n : cross (vec (pos v1) (pos v2)) n = dist (pos v1) (pos v2).
Proof.
  destruct Hn as (N1 & N2 & N3). symmetry. apply ProofIntr.dist_eq_sqr; [lra|].
  assert (E : cross (vec (pos v1) (pos v2)) n * cross (vec (pos v1) (pos v2)) n
    = (vx (vec (pos v1) (pos v2)) * vx (vec (pos v1) (pos v2)) + vy (vec (pos v1) (pos v2)) * vy (vec (pos v1) (pos v2))) * (vx n * vx n + vy n * vy n)
      - (vx (vec (pos v1) (pos v2)) * vx n + vy (vec (pos v1) (pos v2)) * vy n) * (vx (vec (pos v1) (pos v2)) * vx n + vy (vec (pos v1) (pos v2)) * vy n)) by (unfold cross; ring).
  rewrite E, N1, N2. unfold vec. cbn [vx vy]. ring.
Qed.

Lemma moved_dist s t : dist (line_pt (pos v1) (pos v2) s) (line_pt (pos w1) (pos w2) t) * dist (line_pt (pos v1) (pos v2) s) (line_pt (pos w1) (pos w2) t)
  = (t - s) * (t - s) * (dist (pos v1) (pos v2) * dist (pos v1) (pos v2)) + d * d.
Proof.
  rewrite !dist_sqr. destruct Hn as (N1 & N2 & _). unfold vec in N2. cbn [vx vy] in N2. rewrite w1_pos, w2_pos. unfold line_pt, moved. cbn [vx vy].
  set (ax := vx (pos v1)) in *. set (ay := vy (pos v1)) in *. set (bx := vx (pos v2)) in *. set (by_ := vy (pos v2)) in *.
  transitivity ((t - s) * (t - s) * ((ax - bx) * (ax - bx) + (ay - by_) * (ay - by_)) + d * d * (vx n * vx n + vy n * vy n) + 2 * (t - s) * d * ((bx - ax) * vx n + (by_ - ay) * vy n)); [ring|].
  rewrite N1, N2. ring.
Qed.

Lemma len_pos : 0 < dist (pos v1) (pos v2).
Proof. rewrite <- cross_n. apply Hn. Qed.

Lemma moved_far s t : Rabs d <= dist (line_pt (pos v1) (pos v2) s) (line_pt (pos w1) (pos w2) t).
Proof.
  apply Rsqr_incr_0_var; [|apply dist_pos]. rewrite <- Rsqr_abs. unfold Rsqr. rewrite moved_dist.
  pose proof len_pos. pose proof (Rle_0_sqr (t - s)) as A. unfold Rsqr in A. assert (0 <= (t - s) * (t - s) * (dist (pos v1) (pos v2) * dist (pos v1) (pos v2))) by (apply Rmult_le_pos; nra). lra.
Qed.

Lemma moved_at s t : dist (line_pt (pos w1) (pos w2) t) (line_pt (pos v1) (pos v2) s) <= Rabs d -> t = s.
Proof.
  intros H. rewrite dist_sym in H. pose proof (dist_pos (line_pt (pos v1) (pos v2) s) (line_pt (pos w1) (pos w2) t)).
  assert (E : dist (line_pt (pos v1) (pos v2) s) (line_pt (pos w1) (pos w2) t) * dist (line_pt (pos v1) (pos v2) s) (line_pt (pos w1) (pos w2) t) <= Rabs d * Rabs d) by (apply Rmult_le_compat; lra).
  rewrite moved_dist in E. replace (Rabs d * Rabs d) with (d * d) in E by (unfold Rabs; destruct (Rcase_abs d); ring).
  pose proof len_pos as L. pose proof (Rle_0_sqr (t - s)) as A. unfold Rsqr in A.
  assert (0 < dist (pos v1) (pos v2) * dist (pos v1) (pos v2)) by nra.
  assert ((t - s) * (t - s) = 0) by nra. assert (t - s = 0) by (apply Rsqr_0_uniq; exact H2). lra.
Qed.

Lemma moved_touch s : dist (line_pt (pos w1) (pos w2) s) (line_pt (pos v1) (pos v2) s) = Rabs d.
Proof.
  rewrite dist_sym. apply ProofIntr.dist_eq_sqr; [apply Rabs_pos|]. pose proof (moved_dist s s) as E. rewrite dist_sqr in E. rewrite E.
  replace (Rabs d * Rabs d) with (d * d) by (unfold Rabs; destruct (Rcase_abs d); ring). ring.
Qed.

Lemma circle_touch s : line_circle_intr (pos w1) (pos w2) (Rabs d) (line_pt (pos v1) (pos v2) s) eps = LCTangentIntersect s.
Proof.
  assert (Hp' : ~ is_point (pos w1) (pos w2) eps).
  { intros H. apply Hp. unfold is_point in *. rewrite w1_pos, w2_pos in H. unfold moved in H. cbn [vx vy] in H.
    replace (vx (pos v2) + d * vx n - (vx (pos v1) + d * vx n)) with (vx (pos v2) - vx (pos v1)) in H by ring.
    replace (vy (pos v2) + d * vy n - (vy (pos v1) + d * vy n)) with (vy (pos v2) - vy (pos v1)) in H by ring. exact H. }
  assert (Hc' : clear_direction (pos w1) (pos w2)).
  { unfold clear_direction in *. rewrite w1_pos, w2_pos. unfold moved. cbn [vx]. replace (vx (pos v2) + d * vx n - (vx (pos v1) + d * vx n)) with (vx (pos v2) - vx (pos v1)) by ring. exact Hc. }
  pose proof (line_circle_main (pos w1) (pos w2) (Rabs d) (line_pt (pos v1) (pos v2) s) eps He Hp' Hc') as LC. pose proof (moved_touch s) as MT.
  destruct (line_circle_intr _ _ _ _ _) as [|t|t0 t1].
  - destruct LC as (k & L & M). specialize (M s). lra.
  - destruct LC as (M & _). f_equal. apply moved_at. rewrite <- MT. apply M.
  - exfalso. destruct LC as (_ & _ & LC). destruct LC as (L & A & B & _); [exists s; lra|].
    apply Req_le in A, B. apply moved_at in A, B. lra.
Qed.

Lemma touch_first : circle_points (pos v1) (Rabs d) eps w1 w2 = [].
Proof.
  unfold circle_points. rewrite (is_zero_line w1 eq_refl). replace (pos v1) with (line_pt (pos v1) (pos v2) 0) at 1 by (unfold line_pt; apply vec2_eq; cbn [vx vy]; ring).
  rewrite circle_touch. cbn [filter]. rnum. rewrite Rabs_R0. rewrite (proj2 (rltb_false eps 0)) by lra. rewrite !andb_false_r. reflexivity.
Qed.

Lemma touch_last : circle_points (pos v2) (Rabs d) eps w1 w2 = [pos w2] \/ circle_points (pos v2) (Rabs d) eps w1 w2 = [].
Proof.
  unfold circle_points. rewrite (is_zero_line w1 eq_refl). pose proof (circle_touch 1) as CT.
  replace (line_pt (pos v1) (pos v2) 1) with (pos v2) in CT by (unfold line_pt; apply vec2_eq; cbn [vx vy]; ring). rewrite CT. cbn [filter]. destruct (_ && _); [left|right]; [|reflexivity]. cbn [map]. f_equal. rewrite from_parametric_R. unfold line_pt. apply vec2_eq; cbn [vx vy]; ring.
Qed.

Lemma parallel k : k <> d -> eps <= Rabs (d - k) * dist (pos v1) (pos v2) -> forall u1 u2, pos u1 = moved (pos v1) n k -> pos u2 = moved (pos v2) n k -> pbulge u1 = 0 ->
  pline_seg_intr w1 w2 u1 u2 eps = SINoIntersect.
Proof.
  intros Hk HL u1 u2 E1 E2 E3. unfold pline_seg_intr. rewrite (is_zero_line w1 eq_refl), (is_zero_line u1 E3). cbn [andb]. rewrite line_line_parallel; [reflexivity|exact He| |].
  - rewrite E1, E2, w1_pos, w2_pos. unfold cross, vec, moved. cbn [vx vy]. ring.
  - rewrite E1, w1_pos, w2_pos. replace (cross _ _) with ((d - k) * cross (vec (pos v1) (pos v2)) n) by (unfold cross, vec, moved; cbn [vx vy]; ring).
    rewrite cross_n, Rabs_mult, (Rabs_right (dist _ _)); [exact HL|]. pose proof len_pos. lra.
Qed.

Lemma line_cuts cuts : offset_cuts p d o raw cuts -> cuts = [] \/ cuts = [(0%nat, pos w2)].
Proof.
  unfold offset_cuts. cbn [p is_closed andb]. fold eps p. intros (dual & pairs & cross & ends & ED & PO & CO & HE & ->).
  change (nneg d) with (- d) in ED. rewrite raw_line in ED. injection ED as <-.
  destruct HE as (a & b & h1 & h2 & Ea & Eb & H1 & H2 & ->). cbn in Ea, Eb. injection Ea as <-. injection Eb as <-.
  assert (C1 : forall h, circle_cuts raw (pos v1) (Rabs d) eps h = []).
  { intros h. unfold circle_cuts. induction h as [|i h IH]; [reflexivity|]. cbn [flat_map]. rewrite IH, app_nil_r.
    destruct i as [|i]; [cbn; now rewrite touch_first|]. cbn. destruct i; reflexivity. }
  assert (C2 : circle_cuts raw (pos v2) (Rabs d) eps h2 = [] \/ circle_cuts raw (pos v2) (Rabs d) eps h2 = [(0%nat, pos w2)]).
  { assert (L : forall i, In i h2 -> i = 0%nat).
    { intros i Hi. apply H2 in Hi as (bx & Eb & _). cbn in Eb. destruct i as [|[|i]]; [reflexivity|discriminate Eb|discriminate Eb]. }
    destruct H2 as (ND & _). destruct h2 as [|i [|j h]].
    - left. reflexivity.
    - rewrite (L i (or_introl eq_refl)). unfold circle_cuts. cbn [flat_map raw vtx is_closed spec_segs combine tl app nth_error]. destruct touch_last as [-> | ->]; [right|left]; reflexivity.
    - exfalso. inversion ND as [|x y N1 N2]. apply N1. left. rewrite (L i), (L j); auto; [right; left; reflexivity|left; reflexivity]. }
  assert (SC : self_cuts raw eps pairs = []).
  { destruct PO as (PO & _). assert (E : pairs = []).
    { destruct pairs as [|(i, j) t]; [reflexivity|exfalso]. destruct (PO i j (or_introl eq_refl)) as (A & B & (C & _) & _). cbn in A, B. lia. }
    subst pairs. unfold self_cuts, local_events. cbn. reflexivity. }
  assert (DC : dual_cuts raw (PL [vertex_at (moved (pos v1) n (- d)) 0; vertex_at (moved (pos v2) n (- d)) 0] false) eps cross = []).
  { assert (E : flat_map (cross_pair raw (PL [vertex_at (moved (pos v1) n (- d)) 0; vertex_at (moved (pos v2) n (- d)) 0] false) eps) cross = []).
    { clear CO. induction cross as [|(i, j) t IH]; [reflexivity|]. cbn [flat_map]. rewrite IH, app_nil_r. unfold cross_pair. cbn [raw vtx is_closed spec_segs combine tl app].
      destruct i as [|i]; [|destruct i; reflexivity]. destruct j as [|j]; [|destruct j; reflexivity]. cbn [nth_error].
      rewrite (parallel (- d)); try reflexivity.
      - lra.
      - replace (d - - d) with (2 * d) by ring. rewrite Rabs_mult, (Rabs_right 2) by lra. pose proof len_pos. pose proof (Rabs_pos d). nra. }
    unfold dual_cuts. rewrite E. reflexivity. }
  change (nabs d) with (Rabs d). rewrite C1, SC, DC. cbn [app]. rewrite app_nil_r. exact C2.
Qed.

(** ** Clean cuts *)
Lemma w_apart g : apart g (pos v1) (pos v2) -> apart g (pos w1) (pos w2).
Proof.
  unfold apart. rewrite w1_pos, w2_pos. unfold moved. cbn [vx vy].
  replace (vx (pos v1) + d * vx n - (vx (pos v2) + d * vx n)) with (vx (pos v1) - vx (pos v2)) by ring.
  replace (vy (pos v1) + d * vy n - (vy (pos v2) + d * vy n)) with (vy (pos v1) - vy (pos v2)) by ring. auto.
Qed.

Lemma w_ok : seg_ok w1 w2.
Proof. split; [left; reflexivity|]. intros H. exfalso. apply H. reflexivity. Qed.

Lemma line_clear g : apart g (pos v1) (pos v2) -> clear_pline g raw.
Proof.
  intros A x y I. cbn in I. destruct I as [I|[]]. injection I as <- <-. split; [exact w_ok|]. exact (w_apart g A).
Qed.

Lemma line_crisp g v : apart g (pos v1) (pos v2) -> v = w1 \/ v = w2 -> crisp_vertexes g raw (pos v).
Proof.
  intros A H x I. cbn in I. apply w_apart in A. destruct I as [<-|[<-|[]]], H as [-> | ->]; try (left; reflexivity); right; [exact A|].
  destruct A as [A|A]; [left|right]; rewrite Rabs_minus_sym; exact A.
Qed.

Lemma line_clean g : apart g (pos v1) (pos v2) -> clean_offset g p d o raw.
Proof.
  intros A. split; [now apply line_clear|]. intros cuts OC. pose proof (line_cuts cuts OC) as LC.
  assert (IN : forall i q, In (i, q) cuts -> i = 0%nat /\ q = pos w2).
  { intros i q I. destruct LC as [-> | ->]; [destruct I|]. destruct I as [I|[]]. injection I as <- <-. auto. }
  split; [|split].
  - intros i q I. destruct (IN i q I) as (-> & ->). split; [apply line_crisp; auto|]. exists 1. split; [|lra].
    exists w1, w2. split; [reflexivity|]. split; [lra|]. apply seg_at_1. exact w_ok.
  - intros (i, q) (j, q') I J. destruct (IN i q I) as (_ & ->), (IN j q' J) as (_ & ->). left. reflexivity.
  - intros _ v [H|H]; cbn in H; injection H as <-; apply line_crisp; auto.
Qed.

(** ** The result *)
Lemma whole_val d0 : view_from_entire_pline raw = Ret d0 -> view_path_of raw d0 = [w1; w2].
Proof. unfold view_from_entire_pline. cbn. intros E. injection E as <-. reflexivity. Qed.

Lemma eps_apart : apart eps (pos v1) (pos v2).
Proof.
  unfold apart. destruct (Rle_lt_dec eps (Rabs (vx (pos v1) - vx (pos v2)))) as [|L1]; [left; assumption|]. destruct (Rle_lt_dec eps (Rabs (vy (pos v1) - vy (pos v2)))) as [|L2]; [right; assumption|].
  exfalso. apply Hp. split; rewrite Rabs_minus_sym; assumption.
Qed.

Lemma cut_val d0 : view_from_slice_points raw (pos w1) 0 (pos w2) 0 eps = Ret (Some d0) -> view_path_of raw d0 = [w1; w2].
Proof.
  intros EV. pose proof eps_apart as A.
  destruct (slice_main raw eps 0 0 (pos w1) 0 1 (pos w2) He (line_clear eps A)) as (_ & B).
  - exists w1, w2. split; [reflexivity|]. split; [lra|]. apply seg_at_0, w_ok.
  - left. exists w1, w2. split; [reflexivity|]. split; [lra|]. apply seg_at_1, w_ok.
  - apply line_crisp; auto.
  - apply line_crisp; auto.
  - right. exact (w_apart eps A).
  - intros _. right. split; [reflexivity|lra].
  - intros _ _ a Ea. cbn in Ea. injection Ea as <-. left. reflexivity.
  - destruct B as (d' & E & (F1 & F2 & F3 & F4 & l & first & last & EL & FP & HF & PF & HL & PL)).
    { intros [(_ & E & _)|(E & _)]; lra. }
    rewrite EV in E. injection E as <-.
    destruct (view_forward_spec d0 raw F1 F2 F3) as (_ & EL' & LL). rewrite EL in EL'. injection EL' as ->. change (fwd_list d0 raw) with (view_path_of raw d0) in *.
    unfold slice_pieces in FP. cbv zeta in FP. rewrite Nat.eqb_refl in FP. destruct (Rlt_dec 0 1) as [_|N]; [|lra].
    assert (LS : length (spec_segs (view_path_of raw d0) false) = 1%nat) by (rewrite <- (forall2_len _ _ _ FP); reflexivity).
    rewrite spec_segs_length, LL in LS. replace (vd_end_index_offset d0 + 2 <? 2)%nat with false in LS by (symmetry; apply Nat.ltb_ge; lia).
    assert (OFF : vd_end_index_offset d0 = 0%nat) by lia. rewrite OFF in *. cbn [Nat.add] in HL, LL.
    assert (EP : view_path_of raw d0 = [vd_updated_start d0; Vtx (vx (vd_end_point d0)) (vy (vd_end_point d0)) 0]).
    { unfold view_path_of, spec_view, spec_following. rewrite OFF. cbn [firstn rebulge_last app]. reflexivity. }
    rewrite EP in *. cbn in HF, HL. injection HF as <-. injection HL as <-. rewrite from_pos in PL.
    cbn [spec_segs combine tl app] in FP. inversion FP as [|? ? ? ? IP _]. subst. destruct IP as (a & b & Ea & Eb & P). cbn in Ea, Eb. injection Ea as <-. injection Eb as <-. cbn [fst snd] in P.
    assert (NW : pos w1 <> pos w2). { intros E. destruct (w_apart eps A) as [X|X]; rewrite E, Rminus_diag_eq, Rabs_R0 in X by reflexivity; lra. }
    destruct (piece_facts w1 w2 0 1 _ _ w_ok NW (Rle_refl 0) ltac:(lra) (Rle_refl 1) P) as (_ & [Z|(Z & _)]); [|exfalso; apply Z; reflexivity].
    f_equal; [|f_equal].
    + destruct (vd_updated_start d0) as [x y b]. cbn in Z, PF. unfold w1, vertex_at. unfold pos in PF. cbn in PF. injection PF as -> ->. rewrite Z. reflexivity.
    + rewrite PL. reflexivity.
Qed.

Lemma cut_none : view_from_slice_points raw (pos w2) 0 (pos w2) 1 eps = Ret None.
Proof.
  pose proof eps_apart as A.
  destruct (slice_main raw eps 0 1 (pos w2) 1 0 (pos w2) He (line_clear eps A)) as (B & _).
  - exists w1, w2. split; [reflexivity|]. split; [lra|]. apply seg_at_1, w_ok.
  - right. split; [reflexivity|]. split; [reflexivity|]. split; [reflexivity|]. exists w2. auto.
  - apply line_crisp; auto.
  - apply line_crisp; auto.
  - left. reflexivity.
  - intros _. left. lia.
  - intros E. discriminate.
  - apply B. right. auto.
Qed.

Lemma clear_on t : clear_point p d o (line_pt (pos w1) (pos w2) t).
Proof.
  intros a b I _. cbn in I. destruct I as [I|[]]. injection I as <- <-. fold eps.
  assert (Ok : seg_ok v1 v2) by (split; [left; exact Hz|intros H; contradiction]).
  assert (ON : on_seg v1 v2 (seg_closest_point v1 v2 (line_pt (pos w1) (pos w2) t) eps)).
  { apply (proj1 (seg_closest v1 v2 _ eps Ok He)). unfold grazing. intros (G & _). contradiction. }
  destruct ON as (s & _ & Q). apply seg_at_line in Q; [|exact Hz]. rewrite Q. rnum. apply rltb_true.
  assert (DS : forall x y : vec2 R, dist_squared x y = dist x y * dist x y) by (intros x y; rewrite dist_sqr; unfold dist_squared, v2dot, v2sub; rnum; cbn [vx vy]; ring).
  rewrite DS. pose proof (moved_far s t) as F. pose proof (Rabs_pos d). nra.
Qed.

Lemma all_clear : clear_of p d o [w1; w2].
Proof.
  assert (E0 : line_pt (pos w1) (pos w2) 0 = pos w1) by (unfold line_pt; apply vec2_eq; cbn [vx vy]; ring).
  assert (E1 : line_pt (pos w1) (pos w2) 1 = pos w2) by (unfold line_pt; apply vec2_eq; cbn [vx vy]; ring).
  split; [|split].
  - intros w [<-|[<-|[]]]; [rewrite <- E0|rewrite <- E1]; apply clear_on.
  - intros a b I. cbn in I. destruct I as [I|[]]. injection I as <- <-. intros x y J _. cbn in J. destruct J as [J|[]]. injection J as <- <-. fold eps.
    assert (M : forall q, moved q n 0 = q) by (intros q; unfold moved; apply vec2_eq; cbn [vx vy]; ring).
    apply (parallel 0); auto. rewrite Rminus_0_r. exact Hl.
  - intros k a b _ E. destruct k as [|[|k]]; [|discriminate|discriminate]. cbn in E. injection E as <- <-.
    pose proof (seg_midpoint_spec w1 w2 w_ok) as Q. apply seg_at_line in Q; [|reflexivity]. rewrite Q. apply clear_on.
Qed.

Lemma line_offset mk idx : makes_index mk -> pline_index p idx -> parallel_offset mk p idx d o = Ret [raw].
Proof.
  intros MK IDX. destruct (offset_cut mk p idx d o MK IDX) as (raw' & ER & H); [cbn; lia|]. fold eps in ER. rewrite raw_line in ER. injection ER as <-. fold w1 w2 raw in H.
  destruct H as [(Z & _)|(_ & slices & last & chains & Ks & OS & EO & AC & PM)]; [discriminate Z|]. rewrite EO. f_equal.
  destruct (offset_slices_cuts _ _ _ _ _ OS) as (cuts & OC & CS). apply line_cuts in OC.
  assert (SL : exists d0, slices = [d0] /\ view_path_of raw d0 = [w1; w2]).
  { destruct OC as [-> | ->].
    - destruct CS as (C0 & _). destruct (C0 eq_refl) as (d0 & b & E & -> & HB). exists d0. split; [|now apply whole_val].
      replace b with true; [reflexivity|]. symmetry. apply HB. intros v EV. cbn in EV. injection EV as <-.
      assert (E0 : line_pt (pos w1) (pos w2) 0 = pos w1) by (unfold line_pt; apply vec2_eq; cbn [vx vy]; ring). rewrite <- E0. apply clear_on.
    - destruct CS as (_ & C1). destruct (C1 ltac:(discriminate)) as (order & vos & PO & _ & _ & F & K).
      apply Permutation_sym, Permutation_length_1_inv in PO. subst order. fold eps in F. cbn [stretches raw vtx hd_error rev app vertex_count length Nat.sub combine tl p is_closed] in F.
      inversion F as [|? vo1 ? ? V1 F1]. subst. inversion F1 as [|? vo2 ? ? V2 F2]. subst. inversion F2. subst. cbn [fst snd] in V1, V2.
      change (view_from_slice_points raw (pos w2) 0 (pos w2) 1 eps = Ret vo2) in V2. rewrite cut_none in V2. injection V2 as <-.
      change (view_from_slice_points raw (pos w1) 0 (pos w2) 0 eps = Ret vo1) in V1.
      assert (S1 : exists d0, vo1 = Some d0).
      { destruct vo1 as [d0|]; [exists d0; reflexivity|exfalso]. pose proof eps_apart as A.
        destruct (slice_main raw eps 0 0 (pos w1) 0 1 (pos w2) He (line_clear eps A)) as (_ & B).
        - exists w1, w2. split; [reflexivity|]. split; [lra|]. apply seg_at_0, w_ok.
        - left. exists w1, w2. split; [reflexivity|]. split; [lra|]. apply seg_at_1, w_ok.
        - apply line_crisp; auto.
        - apply line_crisp; auto.
        - right. exact (w_apart eps A).
        - intros _. right. split; [reflexivity|lra].
        - intros _ _ a Ea. cbn in Ea. injection Ea as <-. left. reflexivity.
        - destruct B as (d' & E & _); [|congruence]. intros [(_ & E & _)|(E & _)]; lra. }
      destruct S1 as (d0 & ->). pose proof (cut_val d0 V1) as EP. exists d0. split; [|exact EP].
      inversion K as [|?|? ? ? T1 K1|? ? ? T1 K1]; subst.
      + inversion K1 as [|? ? K2| |]; subst. inversion K2. reflexivity.
      + exfalso. destruct T1 as (_ & T1). rewrite EP in T1. discriminate (T1 all_clear). }
  destruct SL as (d0 & -> & EP). cbn [length seq] in PM.
  assert (KS : Ks = [[w1; w2]]).
  { destruct AC as [|chains' Ks' first c cur K AC NU EA CH CA].
    - cbn [concat] in PM. apply Permutation_nil in PM. discriminate.
    - rewrite concat_app in PM. cbn [concat] in PM. rewrite app_nil_r in PM. apply Permutation_sym, Permutation_length_1_inv in PM.
      assert (CC : concat chains' = [] /\ c = [] /\ cur = 0%nat).
      { destruct (concat chains') as [|x t]; cbn in PM.
        - destruct c as [|y c]; cbn in PM; [injection PM as ->; auto|]. injection PM as _ PM. destruct c; discriminate.
        - injection PM as _ PM. destruct t, c; discriminate. }
      destruct CC as (C0 & -> & ->).
      assert (KE : Ks' = []).
      { destruct AC as [|? ? ? ? ? ? ? ? ? ? ?]; [reflexivity|]. rewrite concat_app in C0. cbn [concat] in C0. apply app_eq_nil in C0 as (_ & C0). rewrite app_nil_r in C0. destruct c; discriminate. }
      subst Ks'. cbn [app]. f_equal. cbn [app] in CH. inversion CH as [l rs P R E1 E2|c' cur' K' v avail b l rs S CA' CH' P R E1 E2].
      + subst. destruct P as (d1 & Ed & ->). cbn in Ed. injection Ed as <-. rewrite EP in R.
        apply (runs_single (close_by eps)); [|exact R]. apply all_pairs_no_repeat. intros (x, y) I. cbn in I. destruct I as [I|[]]. injection I as <- <-. cbn [fst snd].
        apply apart_not_close. exact (w_apart eps eps_apart).
      + exfalso. destruct c'; [|destruct c']; discriminate. }
  rewrite KS. reflexivity.
Qed.
End Line.
