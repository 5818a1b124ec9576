(** The distance test for offset slices (C34). *)
From Coq Require Import Reals ZArith Bool List Arith Lra Lia Psatz.
From Verif Require Import Num RNum Res ModelMath ModelIntr ModelSeg ModelPline ModelView ModelSegIntr ModelIndex ModelIntersects ModelBoolean ModelOffset.
From Verif Require Import Spec SpecGeom SpecIntr SpecBox SpecClosest SpecView SpecIndex SpecOffset2.
From Verif Require Import ProofR ProofBase ProofIter ProofArc ProofArc2 ProofSlice ProofIntr ProofMeasure ProofView ProofBox ProofBox2 ProofClosest ProofClosest2 ProofIndex2 ProofOffset2.
Import ListNotations.
Local Open Scope R_scope.

Lemma overlaps_R a q : aabb_overlaps a q = true <->
  bmin_x a <= bmax_x q /\ bmin_y a <= bmax_y q /\ bmin_x q <= bmax_x a /\ bmin_y q <= bmax_y a.
Proof.
  unfold aabb_overlaps. rnum. rewrite !andb_true_iff, !negb_true_iff.
  destruct (rltb_spec (bmax_x q) (bmin_x a)), (rltb_spec (bmax_y q) (bmin_y a)),
    (rltb_spec (bmax_x a) (bmin_x q)), (rltb_spec (bmax_y a) (bmin_y q)); split; intros; try (intuition lra); intuition (try discriminate; lra).
Qed.

Lemma box_far (pt q : vec2 R) D b : 0 <= D -> inside b 0 q -> aabb_overlaps b (aabb_grow (point_box pt) D) = false -> D < dist pt q.
Proof.
  intros HD HI HO. apply Rnot_le_lt. intros L. apply not_true_iff_false in HO. apply HO. apply overlaps_R.
  unfold aabb_grow, point_box. rnum. cbn [bmin_x bmin_y bmax_x bmax_y]. unfold inside in HI.
  assert (X : Rabs (vx pt - vx q) <= D /\ Rabs (vy pt - vy q) <= D).
  { split; (eapply Rle_trans; [|exact L]); unfold dist; rewrite <- sqrt_Rsqr_abs; apply sqrt_le_1_alt;
    pose proof (Rle_0_sqr (vx pt - vx q)); pose proof (Rle_0_sqr (vy pt - vy q)); unfold Rsqr in *; lra. }
  destruct X as [X Y]. unfold Rabs in X, Y. destruct (Rcase_abs (vx pt - vx q)), (Rcase_abs (vy pt - vy q)); lra.
Qed.

Lemma dist_sq_eq a b : dist_squared a b = dist a b * dist a b.
Proof. unfold dist_squared, dist, v2length_squared, v2dot, v2sub. rnum. rewrite sqrt_sqrt; [ring|].
  pose proof (Rle_0_sqr (vx a - vx b)); pose proof (Rle_0_sqr (vy a - vy b)); unfold Rsqr in *; lra. Qed.

(** ** Points *)
Section Point.
Context (p : pline R) (idx : sindex R) (offset tol eps : R) (pt : vec2 R).
Context (Hok : pline_ok p) (He : 0 < eps) (Hix : pline_index p idx).
Let D := Rabs offset - tol.
Context (HD : 0 <= D).

Lemma point_valid_spec : exists b, point_valid_for_offset p offset idx pt eps tol = Ret b
  /\ (b = true -> far_enough p pt D eps)
  /\ (b = false -> (forall v1 v2, In (v1, v2) (spec_segs (vtx p) (is_closed p)) -> ~ grazing v1 v2 pt eps) ->
        exists q, on_path p q /\ dist pt q <= D).
Proof.
  unfold point_valid_for_offset. rnum. fold D.
  set (Q := aabb_grow (point_box pt) D).
  set (g := fun i => match nth_error (spec_segs (vtx p) (is_closed p)) i with
                     | Some (v1, v2) => negb (rltb (D * D) (dist_squared (seg_closest_point v1 v2 pt eps) pt))
                     | None => false end).
  rewrite (rexists_spec _ g).
  2:{ intros i Hi. apply (pline_index_query p idx _ i Hix) in Hi as (v1 & v2 & E & _).
      destruct (seg_lookup p i v1 v2 E) as [-> ->]. cbn [rbind]. unfold g. rewrite E. reflexivity. }
  cbn [rbind]. eexists. split; [reflexivity|]. split.
  - intros V. apply negb_true_iff in V. intros q (v1 & v2 & Hin & Hq). pose proof (Hok v1 v2 Hin) as Hs.
    destruct (In_nth_error _ _ Hin) as [i Hi].
    assert (C : D < dist pt q \/ D < dist pt (seg_closest_point v1 v2 pt eps)).
    { destruct (aabb_overlaps (seg_fast_approx_bounding_box v1 v2) Q) eqn:O.
      - right. assert (IQ : In i (ix_query idx Q)) by (apply (pline_index_query p idx _ i Hix); eauto).
        destruct (g i) eqn:G.
        + exfalso. assert (existsb g (ix_query idx Q) = true) by (apply existsb_exists; eauto). congruence.
        + unfold g in G. rewrite Hi in G. apply negb_false_iff in G. apply rltb_true in G. rewrite dist_sq_eq, dist_sym in G.
          pose proof (dist_pos pt (seg_closest_point v1 v2 pt eps)). nra.
      - left. eapply box_far; [exact HD|apply (fast_box v1 v2 q Hs Hq)|exact O]. }
    destruct (seg_closest v1 v2 pt eps Hs He) as (_ & CF & CP). cbv zeta in CF, CP. specialize (CF q Hq). unfold not_much_further in CF.
    pose proof (dist_pos pt q) as DP. split.
    + destruct C as [C|C]; nra.
    + intros HP. destruct C as [C|C]; [exact C|]. specialize (CP (HP _ _ Hin) q Hq). lra.
  - intros V HG. apply negb_false_iff in V. apply existsb_exists in V as (i & Hi & G). unfold g in G.
    destruct (nth_error (spec_segs (vtx p) (is_closed p)) i) as [[v1 v2]|] eqn:E; [|discriminate].
    pose proof (nth_error_In _ _ E) as Hin. apply negb_true_iff in G.
    destruct (rltb_spec (D * D) (dist_squared (seg_closest_point v1 v2 pt eps) pt)) as [L|L]; [discriminate|].
    destruct (seg_closest v1 v2 pt eps (Hok v1 v2 Hin) He) as (CO & _). cbv zeta in CO.
    exists (seg_closest_point v1 v2 pt eps). split; [exists v1, v2; split; [exact Hin|apply CO, HG, Hin]|].
    rewrite dist_sq_eq, dist_sym in L. pose proof (dist_pos pt (seg_closest_point v1 v2 pt eps)). nra.
Qed.
End Point.

(** ** Slices *)
Lemma accepted_far p idx offset o pt : pline_ok p -> 0 < oo_pos_equal_eps o -> pline_index p idx ->
  0 <= Rabs offset - oo_offset_dist_eps o -> accepted p idx offset o pt ->
  far_enough p pt (Rabs offset - oo_offset_dist_eps o) (oo_pos_equal_eps o).
Proof.
  intros Hok He Hix HD HA. destruct (point_valid_spec p idx offset (oo_offset_dist_eps o) (oo_pos_equal_eps o) pt Hok He Hix HD) as (b & E & F & _).
  unfold accepted in HA. rewrite E in HA. injection HA as ->. now apply F.
Qed.

Lemma untouched_no_hit p idx o w1 w2 : pline_index p idx -> untouched p idx o w1 w2 -> no_hit p (oo_pos_equal_eps o) w1 w2.
Proof.
  intros Hix H u1 u2 Hin HB. unfold untouched, intersects_original in H.
  set (g := fun i => match nth_error (spec_segs (vtx p) (is_closed p)) i with
                     | Some (u1, u2) => match pline_seg_intr w1 w2 u1 u2 (oo_pos_equal_eps o) with SINoIntersect => false | _ => true end
                     | None => false end).
  rewrite (rexists_spec _ g) in H.
  2:{ intros i Hi. apply (pline_index_query p idx _ i Hix) in Hi as (a & b & E & _).
      destruct (seg_lookup p i a b E) as [-> ->]. cbn [rbind]. unfold g. rewrite E. reflexivity. }
  injection H as H. destruct (In_nth_error _ _ Hin) as [i Hi].
  destruct (g i) eqn:G.
  - exfalso. assert (X : existsb g (ix_query idx (aabb_grow (seg_fast_approx_bounding_box w1 w2) (1 / 100000000))) = true); [|rewrite H in X; discriminate].
    apply existsb_exists. exists i. split; [|exact G]. apply (pline_index_query p idx _ i Hix). exists u1, u2. split; [exact Hi|].
    apply overlaps_R. unfold aabb_grow. rnum. cbn [bmin_x bmin_y bmax_x bmax_y]. unfold boxes_touch in HB. lra.
  - unfold g in G. rewrite Hi in G. destruct (pline_seg_intr w1 w2 u1 u2 _); [reflexivity|discriminate..].
Qed.

Lemma kept_clear p raw idx offset o s : pline_ok p -> 0 < oo_pos_equal_eps o -> pline_index p idx ->
  0 <= Rabs offset - oo_offset_dist_eps o -> kept p raw idx offset o s ->
  clear_slice p raw (Rabs offset - oo_offset_dist_eps o) (oo_pos_equal_eps o) s.
Proof.
  intros Hok He Hix HD ((S1 & S2 & S3) & K). pose proof (fun pt => accepted_far p idx offset o pt Hok He Hix HD) as AF.
  exists (fwd_list s raw). destruct (view_forward_spec s raw S1 S2 S3) as (_ & HL & _).
  split; [unfold view_pline; rewrite HL; reflexivity|].
  destruct K as [(_ & T1 & T2 & T3)|(E & A)]; [left|right; split; [exact E|]; intros v Hv; now apply AF, A].
  split; [|split].
  - intros w Hw. now apply AF, T1.
  - intros k w1 w2 q Hk Hn Hs Hq. rewrite (seg_at_unique w1 w2 (1 / 2) q (seg_midpoint w1 w2) Hq (seg_midpoint_spec w1 w2 Hs) Hs).
    apply AF. eapply T3; eassumption.
  - intros w1 w2 Hin. apply (untouched_no_hit p idx); [exact Hix|now apply T2].
Qed.

Lemma all_slices_clear mk p raw idx offset o : pline_ok p -> 0 < oo_pos_equal_eps o -> pline_index p idx ->
  0 <= Rabs offset - oo_offset_dist_eps o ->
  (forall l s, slices_from_raw_offset mk p raw idx offset o = Ret l -> In s l ->
     clear_slice p raw (Rabs offset - oo_offset_dist_eps o) (oo_pos_equal_eps o) s)
  /\ (forall dual l s, slices_from_dual_raw_offsets mk p raw dual idx offset o = Ret l -> In s l ->
     clear_slice p raw (Rabs offset - oo_offset_dist_eps o) (oo_pos_equal_eps o) s).
Proof.
  intros Hok He Hix HD. split.
  - intros l s H Hs. apply (kept_clear p raw idx); auto. eapply raw_slices_kept; eassumption.
  - intros dual l s H Hs. apply (kept_clear p raw idx); auto. eapply dual_slices_kept; eassumption.
Qed.

(** A line of length 10 seen from two points, offset 1. *)
Definition ex_line : pline R := PL [Vtx 0 0 0; Vtx 10 0 0] false.
Definition ex_line_index : sindex R :=
  list_index (map (fun s => seg_fast_approx_bounding_box (fst s) (snd s)) (spec_segs (vtx ex_line) (is_closed ex_line))).

Lemma ex_line_valid :
  point_valid_for_offset ex_line 1 ex_line_index (V2 5 2) (1 / 100000) (1 / 10000) = Ret true
  /\ point_valid_for_offset ex_line 1 ex_line_index (V2 5 (1 / 2)) (1 / 100000) (1 / 10000) = Ret false.
Proof.
  assert (OK : pline_ok ex_line).
  { intros v1 v2 H. cbn in H. destruct H as [H|[]]. injection H as <- <-. split; [left; reflexivity|cbn; lra]. }
  assert (IX : pline_index ex_line ex_line_index) by apply list_index_ok.
  assert (A1 : Rabs 1 = 1) by (apply Rabs_pos_eq; lra).
  assert (HD : 0 <= Rabs 1 - 1 / 10000) by lra.
  assert (OP : forall q, on_path ex_line q -> vy q = 0).
  { intros q (v1 & v2 & Hin & t & _ & Hq). cbn in Hin. destruct Hin as [H|[]]. injection H as <- <-.
    destruct Hq as [[_ ->]|[Hq _]]; [unfold line_pt, pos; cbn; ring|cbn in Hq; lra]. }
  split.
  - destruct (point_valid_spec ex_line ex_line_index 1 (1 / 10000) (1 / 100000) (V2 5 2) OK ltac:(lra) IX HD) as ([] & E & _ & F); [exact E|].
    exfalso. destruct F as (q & Hq & Dq); [reflexivity| |].
    + intros v1 v2 H [G _]. cbn in H. destruct H as [H|[]]. injection H as <- <-. cbn in G. lra.
    + apply OP in Hq. rewrite A1 in Dq. assert (2 <= dist (V2 5 2) q); [|lra].
      unfold dist. cbn [vx vy]. rewrite Hq. rewrite <- (sqrt_square 2) at 1 by lra. apply sqrt_le_1_alt. pose proof (Rle_0_sqr (5 - vx q)); unfold Rsqr in *; lra.
  - destruct (point_valid_spec ex_line ex_line_index 1 (1 / 10000) (1 / 100000) (V2 5 (1 / 2)) OK ltac:(lra) IX HD) as ([] & E & F & _); [|exact E].
    exfalso. destruct (F eq_refl (V2 5 0)) as [G _].
    + exists (Vtx 0 0 0), (Vtx 10 0 0). split; [left; reflexivity|]. exists (1 / 2). split; [lra|]. left. split; [reflexivity|].
      unfold line_pt, pos. cbn. f_equal; field.
    + assert (EQ : dist (V2 5 (1 / 2)) (V2 5 0) = 1 / 2) by (apply sqrt_of_sqr; cbn; lra). rewrite EQ, A1 in G. lra.
Qed.
