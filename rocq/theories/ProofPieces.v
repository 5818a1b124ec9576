(** Offsets of shapes of polygons: the loops of the result and what they enclose (C79). *)
From Coq Require Import Reals ZArith Bool List Arith Lra Lia Psatz Classical.
From Verif Require Import Num RNum Res ModelMath ModelIntr ModelSeg ModelPline ModelView ModelSegIntr ModelIndex ModelIntersects ModelBoolean ModelOffset ModelShape.
From Verif Require Import Spec SpecPline SpecGeom SpecIntr SpecSegIntr SpecWinding SpecOffset SpecOffsetJoin SpecIndex SpecIntersects SpecCuts SpecBoolean SpecView SpecBox SpecPrune SpecPolyOff SpecJordan SpecConvex SpecRound SpecCurve SpecSimple SpecRegion SpecShape SpecRing SpecPieces.
From Verif Require Import ProofR ProofBase ProofArc ProofIndex2 ProofFind ProofShape ProofShape6 ProofRing ProofRing3 ProofOff6 ProofOff7 ProofOff9 ProofWinding6 ProofWinding7 ProofNest.
From Verif Require Import ProofClosest2.
From Verif Require ProofIntr ProofPolyOff ProofPolyOff2 ProofConvex ProofJordan2 ProofJordan5 ProofOffsetJoin2 ProofCurve1.
Import ListNotations.
Local Open Scope R_scope.

(** ** Paths that clearly miss each other *)

Lemma miss_pair eps p1 p2 ij : 0 < eps -> clear_pline eps p1 -> clear_pline eps p2 -> clearly_miss eps p1 p2 -> cross_pair p1 p2 eps ij = [].
Proof.
  intros He C1 C2 CM. destruct ij as (i, j). unfold cross_pair. destruct (nth_error (spec_segs (vtx p1) (is_closed p1)) i) as [(a, b)|] eqn:E1; [|reflexivity]. destruct (nth_error (spec_segs (vtx p2) (is_closed p2)) j) as [(c, e)|] eqn:E2; [|reflexivity].
  pose proof (proj1 (C1 _ _ (nth_error_In _ _ E1))) as Ok1. pose proof (proj1 (C2 _ _ (nth_error_In _ _ E2))) as Ok2.
  assert (Z : pline_seg_intr a b c e eps = SINoIntersect); [|rewrite Z; reflexivity].
  destruct (CM a b c e (nth_error_In _ _ E1) (nth_error_In _ _ E2)) as [(SC & No)|[T|T]].
  - destruct (ProofCurve1.sides_exact eps a b c e He Ok1 Ok2 SC) as (NO & RP & _).
    assert (Z : forall q, ~ reported (pline_seg_intr a b c e eps) q) by (intros q Rq; apply RP in Rq as (O1 & O2); exact (No q O1 O2)).
    destruct (pline_seg_intr a b c e eps) as [|q|q|q q'|q q'|q q']; [reflexivity| | | |destruct NO..]; exfalso; apply (Z q); cbn [reported]; auto.
  - pose proof T as (Z1 & Z2 & _). unfold pline_seg_intr. rewrite (ProofOffsetJoin2.is_zero_line a Z1), (ProofOffsetJoin2.is_zero_arc c e Ok2 Z2). cbn [andb]. now apply touch_none.
  - pose proof T as (Z1 & Z2 & _). unfold pline_seg_intr. rewrite (ProofOffsetJoin2.is_zero_line c Z1), (ProofOffsetJoin2.is_zero_arc a b Ok1 Z2). cbn [andb]. now apply touch_none.
Qed.

Lemma miss_found eps p1 p2 idx : 0 < eps -> clear_pline eps p1 -> clear_pline eps p2 -> clearly_miss eps p1 p2 -> pline_index p1 idx ->
  find_intersects p1 p2 idx eps = Ret ([], []).
Proof.
  intros He C1 C2 CM IX. destruct (find_intersects_pairs p1 p2 eps _ idx IX) as (pairs & _ & EF); [apply map_length|]. cbv zeta in EF. rewrite EF.
  assert (Z : flat_map (cross_pair p1 p2 eps) pairs = []); [|rewrite Z; reflexivity].
  clear EF. induction pairs as [|ij l IH]; [reflexivity|]. cbn [flat_map]. rewrite (miss_pair eps p1 p2 ij He C1 C2 CM). exact IH.
Qed.

(** A point far from a polygon passes the test. *)
Lemma far_valid p idx d tol eps pt : pline_ok p -> (forall v1 v2, In (v1, v2) (spec_segs (vtx p) (is_closed p)) -> pbulge v1 = 0) -> pline_index p idx -> 0 < eps -> 0 < tol < 2 * Rabs d ->
  (forall y, on_path p y -> Rabs d <= dist pt y) -> point_valid_for_offset p d idx pt eps tol = Ret true.
Proof.
  intros Ok Ln IX He Ht F. unfold point_valid_for_offset. rnum.
  set (D := Rabs d - tol) in *. set (Q := aabb_grow (point_box pt) D).
  rewrite (rexists_spec _ (fun _ => false)).
  - cbn [rbind]. do 2 f_equal. clear. induction (ix_query idx Q) as [|a l IH]; [reflexivity|exact IH].
  - intros i Hi. apply (pline_index_query p idx _ i IX) in Hi as (v1 & v2 & E & _). destruct (seg_lookup p i v1 v2 E) as [-> ->]. cbn [rbind]. f_equal.
    apply negb_false_iff. apply rltb_true. pose proof (nth_error_In _ _ E) as I.
    destruct (seg_closest v1 v2 pt eps (Ok _ _ I) He) as (ON & _). specialize (ON ltac:(intros (X & _); apply X; exact (Ln _ _ I))).
    assert (L : Rabs d <= dist pt (seg_closest_point v1 v2 pt eps)) by (apply F; exists v1, v2; split; assumption).
    rewrite ProofPolyOff2.dist_squared_dist, ProofJordan2.dist_sym. assert (A : Rabs D < Rabs d) by (apply Rabs_def1; unfold D; lra). pose proof (Rabs_pos D). replace (D * D) with (Rabs D * Rabs D) by (unfold Rabs; destruct (Rcase_abs D); ring). nra.
Qed.

(** From inside a loop to outside one passes the loop. *)
Lemma between p x y : pline_ok p -> inside p x <> inside p y -> exists z, on_path p z /\ dist x z <= dist x y.
Proof.
  intros Ok N. apply NNPP. intros H. apply N. assert (W : wn p x = wn p y).
  { apply wn_straight; [exact Ok|]. intros t Ht O. apply H. exists (line_pt x y t). split; [exact O|]. now apply dist_line. }
  unfold inside. rewrite !winding_wn, W. reflexivity.
Qed.

Lemma numbered_single {A B} (f : A -> B) l : numbered (map (fun a => [f a]) l) = combine (seq 0 (length l)) (map f l).
Proof.
  unfold numbered. rewrite map_length. generalize 0%nat. induction l as [|a l IH]; intros k; [reflexivity|]. cbn [map length seq combine flat_map fst snd app]. f_equal. apply IH.
Qed.

Lemma marked_all {A} (l : list A) fs : length fs = length l -> Forall (fun f => f = true) fs -> marked l fs = l.
Proof.
  revert fs. induction l as [|a l IH]; intros [|f fs] E F; try discriminate; [reflexivity|]. inversion F; subst. unfold marked. cbn [combine filter snd map fst]. f_equal. apply IH; [now injection E|assumption].
Qed.

Section Pieces.
Variables (mk : list (aabb R) -> sindex R) (s : shape R) (d : R) (o : shape_options R) (l1 l2 : list piece).
Local Notation eps := (so_pos_equal_eps o).
Local Notation l := (l1 ++ l2).
Local Notation inputs := (sh_ccw s ++ sh_cw s).
Hypothesis MK : makes_index mk.
Hypothesis OK : shape_ok s.
Hypothesis E1 : map ip_pline (sh_ccw s) = map edge l1.
Hypothesis E2 : map ip_pline (sh_cw s) = map edge l2.
Hypothesis He : 0 < eps.
Hypothesis Hj : 0 < so_slice_join_eps o.
Hypothesis Ht : 0 < so_offset_dist_eps o < 2 * Rabs d.
Hypothesis F1 : Forall (fits eps d 1) l1.
Hypothesis F2 : Forall (fits eps d (-1)) l2.
Hypothesis KC : keep_clear eps d l.

Let oo := OO eps (so_slice_join_eps o) (so_offset_dist_eps o) false.

Lemma pc_d : d <> 0. Proof. intros Z. rewrite Z, Rabs_R0 in Ht. lra. Qed.
Lemma pc_fits a : In a l -> exists k, (k = 1 \/ k = -1) /\ fits eps d k a.
Proof. intros I. rewrite Forall_forall in F1, F2. apply in_app_or in I as [I|I]; [exists 1|exists (-1)]; auto. Qed.
Lemma pc_keep a : In a l -> forall q y, on_path (moved_edge a) q -> on_path (edge a) y -> Rabs d <= dist q y.
Proof. intros I q y. now apply KC. Qed.
Lemma pc_clear a : In a l -> clear_pline eps (moved_edge a).
Proof. intros I. destruct (pc_fits a I) as (k & _ & _ & _ & _ & LP). apply LP. Qed.
Lemma pc_ok a : In a l -> pline_ok (moved_edge a).
Proof. intros I v1 v2 J. destruct (pc_fits a I) as (k & _ & _ & _ & _ & LP). exact (lp_ok _ eps He LP v1 v2 J). Qed.
Lemma pc_three a : In a l -> (3 <= vertex_count (moved_edge a))%nat.
Proof. intros I. destruct (pc_fits a I) as (k & _ & _ & _ & _ & LP). apply LP. Qed.

Lemma pc_sign k a : In a l -> k = 1 \/ k = -1 -> fits eps d k a -> exists A B, area (edge a) = Ret A /\ 0 < k * A /\ area (moved_edge a) = Ret B /\ 0 < k * B.
Proof.
  intros I Hk (Po & (A & EA & SA) & MC & LP). destruct (same_sense (pc_polygon a) d oo (pc_corners a) A He pc_d Po MC LP (pc_keep a I) EA) as (_ & B & EB & S).
  exists A, B. split; [exact EA|]. split; [exact SA|]. split; [exact EB|]. destruct Hk as [-> | ->]; nra.
Qed.

Lemma pc_negative a : In a l1 -> negative (moved_edge a) = false.
Proof.
  intros I. assert (J : In a l) by (apply in_or_app; now left). pose proof F1 as F. rewrite Forall_forall in F. destruct (pc_sign 1 a J (or_introl eq_refl) (F a I)) as (A & B & _ & _ & EB & SB).
  unfold negative. rewrite EB. rnum. apply rltb_false. lra.
Qed.
Lemma pc_positive a : In a l2 -> negative (moved_edge a) = true /\ positive (moved_edge a) = false.
Proof.
  intros I. assert (J : In a l) by (apply in_or_app; now right). pose proof F2 as F. rewrite Forall_forall in F. destruct (pc_sign (-1) a J (or_intror eq_refl) (F a I)) as (A & B & _ & _ & EB & SB).
  unfold negative, positive. rewrite EB. rnum. split; [apply rltb_true|apply rltb_false]; lra.
Qed.

Lemma pc_input k ip : nth_error inputs k = Some ip -> exists a, nth_error l k = Some a /\ ip_pline ip = edge a /\ pline_index (edge a) (ip_index ip).
Proof.
  intros H. assert (E : map ip_pline inputs = map edge l) by (rewrite !map_app, E1, E2; reflexivity).
  pose proof (map_nth_error ip_pline k inputs H) as M. rewrite E, nth_error_map in M. destruct (nth_error l k) as [a|]; [|discriminate]. cbn in M. injection M as M.
  exists a. split; [reflexivity|]. split; [congruence|]. rewrite M. destruct OK as (F & _). rewrite Forall_forall in F. apply F. eapply nth_error_In; exact H.
Qed.

Lemma pc_start i a : nth_error l i = Some a -> clear_start inputs d o (i, moved_edge a).
Proof.
  intros Hi v0 v1 t k ip SG Hk NK. cbn [fst snd] in *. destruct (pc_input k ip Hk) as (b & Hb & EP & IX). rewrite EP. pose proof (nth_error_In _ _ Hi) as Ia. pose proof (nth_error_In _ _ Hb) as Ib.
  apply far_valid; auto.
  - apply ProofConvex.polygon_ok.
  - intros u1 u2 I. apply ProofPolyOff.spec_segs_In_both in I as (I & _). unfold edge, polygon in I. cbn [vtx] in I. apply in_map_iff in I as (w & <- & _). reflexivity.
  - intros y Oy. destruct KC as (K & _). apply (K a b); auto. exists v0, v1. rewrite SG. split; [now left|]. exists (1 / 2). split; [lra|]. apply seg_midpoint_spec. apply (pc_ok a Ia). rewrite SG. now left.
Qed.

Theorem pieces_offset : exists r, shape_parallel_offset mk s d o = Ret r /\ shape_ok r
  /\ map ip_pline (sh_ccw r) = map moved_edge l1 /\ map ip_pline (sh_cw r) = map moved_edge l2.
Proof.
  set (rss := map (fun a => [moved_edge a]) l).
  assert (LI : length inputs = length l) by (rewrite <- (map_length edge), <- (map_length ip_pline), !map_app, E1, E2; reflexivity).
  assert (LC : length (sh_ccw s) = length l1) by (rewrite <- (map_length ip_pline), E1, map_length; reflexivity).
  assert (FR : Forall2 (fun ip rs => parallel_offset mk (ip_pline ip) (ip_index ip) d (OO (so_pos_equal_eps o) (so_slice_join_eps o) (so_offset_dist_eps o) false) = Ret rs) inputs rss).
  { apply forall2_nth; [unfold rss; now rewrite map_length|]. intros i ip rs Hi Hr. destruct (pc_input i ip Hi) as (a & Ha & EP & IX). unfold rss in Hr. rewrite nth_error_map, Ha in Hr. cbn in Hr. injection Hr as <-.
    pose proof (nth_error_In _ _ Ha) as Ia. destruct (pc_fits a Ia) as (k & _ & Po & (A & EA & _) & MC & LP). rewrite EP.
    apply (simple_offset mk (pc_polygon a) (ip_index ip) d oo (pc_corners a) A MK IX He eq_refl Hj Ht Po EA MC LP (pc_keep a Ia)). }
  set (g := combine (seq 0 (length l)) (map moved_edge l)).
  assert (AT : forall x, In x g -> exists a, nth_error l (fst x) = Some a /\ snd x = moved_edge a).
  { intros (i, p) I. unfold g in I. cbn [fst snd]. apply In_nth_error in I as (k & Hk).
    assert (Q : nth_error (seq 0 (length l)) k = Some i /\ nth_error (map moved_edge l) k = Some p).
    { clear - Hk. revert k Hk. generalize (seq 0 (length l)) as u, (map moved_edge l) as w. induction u as [|a u IH]; intros [|b w] [|k] H; try discriminate; cbn in *; [injection H as <- <-; auto|eauto]. }
    destruct Q as (Q1 & Q2). rewrite nth_error_map in Q2. destruct (nth_error l k) as [a|] eqn:Ea; [|discriminate]. cbn in Q2. injection Q2 as <-.
    assert (i = k). { assert (Lk : (k < length l)%nat) by (apply nth_error_Some; congruence). apply (nth_error_nth _ _ 0%nat) in Q1. rewrite seq_nth in Q1 by exact Lk. lia. } subst i. exists a. auto. }
  assert (SND : map snd g = map moved_edge l) by (unfold g; rewrite <- (map_length moved_edge); clear; generalize 0%nat; induction (map moved_edge l) as [|b w IH]; intros k; [reflexivity|]; cbn; f_equal; apply IH).
  assert (SPLIT : g = combine (seq 0 (length l1)) (map moved_edge l1) ++ combine (seq (length l1) (length l2)) (map moved_edge l2)).
  { unfold g. rewrite map_app, app_length, seq_app. cbn [Nat.add]. clear. assert (H : forall (u1 : list nat) (w1 : list (pline R)) u2 w2, length u1 = length w1 -> combine (u1 ++ u2) (w1 ++ w2) = combine u1 w1 ++ combine u2 w2).
    { induction u1 as [|a u IH]; intros [|b w] u2 w2 E; try discriminate; [reflexivity|]. cbn. f_equal. apply IH. now injection E. }
    apply H. now rewrite seq_length, map_length. }
  set (g1 := combine (seq 0 (length l1)) (map moved_edge l1)) in *. set (g2 := combine (seq (length l1) (length l2)) (map moved_edge l2)) in *.
  assert (N1 : forall x, In x g1 -> (fst x < length l1)%nat /\ negative (snd x) = false).
  { intros (i, p) I. unfold g1 in I. split; [apply in_combine_l, in_seq in I; cbn; lia|]. apply in_combine_r, in_map_iff in I as (a & <- & I). now apply pc_negative. }
  assert (N2 : forall x, In x g2 -> ~ (fst x < length l1)%nat /\ negative (snd x) = true /\ positive (snd x) = false).
  { intros (i, p) I. unfold g2 in I. split; [apply in_combine_l, in_seq in I; cbn; lia|]. apply in_combine_r, in_map_iff in I as (a & <- & I). now apply pc_positive. }
  assert (OUT : outlines (length (sh_ccw s)) d rss = g).
  { unfold outlines. cbv zeta. unfold rss. rewrite numbered_single. fold g. rewrite LC, SPLIT.
    rewrite (filter_all (fun x => negb (turned_around (length l1) d x)) (g1 ++ g2)).
    - rewrite !filter_app.
      rewrite (filter_all (fun x => negb (negative (snd x))) g1), (filter_nothing (fun x => negb (negative (snd x))) g2), (filter_nothing (fun x => negative (snd x)) g1), (filter_all (fun x => negative (snd x)) g2); [now rewrite app_nil_r| | | |].
      + intros x I. apply N2, I.
      + intros x I. apply N1, I.
      + intros x I. now rewrite (proj1 (proj2 (N2 x I))).
      + intros x I. now rewrite (proj2 (N1 x I)).
    - intros x I. unfold turned_around. apply in_app_or in I as [I|I].
      + destruct (N1 x I) as (Q1 & Q2). rewrite (proj2 (Nat.ltb_lt _ _) Q1), Q2, andb_false_r. reflexivity.
      + destruct (N2 x I) as (Q1 & _ & Q2). rewrite (proj2 (Nat.ltb_ge (fst x) (length l1))) by lia. rewrite Q2, andb_false_r. reflexivity. }
  destruct (shape_apart mk s d o rss MK OK FR) as (gs & r & FG & ER & KR & C1 & C2).
  - rewrite OUT. apply Forall_forall. intros x I. destruct (AT x I) as (a & Ha & ->). pose proof (pc_three a (nth_error_In _ _ Ha)). lia.
  - rewrite OUT, SND. intros i j p q idx Hp Hq NE IX. rewrite nth_error_map in Hp, Hq.
    destruct (nth_error l i) as [a|] eqn:Xi; [|discriminate]. destruct (nth_error l j) as [b|] eqn:Xj; [|discriminate]. cbn in Hp, Hq. injection Hp as <-. injection Hq as <-.
    apply miss_found; [exact He|eapply pc_clear, nth_error_In; exact Xi|eapply pc_clear, nth_error_In; exact Xj| |exact IX]. destruct KC as (_ & M). exact (M i j a b Xi Xj NE).
  - rewrite OUT in FG, C1, C2. exists r. split; [exact ER|]. split; [exact KR|].
    assert (EM : marked (map snd g) gs = map moved_edge l).
    { rewrite marked_all; [exact SND|rewrite map_length; clear - FG; induction FG; cbn; congruence|].
      clear - FG AT He Hj Ht KC OK E1 E2 F1 F2 MK. assert (X : forall x, In x g -> clear_start inputs d o x).
      { intros (i, p) I. destruct (AT _ I) as (a & Ha & E). cbn [fst snd] in Ha, E. subst p. now apply pc_start. }
      clear AT. revert FG X. generalize g. intros g0 FG. induction FG as [|x f u w H FG IH]; intros X; constructor; [apply H, X; now left|apply IH; intros y I; apply X; now right]. }
    rewrite EM, map_app, filter_app in C1, C2.
    rewrite filter_all, filter_nothing, app_nil_r in C1; [|intros p I; apply in_map_iff in I as (a & <- & I); now rewrite (proj1 (pc_positive a I))|intros p I; apply in_map_iff in I as (a & <- & I); now rewrite (pc_negative a I)].
    rewrite filter_nothing, filter_all in C2; [|intros p I; apply in_map_iff in I as (a & <- & I); exact (proj1 (pc_positive a I))|intros p I; apply in_map_iff in I as (a & <- & I); exact (pc_negative a I)].
    auto.
Qed.
End Pieces.
