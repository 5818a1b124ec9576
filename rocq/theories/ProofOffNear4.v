(** Offset results stay near the raw offset (C54): the whole. *)
From Coq Require Import Reals ZArith Bool List Arith Lra Lia Permutation Sorted.
From Verif Require Import Num RNum Res ModelMath ModelSeg ModelPline ModelView ModelIndex ModelIntersects ModelOffset.
From Verif Require Import Spec SpecPline SpecGeom SpecIntr SpecBox SpecView SpecStitch SpecIndex SpecIntersects SpecShape SpecChain SpecCuts SpecRawNear SpecOffNear.
From Verif Require Import ProofR ProofBase ProofIter ProofIntr ProofArc ProofSegIntr5 ProofView ProofSlice ProofSlice2 ProofRepeat ProofWinding7 ProofRegion4 ProofRegion7 ProofChain2 ProofCuts ProofCuts3 ProofRawNear2 ProofRawNear3 ProofOffNear ProofOffNear2 ProofOffNear3.
Import ListNotations.
Local Open Scope R_scope.

Lemma offset_slices_cuts (p : pline R) offset o raw slices : offset_slices p offset o raw slices ->
  exists cuts, offset_cuts p offset o raw cuts /\ cut_slices p offset o (is_closed p) raw cuts slices.
Proof.
  unfold offset_slices, offset_cuts. destruct (is_closed p && negb (oo_handle_self_intersects o)) eqn:E.
  - intros (pairs & PO & C). exists (self_cuts raw (oo_pos_equal_eps o) pairs). split; [eauto|]. apply andb_prop in E as (-> & _). exact C.
  - intros (dual & ED & (pairs & cross & ends & PO & CO & HE & C)). eexists. split; [|exact C]. exists dual, pairs, cross, ends. auto.
Qed.

Lemma path_front (raw : pline R) d h l : view_path_of raw d = h :: l -> pos h = pos (vd_updated_start d).
Proof. unfold view_path_of, spec_view. intros E. injection E as <- _. reflexivity. Qed.

Lemma path_back (raw : pline R) d v l : view_path_of raw d = l ++ [v] -> pos v = vd_end_point d.
Proof.
  unfold view_path_of, spec_view. rewrite app_comm_cons. intros E. apply app_inj_tail in E as (_ & <-). apply from_pos.
Qed.

Lemma near_points e a z : v2fuzzy_eq_eps (pos a) (pos z) e = true -> beside e (pos z) (pos a).
Proof. intros F. apply v2fuzzy_R in F. destruct F as (A & B). split; rewrite Rabs_minus_sym; lra. Qed.

Lemma result_from raw closed e D (K : list (vertex R)) a b : 0 <= e -> (2 <= length K)%nat -> (forall a b, In (a, b) (pairs K) -> from_raw raw D a b) ->
  In (a, b) (spec_segs (vtx (close_path closed e K)) (is_closed (close_path closed e K))) -> from_raw raw (D + 3 / 2 * e) a b.
Proof.
  intros He HL HK I. assert (W : forall a b D', D <= D' -> from_raw raw D a b -> from_raw raw D' a b).
  { intros x y D' L (v1 & v2 & t & u & w & A & B & C & P & Q). exists v1, v2, t, u, w. repeat (split; [assumption|]). lra. }
  assert (OP : In (a, b) (pairs K) -> from_raw raw (D + 3 / 2 * e) a b) by (intros J; apply W; [lra|]; now apply HK).
  unfold close_path in I. destruct K as [|x K'] using rev_ind; [cbn in HL; lia|]. clear IHK'. rewrite rev_app_distr in I. cbn [rev app hd_error] in I.
  destruct (hd_error (K' ++ [x])) as [h|] eqn:EH; [|apply OP; rewrite <- spec_segs_pairs; exact I].
  destruct (closed && v2fuzzy_eq_eps (pos h) (pos x) e) eqn:EC; [|apply OP; rewrite <- spec_segs_pairs; exact I].
  cbn [vtx is_closed] in I. rewrite removelast_snoc in I. apply andb_prop in EC as (_ & F). apply near_points in F.
  destruct K' as [|h' [|k K']]; [cbn in HL; lia|destruct I|]. cbn in EH. injection EH as ->.
  rewrite pairs_loop in I by discriminate.
  destruct (exists_last (l := h :: k :: K') ltac:(discriminate)) as (L & y & EL). rewrite EL in *.
  rewrite <- app_assoc in I. cbn [app] in I. rewrite pairs_app in I. apply in_app_or in I as [I|[I|[]]].
  - apply OP. rewrite <- app_assoc. cbn [app]. rewrite pairs_app. apply in_or_app. left. exact I.
  - injection I as <- <-. destruct (HK y x) as (v1 & v2 & t & u & w & A & B & C & P & Q).
    { rewrite <- app_assoc. cbn [app]. rewrite pairs_app. apply in_or_app. right. left. reflexivity. }
    exists v1, v2, t, u, w. repeat (split; [assumption|]). eapply Rle_trans; [apply (dist_triangle _ _ (pos x))|].
    assert (dist (pos h) (pos x) <= 3 / 2 * e) by (rewrite dist_sym; now apply beside_dist). lra.
Qed.

Theorem offset_pieces mk (p : pline R) idx offset o : makes_index mk -> pline_index p idx -> (2 <= vertex_count p)%nat ->
  0 < oo_pos_equal_eps o -> 0 <= oo_slice_join_eps o ->
  (forall raw, create_raw_offset_polyline p offset (oo_pos_equal_eps o) = Ret raw -> clean_offset (oo_pos_equal_eps o + 2 * oo_slice_join_eps o) p offset o raw) ->
  exists raw rs, create_raw_offset_polyline p offset (oo_pos_equal_eps o) = Ret raw /\ parallel_offset mk p idx offset o = Ret rs
  /\ forall r a b, In r rs -> In (a, b) (spec_segs (vtx r) (is_closed r)) -> from_raw raw (5 * oo_slice_join_eps o + 2 * oo_pos_equal_eps o) a b.
Proof.
  intros MK IDX TP He Hj HC. set (eps := oo_pos_equal_eps o) in *. set (join := oo_slice_join_eps o) in *.
  destruct (offset_cut mk p idx offset o MK IDX TP) as (raw & ER & H). fold eps join in ER, H. specialize (HC raw ER) as (CL & CC). exists raw.
  destruct H as [(Z & EO)|(TWO & slices & last & chains & Ks & OS & EO & AC & PM)].
  - exists []. split; [exact ER|]. split; [exact EO|]. intros r a b [].
  - eexists. split; [exact ER|]. split; [exact EO|].
    destruct (offset_slices_cuts _ _ _ _ _ OS) as (cuts & OC & CS). specialize (CC cuts OC).
    assert (CR : is_closed raw = is_closed p) by (eapply raw_closed; [exact ER|lia]).
    set (g := eps + 2 * join) in *.
    assert (GS : forall d, In d slices -> good_slice g raw d).
    { intros d Id. apply (cut_good raw eps g cuts He ltac:(unfold g; lra) CL CC TWO p offset o (is_closed p) slices d eq_refl (eq_sym CR) CS Id). }
    assert (PATH : forall i l, path_at raw slices i l -> (2 <= length l)%nat /\ spaced g l).
    { intros i l (d & Ed & ->). destruct (GS d (nth_error_In _ _ Ed)) as (A & B & _). auto. }
    assert (NEXT : forall used cur avail first b l1 v h l2, candidates (next_at slices join) used cur avail -> nearest_ahead slices last eps first cur avail b ->
      path_at raw slices cur (l1 ++ [v]) -> path_at raw slices b (h :: l2) -> beside (2 * join) (pos v) (pos h)).
    { intros used cur avail first b l1 v h l2 (_ & CA) (IB & _) (d1 & E1 & P1) (d2 & E2 & P2). apply CA in IB as ((a' & b' & F1 & F2 & RE) & _).
      rewrite E1 in F1. injection F1 as <-. rewrite E2 in F2. injection F2 as <-.
      rewrite (path_back raw d1 v l1 (eq_sym P1)), (path_front raw d2 h l2 (eq_sym P2)). apply reaches_dist in RE. exact RE. }
    assert (SH : forall K, In K Ks -> (2 <= length K)%nat /\ (forall a b, In (a, b) (pairs K) -> from_raw raw (3 * join) a b)).
    { intros K IK. destruct (all_chained_clean _ _ _ eps join Hj PATH NEXT chains Ks AC K IK) as (L & S). split; [exact L|].
      intros a b I. destruct (S a b I) as (i & l & w & (d & Ed & ->) & Iw & D). destruct (GS d (nth_error_In _ _ Ed)) as (_ & _ & FR).
      destruct (FR a w Iw) as (v1 & v2 & t & u & w' & A & B & C & P & Q). exists v1, v2, t, u, w'. repeat (split; [assumption|]).
      eapply Rle_trans; [apply (dist_triangle _ _ (pos w))|]. lra. }
    assert (W : forall a b D D', D <= D' -> from_raw raw D a b -> from_raw raw D' a b).
    { intros x y D D' L (v1 & v2 & t & u & w & A & B & C & P & Q). exists v1, v2, t, u, w. repeat (split; [assumption|]). lra. }
    intros r a b Ir I.
    assert (G : In r (flat_map (offset_result (is_closed p) eps) Ks) -> from_raw raw (5 * join + 2 * eps) a b).
    { intros J. apply in_flat_map in J as (K & IK & J). unfold offset_result in J. destruct (2 <=? length K)%nat; [|destruct J]. destruct J as [<-|[]].
      destruct (SH K IK) as (L & S). apply (W a b (3 * join + 3 / 2 * eps)); [lra|]. apply (result_from raw (is_closed p) eps (3 * join) K a b); auto. lra. }
    unfold offset_results in Ir. destruct slices as [|s [|s2 ss]]; [now apply G| |now apply G].
    apply in_map_iff in Ir as (K & <- & IK). destruct (SH K IK) as (L & S). apply (W a b (3 * join + 3 / 2 * join)); [lra|]. apply (result_from raw (is_closed p) join (3 * join) K a b); auto.
Qed.

(** ** Near *)
Lemma from_raw_near g raw D a b q : 0 < g -> clear_pline g raw -> from_raw raw D a b -> on_seg a b q -> near_path raw D q.
Proof.
  intros Hg CL (v1 & v2 & t & u & w & I & Ht & Hu & P & Q) H. destruct (clear_neq raw g g Hg (Rle_refl _) CL v1 v2 I) as (Ok & N & _).
  assert (B1 : Rabs (pbulge a) <= 1) by (apply (piece_bulge v1 v2 t u a w); auto; lra).
  destruct (shadow_near a b w D q B1 Q H) as (q' & H' & L). exists q'. split; [|exact L]. exists v1, v2. split; [exact I|].
  apply (piece_on v1 v2 t u a w); auto; lra.
Qed.

Theorem offset_near_raw mk (p : pline R) idx offset o : makes_index mk -> pline_index p idx -> (2 <= vertex_count p)%nat ->
  0 < oo_pos_equal_eps o -> 0 <= oo_slice_join_eps o ->
  (forall raw, create_raw_offset_polyline p offset (oo_pos_equal_eps o) = Ret raw -> clean_offset (oo_pos_equal_eps o + 2 * oo_slice_join_eps o) p offset o raw) ->
  exists raw rs, create_raw_offset_polyline p offset (oo_pos_equal_eps o) = Ret raw /\ parallel_offset mk p idx offset o = Ret rs
  /\ forall r q, In r rs -> on_path r q -> near_path raw (5 * oo_slice_join_eps o + 2 * oo_pos_equal_eps o) q.
Proof.
  intros MK IDX TP He Hj HC. destruct (offset_pieces mk p idx offset o MK IDX TP He Hj HC) as (raw & rs & ER & EO & H). exists raw, rs.
  split; [exact ER|]. split; [exact EO|]. intros r q Ir (a & b & I & S). destruct (HC raw ER) as (CL & _).
  apply (from_raw_near (oo_pos_equal_eps o + 2 * oo_slice_join_eps o) raw _ a b q); [lra|exact CL| |exact S]. exact (H r a b Ir I).
Qed.

Theorem offset_near mk (p : pline R) idx offset o : makes_index mk -> pline_index p idx -> (2 <= vertex_count p)%nat ->
  0 < oo_pos_equal_eps o -> 0 <= oo_slice_join_eps o -> offset <> 0 -> all_lines p -> clear_corners p offset (oo_pos_equal_eps o) ->
  (forall raw, create_raw_offset_polyline p offset (oo_pos_equal_eps o) = Ret raw -> clean_offset (oo_pos_equal_eps o + 2 * oo_slice_join_eps o) p offset o raw) ->
  exists rs, parallel_offset mk p idx offset o = Ret rs
  /\ forall r q, In r rs -> on_path r q -> near_path p (Rabs offset + 8 * oo_pos_equal_eps o + 5 * oo_slice_join_eps o) q.
Proof.
  intros MK IDX TP He Hj Hd AL CC HC. destruct (offset_near_raw mk p idx offset o MK IDX TP He Hj HC) as (raw & rs & ER & EO & H). exists rs.
  split; [exact EO|]. intros r q Ir Hq. destruct (H r q Ir Hq) as (y & Hy & D).
  destruct (raw_near_total p offset (oo_pos_equal_eps o) He Hd AL CC) as (raw' & ER' & NR & _). rewrite ER in ER'. injection ER' as <-.
  destruct (NR y Hy) as (z & Hz & D'). exists z. split; [exact Hz|]. eapply Rle_trans; [apply (dist_triangle _ _ y)|]. lra.
Qed.
