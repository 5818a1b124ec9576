(** Polygons that clearly cross: the intersections found, and the region of a boolean operation (C63). *)
From Coq Require Import Reals ZArith Bool List Arith Lra Lia Psatz Classical.
From Verif Require Import Num RNum Res ModelMath ModelSeg ModelPline ModelView ModelIndex ModelIntr ModelSegIntr ModelIntersects ModelBoolean.
From Verif Require Import Spec SpecPline SpecGeom SpecBox SpecIntr SpecWinding SpecView SpecPruneR SpecPrune SpecRegion SpecBoolean SpecIndex SpecIntersects SpecPolyOff SpecPolyBool.
From Verif Require Import ProofR ProofBase ProofIter ProofArc ProofIntr ProofFind ProofFindR ProofOffsetJoin2 ProofSlice ProofWinding6 ProofPolyOff ProofPolyOff2 ProofRegion11 ProofNest.
Import ListNotations.
Local Open Scope R_scope.

Lemma line_point (a b : vertex R) q : pbulge a = 0 -> on_seg a b q <-> exists t, 0 <= t <= 1 /\ q = line_pt (pos a) (pos b) t.
Proof.
  intros Z. split; intros (t & Ht & H); exists t; (split; [exact Ht|]).
  - now apply seg_at_line.
  - left. auto.
Qed.

Lemma in_range_01 t d eps : 0 < eps -> 0 <= d -> 0 <= t <= 1 -> in_range t d eps.
Proof. intros. unfold in_range. split; nra. Qed.

(** Sides beside each other have no common point. *)
Lemma beside_no_common eps (a b c e : vertex R) q : 0 < eps -> pbulge a = 0 -> pbulge c = 0 ->
  beside eps (pos a) (pos b) (pos c) (pos e) \/ beside eps (pos c) (pos e) (pos a) (pos b) -> on_seg a b q -> on_seg c e q -> False.
Proof.
  intros He Za Zc B O1 O2. apply line_point in O1; [|exact Za]. apply line_point in O2; [|exact Zc].
  destruct O1 as (s & Hs & E1). destruct O2 as (t & Ht & E2). rewrite E1 in E2.
  destruct B as [B|B].
  - apply (beside_out eps _ _ _ _ s t He B E2). apply in_range_01; auto. apply sqrt_pos.
  - apply (beside_out eps _ _ _ _ t s He B (eq_sym E2)). apply in_range_01; auto. apply sqrt_pos.
Qed.

(** Sides that cross have just that common point, and it is found. *)
Lemma cross_found eps (a b c e : vertex R) q : 0 < eps -> pbulge a = 0 -> pbulge c = 0 -> cross_in eps (pos a) (pos b) (pos c) (pos e) q ->
  pline_seg_intr a b c e eps = SIOne q /\ on_seg a b q /\ on_seg c e q /\ forall q', on_seg a b q' -> on_seg c e q' -> q' = q.
Proof.
  intros He Za Zc (C & s & t & Hs & Ht & E1 & E2).
  destruct (line_line_nonparallel (pos a) (pos b) (pos c) (pos e) eps He C) as (s' & t' & _ & U & K).
  assert (EE : line_pt (pos a) (pos b) s = line_pt (pos c) (pos e) t) by congruence.
  destruct (U s t EE) as (<- & <-).
  assert (D : forall x y, 0 <= dist x y) by (intros; apply sqrt_pos).
  split; [|split; [|split]].
  - unfold pline_seg_intr. rewrite (is_zero_line a Za), (is_zero_line c Zc). cbn [andb].
    destruct K as [(_ & ->)|(N & _)]; [|exfalso; apply N; split; apply in_range_01; auto; lra].
    f_equal. rewrite E1. unfold point_from_parametric, v2add, v2scale, v2sub, line_pt. rnum. cbn [vx vy]. f_equal; ring.
  - apply line_point; [exact Za|]. exists s. split; [lra|exact E1].
  - apply line_point; [exact Zc|]. exists t. split; [lra|exact E2].
  - intros q' O1 O2. apply line_point in O1; [|exact Za]. apply line_point in O2; [|exact Zc].
    destruct O1 as (s1 & _ & F1). destruct O2 as (t1 & _ & F2). destruct (U s1 t1) as (-> & _); congruence.
Qed.

Lemma off_fuzzy eps (v : vertex R) q : eps <= Rabs (px v - vx q) \/ eps <= Rabs (py v - vy q) -> v2fuzzy_eq_eps (pos v) q eps = false.
Proof.
  unfold v2fuzzy_eq_eps, fuzzy_eq_eps, pos. rnum. cbn [vx vy]. intros [H|H].
  - rewrite (proj2 (rltb_false _ _)) by exact H. reflexivity.
  - rewrite andb_false_iff. right. apply rltb_false. exact H.
Qed.

(** ** Lists *)
Lemma overlaps_app {T} {N : Num T} (l l' : list (intr_event T)) : overlaps (l ++ l') = overlaps l ++ overlaps l'.
Proof. unfold overlaps. apply flat_map_app. Qed.
Lemma basics_app {T} {N : Num T} (l l' : list (intr_event T)) : basics (l ++ l') = basics l ++ basics l'.
Proof. unfold basics. apply flat_map_app. Qed.

Section Lists.
Variable f : nat * nat -> list (intr_event R).
Variable pairs : list (nat * nat).
Hypothesis each : forall ij, In ij pairs -> f ij = [] \/ exists q, f ij = [EvBasic (BI (fst ij) (snd ij) q)].

Lemma each_no_overlaps : overlaps (flat_map f pairs) = [].
Proof.
  clear - each. induction pairs as [|ij l IH]; [reflexivity|]. cbn [flat_map]. rewrite overlaps_app, IH by (intros; apply each; now right).
  destruct (each ij (or_introl eq_refl)) as [->|(q & ->)]; reflexivity.
Qed.

Lemma each_basics b : In b (basics (flat_map f pairs)) <-> In (bi_index1 b, bi_index2 b) pairs /\ f (bi_index1 b, bi_index2 b) = [EvBasic b].
Proof.
  unfold basics. rewrite in_flat_map. split.
  - intros (e & I & J). apply in_flat_map in I. destruct I as (ij & I & K). destruct (each ij I) as [E|(q & E)]; rewrite E in K; [destruct K|].
    destruct K as [<-|[]]. destruct J as [<-|[]]. cbn [bi_index1 bi_index2]. destruct ij as (i, j). cbn [fst snd] in *. auto.
  - intros (I & E). exists (EvBasic b). split; [|now left]. apply in_flat_map. exists (bi_index1 b, bi_index2 b). split; [exact I|]. rewrite E. now left.
Qed.

Lemma each_nodup : NoDup pairs -> NoDup (basics (flat_map f pairs)).
Proof.
  intros ND. revert each. induction ND as [|ij l NI ND IH]; intros each'; [constructor|].
  cbn [flat_map]. rewrite basics_app. specialize (IH (fun x I => each' x (or_intror I))).
  destruct (each' ij (or_introl eq_refl)) as [->|(q & ->)]; [exact IH|]. cbn [basics flat_map app]. constructor; [|exact IH].
  intros I. unfold basics in I. apply in_flat_map in I. destruct I as (e & I & J). apply in_flat_map in I. destruct I as (kl & I & K).
  destruct (each' kl (or_intror I)) as [E|(q' & E)]; rewrite E in K; [destruct K|]. destruct K as [<-|[]]. destruct J as [J|[]].
  injection J as E1 E2 _. apply NI. destruct ij, kl. cbn [fst snd] in *. congruence.
Qed.
End Lists.

Section Pair.
Variables p1 p2 : pline R.
Variable eps : R.
Hypothesis epos : 0 < eps.
Hypothesis clear : clear_pair eps p1 p2.

Lemma cl1 : is_closed p1 = true. Proof. apply clear. Qed.
Lemma cl2 : is_closed p2 = true. Proof. apply clear. Qed.
Lemma line1 v1 v2 : In (v1, v2) (spec_segs (vtx p1) (is_closed p1)) -> pbulge v1 = 0.
Proof. intros I. apply (proj2 (proj1 clear)). now apply (spec_segs_In_both _ _ _ _ I). Qed.
Lemma line2 v1 v2 : In (v1, v2) (spec_segs (vtx p2) (is_closed p2)) -> pbulge v1 = 0.
Proof. intros I. destruct clear as (_ & P & _). apply (proj2 P). now apply (spec_segs_In_both _ _ _ _ I). Qed.

(** Two sides have one common point, which is reported, or none. *)
Lemma pair_cases i j v1 v2 u1 u2 : nth_error (spec_segs (vtx p1) (is_closed p1)) i = Some (v1, v2) ->
  nth_error (spec_segs (vtx p2) (is_closed p2)) j = Some (u1, u2) ->
  (cross_pair p1 p2 eps (i, j) = [] /\ forall q, on_seg v1 v2 q -> on_seg u1 u2 q -> False)
  \/ exists q, cross_pair p1 p2 eps (i, j) = [EvBasic (BI i j q)] /\ on_seg v1 v2 q /\ on_seg u1 u2 q /\ off_vertexes eps p1 q /\ off_vertexes eps p2 q
     /\ forall q', on_seg v1 v2 q' -> on_seg u1 u2 q' -> q' = q.
Proof.
  intros E1 E2. pose proof (nth_error_In _ _ E1) as I1. pose proof (nth_error_In _ _ E2) as I2.
  pose proof (line1 _ _ I1) as Z1. pose proof (line2 _ _ I2) as Z2.
  pose proof clear as (_ & _ & _ & _ & SD & _). rewrite cl1 in I1. rewrite cl2 in I2. specialize (SD v1 v2 u1 u2 I1 I2).
  unfold cross_pair. rewrite E1, E2. rewrite <- or_assoc in SD. destruct SD as [B|(q & C & F1 & F2)].
  - left. split; [rewrite (lines_apart v1 v2 u1 u2 eps epos Z1 Z2 B); reflexivity|].
    intros q. exact (beside_no_common eps v1 v2 u1 u2 q epos Z1 Z2 B).
  - right. destruct (cross_found eps v1 v2 u1 u2 q epos Z1 Z2 C) as (E & O1 & O2 & U). exists q. split; [|auto].
    rewrite E. cbn [events_of filter map].
    rewrite (off_fuzzy eps v2 q), (off_fuzzy eps u2 q); [reflexivity|apply F2|apply F1].
    + apply (spec_segs_In_both _ _ _ _ I2).
    + apply (spec_segs_In_both _ _ _ _ I1).
Qed.

Lemma found_common boxes idx : index_of boxes idx -> boxes = map (fun s => seg_fast_approx_bounding_box (fst s) (snd s)) (spec_segs (vtx p1) (is_closed p1)) ->
  exists bs, find_intersects p1 p2 idx eps = Ret (bs, []) /\ NoDup bs /\ (forall b, In b bs <-> common_point p1 p2 b).
Proof.
  intros IO EB. assert (BL : length boxes = length (spec_segs (vtx p1) (is_closed p1))) by (rewrite EB; apply map_length).
  destruct (find_intersects_pairs p1 p2 eps boxes idx IO BL) as (pairs & CO & EF). pose proof CO as (ND & _ & IN).
  assert (EX : forall ij, In ij pairs -> exists v1 v2 u1 u2, nth_error (spec_segs (vtx p1) (is_closed p1)) (fst ij) = Some (v1, v2)
     /\ nth_error (spec_segs (vtx p2) (is_closed p2)) (snd ij) = Some (u1, u2)).
  { intros (i, j) I. apply IN in I. destruct I as (b & u1 & u2 & Eb & E2 & _).
    destruct (nth_error (spec_segs (vtx p1) (is_closed p1)) i) as [(v1, v2)|] eqn:E1.
    - exists v1, v2, u1, u2. auto.
    - exfalso. apply nth_error_None in E1. assert (i < length boxes)%nat by (apply nth_error_Some; congruence). lia. }
  assert (EACH : forall ij, In ij pairs -> cross_pair p1 p2 eps ij = [] \/ exists q, cross_pair p1 p2 eps ij = [EvBasic (BI (fst ij) (snd ij) q)]).
  { intros (i, j) I. destruct (EX _ I) as (v1 & v2 & u1 & u2 & E1 & E2). cbn [fst snd] in *.
    destruct (pair_cases i j v1 v2 u1 u2 E1 E2) as [(E & _)|(q & E & _)]; eauto. }
  cbv zeta in EF. rewrite (each_no_overlaps _ _ EACH) in EF.
  assert (FI : forall l : list (basic_intr R), filter (fun b => negb (repeats p1 p2 eps [] b)) l = l).
  { induction l as [|b l IH]; [reflexivity|]. cbn [filter]. rewrite IH. reflexivity. }
  rewrite FI in EF. eexists. split; [exact EF|]. split; [now apply each_nodup|].
  intros b. rewrite (each_basics _ _ EACH). split.
  - intros (I & E). destruct (EX _ I) as (v1 & v2 & u1 & u2 & E1 & E2). cbn [fst snd] in *. exists v1, v2, u1, u2. split; [exact E1|]. split; [exact E2|].
    destruct (pair_cases _ _ v1 v2 u1 u2 E1 E2) as [(E' & _)|(q & E' & O1 & O2 & _)]; rewrite E in E'; [discriminate|].
    injection E' as ->. cbn [bi_point]. auto.
  - intros (v1 & v2 & u1 & u2 & E1 & E2 & O1 & O2).
    destruct clear as (_ & _ & K1 & K2 & _ & _). pose proof (clear_ok _ _ K1) as Ok1. pose proof (clear_ok _ _ K2) as Ok2. split.
    + rewrite EB in CO. apply (cross_meet_examined p1 p2 eps pairs _ _ v1 v2 u1 u2 (bi_point b)); auto; try lra.
      * apply Ok1. eapply nth_error_In. exact E1.
      * apply Ok2. eapply nth_error_In. exact E2.
    + destruct (pair_cases _ _ v1 v2 u1 u2 E1 E2) as [(_ & N)|(q & E & _ & _ & _ & _ & U)]; [exfalso; eapply N; eassumption|].
      rewrite E. rewrite <- (U _ O1 O2). destruct b. reflexivity.
Qed.

Lemma common_path b : common_point p1 p2 b -> on_path p1 (bi_point b) /\ on_path p2 (bi_point b).
Proof.
  intros (v1 & v2 & u1 & u2 & E1 & E2 & O1 & O2). split; [exists v1, v2|exists u1, u2]; (split; [eapply nth_error_In; eassumption|assumption]).
Qed.

Lemma common_off b : common_point p1 p2 b -> off_vertexes eps p1 (bi_point b) /\ off_vertexes eps p2 (bi_point b).
Proof.
  intros (v1 & v2 & u1 & u2 & E1 & E2 & O1 & O2).
  destruct (pair_cases _ _ v1 v2 u1 u2 E1 E2) as [(_ & N)|(q & _ & _ & _ & F1 & F2 & U)]; [exfalso; eapply N; eassumption|].
  rewrite (U _ O1 O2). auto.
Qed.

Lemma common_spread b b' : common_point p1 p2 b -> common_point p1 p2 b' ->
  bi_point b = bi_point b' \/ eps < Rabs (vx (bi_point b) - vx (bi_point b')) \/ eps < Rabs (vy (bi_point b) - vy (bi_point b')).
Proof. intros C C'. destruct clear as (_ & _ & _ & _ & _ & SP). destruct (common_path b C), (common_path b' C'). now apply SP. Qed.

Lemma off_crisp p q : off_vertexes eps p q -> crisp_vertexes eps p q.
Proof. intros H v I. right. exact (H v I). Qed.

Lemma clean bs : (forall b, In b bs <-> common_point p1 p2 b) -> clean_crossing eps p1 p2 bs.
Proof.
  intros HB. destruct clear as ((_ & L1) & (_ & L2) & K1 & K2 & _).
  assert (P1 : forall k v t u, nth_error (vtx p1) k = Some v -> part_ok v t u) by (intros k v t u E; left; apply L1; eapply nth_error_In; exact E).
  assert (P2 : forall k v t u, nth_error (vtx p2) k = Some v -> part_ok v t u) by (intros k v t u E; left; apply L2; eapply nth_error_In; exact E).
  assert (SPR : forall b b', In b bs -> In b' bs -> crisp eps (bi_point b) (bi_point b')).
  { intros b b' I I'. apply HB in I, I'. destruct (common_spread b b' I I') as [E|[E|E]]; [left; exact E|right; left; lra|right; right; lra]. }
  assert (LT : forall (a b : vertex R) q p, off_vertexes eps p q -> In b (vtx p) -> on_seg a b q -> seg_ok a b -> exists t, t < 1 /\ 0 <= t <= 1 /\ seg_at a b t q).
  { intros a b q p OF I (t & Ht & At) Ok. exists t. split; [|auto]. destruct (Req_dec t 1) as [->|D]; [|lra]. exfalso.
    pose proof (seg_at_1 a b Ok) as A1. pose proof (ProofArc.seg_at_unique a b 1 q (pos b) At A1 Ok) as EQ.
    specialize (OF b I). rewrite EQ in OF. unfold pos in OF. cbn [vx vy] in OF. replace (px b - px b) with 0 in OF by ring. replace (py b - py b) with 0 in OF by ring. rewrite Rabs_R0 in OF. destruct OF; lra. }
  unfold clean_crossing, cut_points. cbn [flat_map]. rewrite !app_nil_r. split; [|split; [|split; [|split; [|split; [|split]]]]].
  - split.
    + intros k sp I. apply in_map_iff in I. destruct I as (b & [= <- <-] & I). apply HB in I. cbn [sp_pos].
      split; [apply off_crisp; now apply common_off|]. pose proof (common_off b I) as (F1 & _). destruct I as (v1 & v2 & u1 & u2 & E1 & E2 & O1 & O2).
      destruct (LT v1 v2 _ p1 F1) as (t & T1 & T01 & At); [|exact O1|apply (clear_ok _ _ K1); eapply nth_error_In; exact E1|].
      { apply (spec_segs_In_both _ _ _ _ (nth_error_In _ _ E1)). }
      exists t. split; [|intros v; apply P1]. split; [exact T1|]. exists v1, v2. auto.
    + intros k sp sp' I I'. apply in_map_iff in I. destruct I as (b & [= <- <-] & I). apply in_map_iff in I'. destruct I' as (b' & [= E <-] & I').
      split; [now apply SPR|]. intros t u v _ _ _ Ev. eapply P1. exact Ev.
  - split.
    + intros k sp I. apply in_map_iff in I. destruct I as (b & [= <- <-] & I). apply HB in I. cbn [sp_pos].
      split; [apply off_crisp; now apply common_off|]. pose proof (common_off b I) as (_ & F2). destruct I as (v1 & v2 & u1 & u2 & E1 & E2 & O1 & O2).
      destruct (LT u1 u2 _ p2 F2) as (t & T1 & T01 & At); [|exact O2|apply (clear_ok _ _ K2); eapply nth_error_In; exact E2|].
      { apply (spec_segs_In_both _ _ _ _ (nth_error_In _ _ E2)). }
      exists t. split; [|intros v; apply P2]. split; [exact T1|]. exists u1, u2. auto.
    + intros k sp sp' I I'. apply in_map_iff in I. destruct I as (b & [= <- <-] & I). apply in_map_iff in I'. destruct I' as (b' & [= E <-] & I').
      split; [now apply SPR|]. intros t u v _ _ _ Ev. eapply P2. exact Ev.
  - intros k sp t v _ _ _ E. eapply P1. exact E.
  - intros k sp t v _ _ _ E. eapply P2. exact E.
  - intros k t q Lt (a & b & E & Ht & At) (u1 & u2 & I & On). apply In_nth_error in I. destruct I as (j & E2).
    apply in_map_iff. exists (BI k j q). split; [reflexivity|]. apply HB. exists a, b, u1, u2. cbn [bi_index1 bi_index2 bi_point].
    repeat split; auto. exists t. auto.
  - intros k t q Lt (a & b & E & Ht & At) (u1 & u2 & I & On). apply In_nth_error in I. destruct I as (j & E2).
    apply in_map_iff. exists (BI j k q). split; [reflexivity|]. apply HB. exists u1, u2, a, b. cbn [bi_index1 bi_index2 bi_point].
    repeat split; auto. exists t. auto.
  - intros b b' I I'. apply HB in I, I'. now apply common_spread.
Qed.

Lemma common_index q : on_path p1 q -> on_path p2 q -> exists i j, common_point p1 p2 (BI i j q).
Proof.
  intros (v1 & v2 & I1 & O1) (u1 & u2 & I2 & O2). apply In_nth_error in I1, I2. destruct I1 as (i & E1). destruct I2 as (j & E2).
  exists i, j, v1, v2, u1, u2. auto.
Qed.

(** The region of an operation on such polygons, whether they cross or not. *)
Theorem polygons_region mk op idx boxes o1 o2 : makes_index mk ->
  index_of boxes idx -> boxes = map (fun s => seg_fast_approx_bounding_box (fst s) (snd s)) (spec_segs (vtx p1) (is_closed p1)) ->
  valid_loop p1 -> valid_loop p2 -> simple_loop p1 o1 -> simple_loop p2 o2 ->
  exists r, polyline_boolean mk p1 p2 op idx eps = Ret r
  /\ (forall l, In l (br_pos r ++ br_neg r) -> valid_loop (brp_pline l) /\ pline_ok (brp_pline l)
      /\ forall q, on_path (brp_pline l) q -> on_path p1 q \/ on_path p2 q)
  /\ ((exists q, on_path p1 q /\ on_path p2 q) -> forall x, ~ on_path p1 x -> ~ on_path p2 x ->
      wind_together (map brp_pline (br_pos r ++ br_neg r)) x (once o2 * times_around op (SpecPrune.inside p1 x) (SpecPrune.inside p2 x))%Z)
  /\ ((forall q, ~ (on_path p1 q /\ on_path p2 q)) -> forall x, ~ on_path p1 x -> ~ on_path p2 x ->
      (region (fun p y => SpecPrune.inside p y = true) r x <-> operation op (SpecPrune.inside p1 x = true) (SpecPrune.inside p2 x = true))).
Proof.
  intros MK IO EB V1 V2' S1 S2. assert (BL : length boxes = length (spec_segs (vtx p1) (is_closed p1))) by (rewrite EB; apply map_length).
  pose proof clear as (_ & _ & K1 & K2 & _). destruct (found_common boxes idx IO EB) as (bs & EF & _ & HB).
  destruct bs as [|b0 bs].
  - assert (AP : forall q, ~ (on_path p1 q /\ on_path p2 q)).
    { intros q (Q1 & Q2). destruct (common_index q Q1 Q2) as (i & j & C). apply HB in C. destruct C. }
    destruct (region_apart mk p1 p2 op idx eps boxes IO BL V1 V2' (clear_ok _ _ K1) (clear_ok _ _ K2) AP EF) as (r & E & L & G).
    exists r. split; [exact E|]. split; [|split].
    + intros l I. destruct (L l I) as [-> | ->]; (split; [assumption|]); (split; [eapply clear_ok; eassumption|]); auto.
    + intros (q & Q). exfalso. exact (AP q Q).
    + intros _. exact G.
  - destruct (region_crossing mk p1 p2 op idx eps boxes (b0 :: bs) o1 o2 MK IO BL V1 V2' epos K1 K2 S1 S2 EF ltac:(discriminate) (clean _ HB)) as (r & E & L & G).
    exists r. split; [exact E|]. split; [exact L|]. split; [intros _; exact G|].
    intros AP. exfalso. apply (AP (bi_point b0)). apply common_path. apply HB. now left.
Qed.
End Pair.
