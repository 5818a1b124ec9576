(** Intersections between two polylines (C25). *)
From Coq Require Import List Bool Arith Lia Permutation.
From Verif Require Import Num Res ModelMath ModelSeg ModelPline ModelSegIntr ModelIndex ModelIntersects Spec SpecIndex SpecIntersects.
From Verif Require Import ProofBase ProofIter ProofIndex2 ProofOffset2 ProofSelf.
Import ListNotations.

Section Find.
Context {T : Type} {N : Num T}.
Context (p1 p2 : pline T) (eps : T).
Local Notation segs1 := (spec_segs (vtx p1) (is_closed p1)).
Local Notation segs2 := (spec_segs (vtx p2) (is_closed p2)).

(** The overlap [o] of segment [i] makes the vertex after [i] a possible duplicate. *)
Definition marks (p : pline T) (i : nat) (o : overlap_intr T) : bool :=
  match nth_error (vtx p) ((i + 1) mod vertex_count p) with
  | Some v => v2fuzzy_eq_eps (pos v) (oi_point1 o) eps || v2fuzzy_eq_eps (pos v) (oi_point2 o) eps
  | None => false
  end.

Definition track (st : fi_state T) (e : intr_event T) : fi_state T :=
  match e with
  | EvBasic b => FI (fi_basic st ++ [b]) (fi_overlap st) (fi_dup1 st) (fi_dup2 st)
  | EvOverlap o =>
    FI (fi_basic st) (fi_overlap st ++ [o])
       (if marks p1 (oi_index1 o) o then ((oi_index1 o + 1) mod vertex_count p1) :: fi_dup1 st else fi_dup1 st)
       (if marks p2 (oi_index2 o) o then ((oi_index2 o + 1) mod vertex_count p2) :: fi_dup2 st else fi_dup2 st)
  end.

Lemma find_hit i1 i2 u1 u2 st : i1 < length segs1 -> nth_error segs2 i2 = Some (u1, u2) ->
  find_intersects_hit p1 p2 eps i2 u1 u2 st i1 = Ret (fold_left track (cross_pair p1 p2 eps (i1, i2)) st).
Proof.
  intros H1 E2. destruct (seg_at_index p1 i1 H1) as (v1 & v2 & E1 & A1 & A2 & L1).
  assert (H2 : i2 < length segs2) by (apply nth_error_Some; congruence).
  destruct (seg_at_index p2 i2 H2) as (u1' & u2' & E2' & B1 & B2 & L2). rewrite E2 in E2'. injection E2' as <- <-.
  unfold find_intersects_hit, cross_pair. rewrite E1, E2, (next_wrapping_index_mod p1), (next_wrapping_index_mod p2) by assumption.
  unfold at_, index. rewrite A1, A2. cbn [rbind].
  change (is_closed p1 || negb (Nat.eqb i1 (vertex_count p1 - 2))) with (continues p1 i1).
  change (is_closed p2 || negb (Nat.eqb i2 (vertex_count p2 - 2))) with (continues p2 i2).
  destruct (pline_seg_intr v1 v2 u1 u2 eps) as [|q|q|q1 q2|q1 q2|q1 q2]; cbn [events_of filter].
  - reflexivity.
  - destruct (negb _); reflexivity.
  - destruct (negb _); reflexivity.
  - destruct (negb (_ && _ || _ && _)); destruct (negb (_ && _ || _ && _)); reflexivity.
  - cbn [fold_left track oi_index1 oi_index2]. unfold marks. cbn [oi_point1 oi_point2]. rewrite A2, B2. reflexivity.
  - cbn [fold_left track oi_index1 oi_index2]. unfold marks. cbn [oi_point1 oi_point2]. rewrite A2, B2. reflexivity.
Qed.

Lemma find_hits i2 u1 u2 hits st : Forall (fun i => i < length segs1) hits -> nth_error segs2 i2 = Some (u1, u2) ->
  rfold (find_intersects_hit p1 p2 eps i2 u1 u2) hits st
  = Ret (fold_left track (flat_map (cross_pair p1 p2 eps) (map (fun i1 => (i1, i2)) hits)) st).
Proof.
  intros F E2. revert st. induction F as [|h t Hh F IH]; intros st; [reflexivity|].
  cbn [rfold map flat_map]. rewrite (find_hit h i2 u1 u2 st Hh E2). cbn [rbind]. rewrite fold_left_app. apply IH.
Qed.

Context (boxes : list (aabb T)) (idx : sindex T).
Hypothesis IO : index_of boxes idx.
Hypothesis BL : length boxes = length segs1.

Definition cross_hits (i2 : nat) : list nat :=
  match nth_error segs2 i2 with
  | Some (u1, u2) => ix_query idx (aabb_grow (seg_fast_approx_bounding_box u1 u2) eps)
  | None => []
  end.

Definition cross_pairs_of (is : list nat) : list (nat * nat) :=
  flat_map (fun i2 => map (fun i1 => (i1, i2)) (cross_hits i2)) is.

Lemma cross_hits_lt i2 : Forall (fun i => i < length segs1) (cross_hits i2).
Proof.
  apply Forall_forall. intros h. unfold cross_hits. destruct (nth_error segs2 i2) as [[u1 u2]|]; [|intros []].
  destruct IO as (_ & _ & Q). destruct (Q (aabb_grow (seg_fast_approx_bounding_box u1 u2) eps)) as [_ Q2]. rewrite Q2.
  intros (b & Eb & _). rewrite <- BL. apply nth_error_Some. congruence.
Qed.

Lemma find_segs is st : Forall (fun i => i < length segs2) is ->
  rfold (find_intersects_seg p1 p2 idx eps) (map (fun i => (i, (i + 1) mod vertex_count p2)) is) st
  = Ret (fold_left track (flat_map (cross_pair p1 p2 eps) (cross_pairs_of is)) st).
Proof.
  intros F. revert st. induction F as [|i t Hi F IH]; intros st; [reflexivity|].
  cbn [map rfold cross_pairs_of flat_map]. destruct (seg_at_index p2 i Hi) as (u1 & u2 & E2 & B1 & B2 & L2).
  unfold find_intersects_seg at 1. unfold at_, index. rewrite B1, B2. cbn [rbind].
  pose proof (cross_hits_lt i) as CL.
  assert (EC : cross_hits i = ix_query idx (aabb_grow (seg_fast_approx_bounding_box u1 u2) eps)) by (unfold cross_hits; rewrite E2; reflexivity).
  rewrite <- EC. rewrite (find_hits i u1 u2 _ st CL E2). cbn [rbind]. fold (cross_pairs_of t).
  rewrite flat_map_app, fold_left_app. apply IH.
Qed.

Lemma tracked l st :
  fi_basic (fold_left track l st) = fi_basic st ++ basics l
  /\ fi_overlap (fold_left track l st) = fi_overlap st ++ overlaps l
  /\ (forall k, In k (fi_dup1 (fold_left track l st)) <-> In k (fi_dup1 st)
        \/ exists o, In o (overlaps l) /\ marks p1 (oi_index1 o) o = true /\ (oi_index1 o + 1) mod vertex_count p1 = k)
  /\ (forall k, In k (fi_dup2 (fold_left track l st)) <-> In k (fi_dup2 st)
        \/ exists o, In o (overlaps l) /\ marks p2 (oi_index2 o) o = true /\ (oi_index2 o + 1) mod vertex_count p2 = k).
Proof.
  revert st. induction l as [|e t IH]; intros st.
  - cbn. rewrite !app_nil_r. repeat split; auto; intros [H|(o & [] & _)]; exact H.
  - cbn [fold_left]. destruct (IH (track st e)) as (H1 & H2 & H3 & H4). rewrite H1, H2. destruct e as [b|o]; cbn [track fi_basic fi_overlap fi_dup1 fi_dup2] in *.
    + cbn [basics overlaps flat_map app]. rewrite <- app_assoc. repeat split; auto; apply H3 || apply H4.
    + cbn [basics overlaps flat_map app]. rewrite <- app_assoc. split; [reflexivity|]. split; [reflexivity|].
      split; intros k; [rewrite H3|rewrite H4].
      * destruct (marks p1 (oi_index1 o) o) eqn:M; cbn [In]; split.
        -- intros [[E|H]|(o' & H & M' & E)]; [right; exists o|left|right; exists o']; auto.
        -- intros [H|(o' & [<-|H] & M' & E)]; [auto|auto|]. right. exists o'. auto.
        -- intros [H|(o' & H & M' & E)]; [left|right; exists o']; auto.
        -- intros [H|(o' & [<-|H] & M' & E)]; [auto|congruence|]. right. exists o'. auto.
      * destruct (marks p2 (oi_index2 o) o) eqn:M; cbn [In]; split.
        -- intros [[E|H]|(o' & H & M' & E)]; [right; exists o|left|right; exists o']; auto.
        -- intros [H|(o' & [<-|H] & M' & E)]; [auto|auto|]. right. exists o'. auto.
        -- intros [H|(o' & H & M' & E)]; [left|right; exists o']; auto.
        -- intros [H|(o' & [<-|H] & M' & E)]; [auto|congruence|]. right. exists o'. auto.
Qed.

Lemma nat_in_spec k l : nat_in k l = true <-> In k l.
Proof.
  unfold nat_in. rewrite existsb_exists. split.
  - intros (x & H & E). apply Nat.eqb_eq in E. subst. exact H.
  - intros H. exists k. rewrite Nat.eqb_refl. auto.
Qed.

(** One half of the duplicate test. *)
Lemma dup_test (p : pline T) (ix : overlap_intr T -> nat) l dup k q v :
  (forall k, In k dup <-> exists o, In o l /\ marks p (ix o) o = true /\ (ix o + 1) mod vertex_count p = k) ->
  nth_error (vtx p) k = Some v ->
  existsb (fun o => end_again eps p (ix o) o k q) l = nat_in k dup && v2fuzzy_eq_eps q (pos v) eps.
Proof.
  intros D E. apply eq_true_iff_eq. rewrite existsb_exists, andb_true_iff, nat_in_spec, D. unfold end_again, marks. rewrite E. split.
  - intros (o & H & R). apply andb_prop in R as [R1 R2]. apply andb_prop in R2 as [R2 R3]. apply Nat.eqb_eq in R1.
    split; [|exact R3]. exists o. rewrite R1, E. auto.
  - intros ((o & H & M & <-) & F). exists o. rewrite E in M. rewrite Nat.eqb_refl, M, F. auto.
Qed.

Lemma rfilter_ok {A} (f : A -> res bool) g l : Forall (fun a => f a = Ret (g a)) l -> rfilter f l = Ret (filter g l).
Proof.
  induction 1 as [|a t E F IH]; [reflexivity|]. cbn [rfilter filter]. rewrite E, IH. cbn [rbind]. destruct (g a); reflexivity.
Qed.

Lemma events_indexes i j k ko (x : seg_intr T) e : In e (events_of i j k ko x) ->
  match e with EvBasic b => bi_index1 b = i /\ bi_index2 b = j /\ k (bi_point b) = true /\ In (bi_point b) (points_of x)
             | EvOverlap o => oi_index1 o = i /\ oi_index2 o = j
                /\ (x = SIOverlapLines (oi_point1 o) (oi_point2 o) \/ x = SIOverlapArcs (oi_point1 o) (oi_point2 o)) end.
Proof.
  destruct x as [|q|q|q1 q2|q1 q2|q1 q2]; cbn [events_of].
  - intros [].
  - intros H. apply in_map_iff in H as (q' & <- & H). apply filter_In in H as [H' H]. auto.
  - intros H. apply in_map_iff in H as (q' & <- & H). apply filter_In in H as [H' H]. auto.
  - intros H. apply in_map_iff in H as (q' & <- & H). apply filter_In in H as [H' H]. auto.
  - destruct (ko q1); [|intros []]. intros [<-|[]]. cbn. auto.
  - destruct (ko q1); [|intros []]. intros [<-|[]]. cbn. auto.
Qed.

Definition found : list (intr_event T) := flat_map (cross_pair p1 p2 eps) (cross_pairs_of (seq 0 (length segs2))).

Lemma cross_basic ij (b : basic_intr T) : In (EvBasic b) (cross_pair p1 p2 eps ij) ->
  (bi_index1 b, bi_index2 b) = ij /\ exists v1 v2 u1 u2,
   nth_error segs1 (bi_index1 b) = Some (v1, v2) /\ nth_error segs2 (bi_index2 b) = Some (u1, u2)
   /\ In (bi_point b) (points_of (pline_seg_intr v1 v2 u1 u2 eps))
   /\ (v2fuzzy_eq_eps (pos v2) (bi_point b) eps = true -> continues p1 (bi_index1 b) = false)
   /\ (v2fuzzy_eq_eps (pos u2) (bi_point b) eps = true -> continues p2 (bi_index2 b) = false).
Proof.
  destruct ij as [i j]. unfold cross_pair. destruct (nth_error segs1 i) as [[v1 v2]|] eqn:E1; [|intros []].
  destruct (nth_error segs2 j) as [[u1 u2]|] eqn:E2; [|intros []]. intros H. apply events_indexes in H as (<- & <- & K & KP).
  split; [reflexivity|]. exists v1, v2, u1, u2. split; [exact E1|]. split; [exact E2|]. split; [exact KP|].
  apply negb_true_iff, orb_false_iff in K as [K1 K2]. split; intros F; rewrite F in *.
  - exact K1.
  - exact K2.
Qed.

Lemma basics_In l (b : basic_intr T) : In b (basics l) <-> In (EvBasic b) l.
Proof.
  unfold basics. rewrite in_flat_map. split.
  - intros ([b'|o] & H & K); [destruct K as [<-|[]]; exact H|destruct K].
  - intros H. exists (EvBasic b). cbn. auto.
Qed.

Lemma overlaps_In l (o : overlap_intr T) : In o (overlaps l) <-> In (EvOverlap o) l.
Proof.
  unfold overlaps. rewrite in_flat_map. split.
  - intros ([b'|o'] & H & K); [destruct K|destruct K as [<-|[]]; exact H].
  - intros H. exists (EvOverlap o). cbn. auto.
Qed.

Lemma repeats_keep l dup1 dup2 b : 
  (forall k, In k dup1 <-> exists o, In o l /\ marks p1 (oi_index1 o) o = true /\ (oi_index1 o + 1) mod vertex_count p1 = k) ->
  (forall k, In k dup2 <-> exists o, In o l /\ marks p2 (oi_index2 o) o = true /\ (oi_index2 o + 1) mod vertex_count p2 = k) ->
  bi_index1 b < vertex_count p1 -> bi_index2 b < vertex_count p2 ->
  keep_basic p1 p2 eps dup1 dup2 b = Ret (negb (repeats p1 p2 eps l b))
  /\ (dup1 = [] -> dup2 = [] -> repeats p1 p2 eps l b = false).
Proof.
  intros D1 D2 L1 L2. unfold vertex_count in L1, L2.
  destruct (nth_error (vtx p1) (bi_index1 b)) as [v1|] eqn:E1; [|apply nth_error_None in E1; lia].
  destruct (nth_error (vtx p2) (bi_index2 b)) as [v2|] eqn:E2; [|apply nth_error_None in E2; lia].
  unfold repeats. rewrite (dup_test p1 oi_index1 l dup1 _ (bi_point b) v1 D1 E1), (dup_test p2 oi_index2 l dup2 _ (bi_point b) v2 D2 E2).
  split; [|intros -> ->; reflexivity].
  unfold keep_basic, at_, index. rewrite E1, E2. cbn [rbind].
  destruct (nat_in (bi_index1 b) dup1); cbn [rbind andb orb]; [destruct (v2fuzzy_eq_eps _ (pos v1) eps); cbn [orb negb]; [reflexivity|]|];
  destruct (nat_in (bi_index2 b) dup2); cbn [rbind andb orb]; reflexivity.
Qed.

Lemma find_intersects_eq :
  find_intersects p1 p2 idx eps
  = Ret (filter (fun b => negb (repeats p1 p2 eps (overlaps found) b)) (basics found), overlaps found).
Proof.
  unfold find_intersects. destruct (Nat.ltb_spec (vertex_count p1) 2) as [L1|L1]; [|destruct (Nat.ltb_spec (vertex_count p2) 2) as [L2|L2]]; cbn [orb].
  - assert (E : found = []); [|rewrite E; reflexivity]. unfold found.
    assert (LS : length segs1 = 0) by (rewrite spec_segs_length; fold (vertex_count p1); destruct (Nat.ltb_spec (vertex_count p1) 2); [reflexivity|lia]).
    assert (EC : forall is, cross_pairs_of is = []).
    { induction is as [|i t IH]; [reflexivity|]. cbn [cross_pairs_of flat_map]. fold (cross_pairs_of t). rewrite IH.
      pose proof (cross_hits_lt i) as F. rewrite LS in F. destruct (cross_hits i); [reflexivity|]. inversion F; subst. lia. }
    rewrite EC. reflexivity.
  - assert (LS : length segs2 = 0) by (rewrite spec_segs_length; fold (vertex_count p2); destruct (Nat.ltb_spec (vertex_count p2) 2); [reflexivity|lia]).
    unfold found. rewrite LS. reflexivity.
  - rewrite iter_segment_indexes_spec. cbn [rbind].
    assert (EI : spec_seg_indexes (vertex_count p2) (is_closed p2) = map (fun i => (i, (i + 1) mod vertex_count p2)) (seq 0 (length segs2))).
    { unfold spec_seg_indexes. rewrite spec_segs_length. reflexivity. }
    rewrite EI, find_segs by (apply Forall_forall; intros i Hi; apply in_seq in Hi; lia). cbn [rbind]. fold found.
    destruct (tracked found (FI [] [] [] [])) as (H1 & H2 & H3 & H4). cbn [fi_basic fi_overlap app] in H1, H2. rewrite H1, H2.
    set (st := fold_left track found (FI [] [] [] [])) in *. clearbody st.
    assert (D1 : forall k, In k (fi_dup1 st) <-> exists o, In o (overlaps found) /\ marks p1 (oi_index1 o) o = true /\ (oi_index1 o + 1) mod vertex_count p1 = k).
    { intros k. rewrite H3. cbn. split; [intros [[]|H]; exact H|auto]. }
    assert (D2 : forall k, In k (fi_dup2 st) <-> exists o, In o (overlaps found) /\ marks p2 (oi_index2 o) o = true /\ (oi_index2 o + 1) mod vertex_count p2 = k).
    { intros k. rewrite H4. cbn. split; [intros [[]|H]; exact H|auto]. }
    assert (RK : forall b, In b (basics found) -> keep_basic p1 p2 eps (fi_dup1 st) (fi_dup2 st) b = Ret (negb (repeats p1 p2 eps (overlaps found) b))
       /\ (fi_dup1 st = [] -> fi_dup2 st = [] -> repeats p1 p2 eps (overlaps found) b = false)).
    { intros b Hb. apply basics_In in Hb. unfold found in Hb. apply in_flat_map in Hb as (ij & _ & Hb).
      apply cross_basic in Hb as (_ & v1 & v2 & u1 & u2 & E1 & E2 & _).
      apply repeats_keep; auto.
      - destruct (seg_at_index p1 (bi_index1 b)) as (? & ? & ? & ? & ? & L); [apply nth_error_Some; congruence|exact L].
      - destruct (seg_at_index p2 (bi_index2 b)) as (? & ? & ? & ? & ? & L); [apply nth_error_Some; congruence|exact L]. }
    assert (RF : rfilter (keep_basic p1 p2 eps (fi_dup1 st) (fi_dup2 st)) (basics found)
                 = Ret (filter (fun b => negb (repeats p1 p2 eps (overlaps found) b)) (basics found))).
    { apply rfilter_ok. apply Forall_forall. intros b Hb. apply RK, Hb. }
    destruct (fi_dup1 st) eqn:F1; [destruct (fi_dup2 st) eqn:F2|]; [|rewrite RF; reflexivity|rewrite RF; reflexivity].
    f_equal. f_equal. clear RF H1 H2. induction (basics found) as [|b t IH]; [reflexivity|]. cbn [filter].
    rewrite (proj2 (RK b (or_introl eq_refl)) eq_refl eq_refl). cbn [negb]. f_equal. apply IH. intros b' Hb'. apply RK. right. exact Hb'.
Qed.

Lemma cross_pairs_ok : cross_ok p2 eps boxes (cross_pairs_of (seq 0 (length segs2))).
Proof.
  split; [|split; [exists cross_hits; reflexivity|]].
  - assert (G : forall is, NoDup is -> NoDup (cross_pairs_of is)).
    { induction 1 as [|i t NI ND IH]; [constructor|]. cbn [cross_pairs_of flat_map]. fold (cross_pairs_of t).
      assert (NH : NoDup (cross_hits i)) by (unfold cross_hits; destruct (nth_error segs2 i) as [[u1 u2]|]; [apply IO|constructor]).
      induction NH as [|h l NI2 NH IH2]; [exact IH|]. cbn [map app]. constructor; [|exact IH2].
      rewrite in_app_iff, in_map_iff. intros [(h' & E & H)|H].
      - injection E as <-. contradiction.
      - unfold cross_pairs_of in H. apply in_flat_map in H as (i' & H & K). apply in_map_iff in K as (h' & E & _). injection E as _ <-. contradiction. }
    apply G, seq_NoDup.
  - intros i1 i2. unfold cross_pairs_of. rewrite in_flat_map. split.
    + intros (i & Hi & K). apply in_map_iff in K as (h & E & H). injection E as -> ->. unfold cross_hits in H.
      destruct (nth_error segs2 i2) as [[u1 u2]|] eqn:E2; [|destruct H]. destruct IO as (_ & _ & Q).
      destruct (Q (aabb_grow (seg_fast_approx_bounding_box u1 u2) eps)) as [_ Q2]. apply Q2 in H as (b & Eb & O). exists b, u1, u2. auto.
    + intros (b & u1 & u2 & Eb & E2 & O). exists i2. split.
      * apply in_seq. split; [lia|]. apply nth_error_Some. congruence.
      * apply in_map_iff. exists i1. split; [reflexivity|]. unfold cross_hits. rewrite E2. destruct IO as (_ & _ & Q).
        destruct (Q (aabb_grow (seg_fast_approx_bounding_box u1 u2) eps)) as [_ Q2]. apply Q2. eauto.
Qed.

Lemma find_intersects_pairs : exists pairs, cross_ok p2 eps boxes pairs
  /\ let l := flat_map (cross_pair p1 p2 eps) pairs in
     find_intersects p1 p2 idx eps = Ret (filter (fun b => negb (repeats p1 p2 eps (overlaps l) b)) (basics l), overlaps l).
Proof. eexists. split; [exact cross_pairs_ok|exact find_intersects_eq]. Qed.

Lemma continues_last (p : pline T) i : i < length (spec_segs (vtx p) (is_closed p)) -> continues p i = false ->
  is_closed p = false /\ i + 1 = length (spec_segs (vtx p) (is_closed p)).
Proof.
  unfold continues. rewrite spec_segs_length. fold (vertex_count p). intros L H. apply orb_false_iff in H as [C H]. rewrite C in *.
  apply negb_false_iff, Nat.eqb_eq in H. destruct (Nat.ltb_spec (vertex_count p) 2); lia.
Qed.

Lemma find_intersects_each : exists bs os, find_intersects p1 p2 idx eps = Ret (bs, os)
  /\ Forall (fun b => basic_ok p1 p2 eps b /\ repeats p1 p2 eps os b = false) bs
  /\ Forall (overlap_ok p1 p2 eps) os.
Proof.
  rewrite find_intersects_eq. eexists _, _. split; [reflexivity|]. split; apply Forall_forall.
  - intros b H. apply filter_In in H as [H R]. apply negb_true_iff in R. split; [|exact R].
    apply basics_In in H. unfold found in H. apply in_flat_map in H as (ij & _ & H).
    apply cross_basic in H as (_ & v1 & v2 & u1 & u2 & E1 & E2 & K & C1 & C2). exists v1, v2, u1, u2.
    split; [exact E1|]. split; [exact E2|]. split; [exact K|].
    split; intros F; apply continues_last; auto; apply nth_error_Some; congruence.
  - intros o H. apply overlaps_In in H. unfold found in H. apply in_flat_map in H as ([i j] & _ & H). unfold cross_pair in H.
    destruct (nth_error segs1 i) as [[v1 v2]|] eqn:E1; [|destruct H]. destruct (nth_error segs2 j) as [[u1 u2]|] eqn:E2; [|destruct H].
    apply events_indexes in H as (<- & <- & K). exists v1, v2, u1, u2. auto.
Qed.
End Find.
