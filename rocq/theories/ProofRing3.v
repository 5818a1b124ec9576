(** Offsets of shapes of circles (C73). *)
From Coq Require Import Reals List Bool Arith Lra Lia.
From Verif Require Import Num RNum Res ModelMath ModelSeg ModelPline ModelView ModelIndex ModelIntersects ModelBoolean ModelOffset ModelShape.
From Verif Require Import Spec SpecGeom SpecIntr SpecBox SpecIndex SpecOffset SpecOffset2 SpecOffsetJoin SpecCircle SpecPolyBool SpecCurve SpecShape SpecRing.
From Verif Require Import ProofR ProofBase ProofArc ProofCircleOff2 ProofDisc ProofDisc2 ProofTotal4 ProofShape2 ProofShape6 ProofRing ProofRing2.
Import ListNotations.
Local Open Scope R_scope.

(** The inputs that do not vanish, numbered. *)
Fixpoint lefts (k : nat) (ds : list disc) (fs : list fate) : list (nat * (disc * fate)) :=
  match ds, fs with
  | d :: ds, f :: fs => (if is_left f then [(k, (d, f))] else []) ++ lefts (S k) ds fs
  | _, _ => []
  end.

Lemma lefts_app ds1 fs1 ds2 fs2 : length fs1 = length ds1 -> forall k, lefts k (ds1 ++ ds2) (fs1 ++ fs2) = lefts k ds1 fs1 ++ lefts (k + length ds1) ds2 fs2.
Proof.
  revert fs1. induction ds1 as [|d ds1 IH]; intros [|f fs1] E k; try discriminate; cbn [app lefts length]; [now rewrite Nat.add_0_r|].
  rewrite IH by now injection E. rewrite app_assoc. do 2 f_equal. lia.
Qed.

Lemma lefts_nth ds fs : forall k i d f, In (i, (d, f)) (lefts k ds fs) -> (k <= i)%nat /\ nth_error ds (i - k) = Some d /\ nth_error fs (i - k) = Some f /\ f <> Gone.
Proof.
  revert fs. induction ds as [|x ds IH]; intros [|g fs] k i d f H; try (destruct H; fail). cbn [lefts] in H. apply in_app_or in H as [H|H].
  - destruct (is_left g) eqn:E; [|destruct H]. destruct H as [H|[]]. injection H as <- <- <-. rewrite Nat.sub_diag. split; [lia|]. split; [reflexivity|]. split; [reflexivity|]. intros ->. discriminate.
  - destruct (IH fs (S k) i d f H) as (L & A & B & C). split; [lia|]. replace (i - k)%nat with (S (i - S k)) by lia. auto.
Qed.

Lemma lefts_kept ds fs : forall k, map (fun x => fst (snd x)) (filter (fun x => is_kept (snd (snd x))) (lefts k ds fs)) = marked ds (map is_kept fs).
Proof.
  unfold marked. revert fs. induction ds as [|d ds IH]; intros [|f fs] k; [reflexivity..|]. cbn [lefts map combine]. destruct f; cbn [is_left is_kept app filter map fst snd]; [apply IH|apply IH|f_equal; apply IH].
Qed.

Lemma marked_map {A B} (h : A -> B) (k : A -> bool) l : marked (map h l) (map k l) = map h (filter k l).
Proof. unfold marked. induction l as [|a l IH]; [reflexivity|]. cbn [map combine filter fst snd]. destruct (k a); cbn [map fst]; rewrite IH; reflexivity. Qed.

Lemma marked_app {A} (l m : list A) fs gs : length l = length fs -> marked (l ++ m) (fs ++ gs) = marked l fs ++ marked m gs.
Proof.
  unfold marked. revert fs. induction l as [|a l IH]; intros [|f fs] E; try discriminate; [reflexivity|]. cbn [app combine filter snd]. injection E as E. destruct f; cbn [map app fst]; [f_equal|]; now apply IH.
Qed.

Lemma marked_In {A} (l : list A) fs x : In x (marked l fs) -> In x l.
Proof. unfold marked. intros H. apply in_map_iff in H as ((a, f) & <- & H). apply filter_In in H as (H & _). eapply in_combine_l. exact H. Qed.

Lemma lefts_numbered offset ds fs : length fs = length ds -> forall k,
  numbered_from k (map (fun x => if is_left (snd x) then [outline (resized offset (fst x))] else []) (combine ds fs))
  = map (fun x => (fst x, outline (resized offset (fst (snd x))))) (lefts k ds fs).
Proof.
  revert fs. induction ds as [|d ds IH]; intros [|f fs] E k; try discriminate; [reflexivity|]. cbn [combine map lefts fst snd]. rewrite numbered_from_cons, map_app, IH by now injection E. f_equal.
  destruct (is_left f); reflexivity.
Qed.

Lemma outline_area d : is_disc d -> area (outline d) = Ret (db d * (PI * (dr d * dr d))).
Proof. intros (U & B & P). apply disc_area; assumption. Qed.
Lemma outline_negative d : of_sense 1 d -> negative (outline d) = false /\ loop_ccw (outline d) = true.
Proof.
  intros (I & B). assert (E : negative (outline d) = false).
  { unfold negative. rewrite (outline_area d I). rnum. apply rltb_false. rewrite B. pose proof PI_RGT_0. destruct I as (_ & _ & P). assert (0 < PI * (dr d * dr d)) by (apply Rmult_lt_0_compat; [|apply Rmult_lt_0_compat]; assumption). lra. }
  split; [exact E|]. unfold loop_ccw. now rewrite E.
Qed.
Lemma outline_positive d : of_sense (-1) d -> negative (outline d) = true /\ positive (outline d) = false /\ loop_ccw (outline d) = false.
Proof.
  intros (I & B). assert (E : negative (outline d) = true /\ positive (outline d) = false).
  { unfold negative, positive. rewrite (outline_area d I). rnum. pose proof PI_RGT_0. destruct I as (_ & _ & P). assert (0 < PI * (dr d * dr d)) by (apply Rmult_lt_0_compat; [|apply Rmult_lt_0_compat]; assumption).
    split; [apply rltb_true|apply rltb_false]; rewrite B; lra. }
  destruct E as (E1 & E2). split; [exact E1|]. split; [exact E2|]. unfold loop_ccw. rewrite E1. apply andb_false_r.
Qed.
Lemma size_pos eps r : 0 < eps -> of_size eps r -> 0 < r. Proof. intros He (A & _). lra. Qed.

Lemma resized_disc b offset d : of_sense b d -> 0 < dr (resized offset d) -> of_sense b (resized offset d).
Proof. intros ((U & B & P) & E) H. split; [|exact E]. split; [exact U|]. split; [exact B|exact H]. Qed.

Section Rings.
Context (mk : list (aabb R) -> sindex R) (s : shape R) (offset : R) (o : shape_options R) (ds1 ds2 : list disc) (fs1 fs2 : list fate).
Hypothesis MK : makes_index mk.
Hypothesis OK : shape_ok s.
Hypothesis S1 : Forall (of_sense 1) ds1.
Hypothesis S2 : Forall (of_sense (-1)) ds2.
Hypothesis E1 : map ip_pline (sh_ccw s) = map outline ds1.
Hypothesis E2 : map ip_pline (sh_cw s) = map outline ds2.
Hypothesis SO : sane o offset.
Hypothesis L1 : length fs1 = length ds1.
Hypothesis L2 : length fs2 = length ds2.
Local Notation ds := (ds1 ++ ds2).
Local Notation fs := (fs1 ++ fs2).
Hypothesis FA : fated o offset ds fs.
Local Notation inputs := (sh_ccw s ++ sh_cw s).
Local Notation eps := (so_pos_equal_eps o).

Lemma all_discs d : In d ds -> is_disc d.
Proof. intros I. rewrite Forall_forall in S1, S2. apply in_app_or in I as [I|I]; [apply (S1 d I)|apply (S2 d I)]. Qed.

Lemma input_at k ip : nth_error inputs k = Some ip -> exists d, nth_error ds k = Some d /\ ip_pline ip = outline d /\ pline_index (outline d) (ip_index ip).
Proof.
  intros H. assert (E : map ip_pline inputs = map outline ds) by (rewrite !map_app, E1, E2; reflexivity).
  pose proof (map_nth_error ip_pline k inputs H) as M. rewrite E, nth_error_map in M. destruct (nth_error ds k) as [d|]; [|discriminate]. cbn in M. injection M as M.
  exists d. split; [reflexivity|]. split; [congruence|]. rewrite M. destruct OK as (F & _). rewrite Forall_forall in F. apply F. eapply nth_error_In; exact H.
Qed.

Lemma left_pos i d f : nth_error ds i = Some d -> nth_error fs i = Some f -> f <> Gone -> of_size eps (dr (resized offset d)) /\ 1 / 100000000 <= dr (resized offset d) /\ 0 < dr (resized offset d).
Proof.
  intros Hd Hf NG. destruct FA as (_ & H & _). specialize (H i d f Hd Hf). destruct SO as (He & _). destruct f; [contradiction| |]; destruct H as (A & B & _); (split; [exact A|split; [exact B|eapply size_pos; eassumption]]).
Qed.

(** Whether the offset circle passes the test. *)
Lemma start_kept i d f : nth_error ds i = Some d -> nth_error fs i = Some f -> f <> Gone ->
  (is_kept f = true <-> clear_start inputs offset o (i, outline (resized offset d))).
Proof.
  intros Hd Hf NG. destruct (left_pos i d f Hd Hf NG) as (SZ & _ & P). pose proof SO as (He & _ & Ht & Ho).
  pose proof (all_discs d (nth_error_In _ _ Hd)) as (U & B & _). set (r' := dr (resized offset d)) in *.
  set (w0 := vertex_at (moved (dc d) (du d) r') (db d)). set (w1 := vertex_at (moved (dc d) (du d) (- r')) (db d)).
  assert (MD : dist (seg_midpoint w0 w1) (dc d) = r').
  { pose proof (half_mid (dc d) (du d) (db d) U B r' ltac:(lra)) as M. fold w0 w1 in M. rewrite Rabs_pos_eq in M by lra. exact M. }
  assert (TRI : forall c, dist (seg_midpoint w0 w1) c <= r' + dist (dc d) c /\ r' <= dist (seg_midpoint w0 w1) c + dist (dc d) c /\ dist (dc d) c <= r' + dist (seg_midpoint w0 w1) c).
  { intros c. pose proof (ProofJordan2.dist_triangle (seg_midpoint w0 w1) (dc d) c) as T1. pose proof (ProofJordan2.dist_triangle (seg_midpoint w0 w1) c (dc d)) as T2.
    pose proof (ProofJordan2.dist_triangle (dc d) (seg_midpoint w0 w1) c) as T3. rewrite (ProofJordan2.dist_sym c (dc d)) in T2. rewrite (ProofJordan2.dist_sym (dc d) (seg_midpoint w0 w1)) in T3. rewrite MD in *. lra. }
  destruct FA as (LF & H & _). pose proof (H i d f Hd Hf) as F. split.
  - destruct f; try discriminate. intros _ v0 v1 t k ip SG Hk NK. cbn [fst snd] in *. destruct F as (_ & _ & F).
    change (spec_segs (vtx (outline (resized offset d))) (is_closed (outline (resized offset d)))) with [(w0, w1); (w1, w0)] in SG. injection SG as <- <- _.
    destruct (input_at k ip Hk) as (e & He' & EP & IX). rewrite EP. pose proof (all_discs e (nth_error_In _ _ He')) as (Ue & Be & Pe).
    destruct (F k e (Rabs offset - so_offset_dist_eps o) He' NK eq_refl) as [G|G]; fold r' in G; destruct (TRI (dc e)) as (T1 & T2 & T3); apply circle_valid; auto; try lra.
    + rewrite (Rabs_pos_eq (_ - dr e)); lra.
    + assert (M0 : 0 <= Rabs offset - so_offset_dist_eps o) by lra. remember (Rabs offset - so_offset_dist_eps o) as m eqn:Em. clear Em. unfold Rabs in G |- *. destruct (Rcase_abs (r' - dr e)), (Rcase_abs (dist (seg_midpoint w0 w1) (dc e) - dr e)); lra.
  - intros C. destruct f; [contradiction| |reflexivity]. exfalso. destruct F as (_ & _ & j & e & He' & NJ & G). fold r' in G.
    assert (Lj : (j < length inputs)%nat).
    { assert (E : length inputs = length ds) by (rewrite <- (map_length outline), <- (map_length ip_pline), !map_app, E1, E2; reflexivity). rewrite E. apply nth_error_Some. congruence. }
    destruct (nth_error inputs j) as [ip|] eqn:Ej; [|apply nth_error_None in Ej; lia]. destruct (input_at j ip Ej) as (e' & He'' & EP & IX). assert (e' = e) as -> by congruence.
    pose proof (all_discs e (nth_error_In _ _ He')) as (Ue & Be & Pe). specialize (C w0 w1 [(w1, w0)] j ip eq_refl Ej NJ). rewrite EP in C.
    revert C. apply (circle_invalid (dc e) (du e) (db e) (dr e) Ue Be Pe); auto.
    destruct (TRI (dc e)) as (T1 & T2 & T3). enough (Rabs (dist (seg_midpoint w0 w1) (dc e) - dr e) <= dist (dc d) (dc e) + Rabs (r' - dr e)) by lra.
    unfold Rabs. destruct (Rcase_abs (r' - dr e)), (Rcase_abs (dist (seg_midpoint w0 w1) (dc e) - dr e)); lra.
Qed.

Theorem rings_offset : exists r, shape_parallel_offset mk s offset o = Ret r /\ shape_ok r
  /\ map ip_pline (sh_ccw r) = map outline (survivors offset ds1 fs1)
  /\ map ip_pline (sh_cw r) = map outline (survivors offset ds2 fs2).
Proof.
  pose proof SO as (He & Hj & Ht & Ho). pose proof FA as (LF & HF & MISS).
  set (rss := map (fun x => if is_left (snd x) then [outline (resized offset (fst x))] else []) (combine ds fs)).
  assert (LI : length inputs = length ds) by (rewrite <- (map_length outline), <- (map_length ip_pline), !map_app, E1, E2; reflexivity).
  assert (FR : Forall2 (fun ip rs => parallel_offset mk (ip_pline ip) (ip_index ip) offset (OO (so_pos_equal_eps o) (so_slice_join_eps o) (so_offset_dist_eps o) false) = Ret rs) inputs rss).
  { apply forall2_nth; [unfold rss; rewrite map_length, combine_length, LF, LI; lia|]. intros i ip rs Hi Hr. destruct (input_at i ip Hi) as (d & Hd & EP & IX). unfold rss in Hr. rewrite nth_error_map in Hr.
    destruct (nth_error (combine ds fs) i) as [(d', f)|] eqn:EC; [|discriminate]. cbn in Hr. injection Hr as <-.
    assert (Hf : nth_error ds i = Some d' /\ nth_error fs i = Some f).
    { clear - EC. revert i EC. generalize (ds1 ++ ds2) as l, (fs1 ++ fs2) as m. induction l as [|a l IH]; intros [|b m] [|i] H; try discriminate; cbn in *; [injection H as <- <-; auto|eauto]. }
    destruct Hf as (Hd' & Hf). assert (d' = d) as -> by congruence. pose proof (all_discs d (nth_error_In _ _ Hd)) as (U & B & P). rewrite EP. pose proof (HF i d f Hd Hf) as F.
    destruct f; cbn [is_left].
    - destruct F as (F1 & F2 & F3). cbn [resized dr] in F2, F3. apply circle_gone'; cbn; auto; lra.
    - destruct (left_pos i d Hidden Hd Hf ltac:(discriminate)) as (SZ & Q1 & Q2). apply circle_offset'; cbn; auto; destruct SZ as (SZ & _); cbn [resized dr] in *; pose proof (Rabs_pos offset); lra.
    - destruct (left_pos i d Kept Hd Hf ltac:(discriminate)) as (SZ & Q1 & Q2). apply circle_offset'; cbn; auto; destruct SZ as (SZ & _); cbn [resized dr] in *; pose proof (Rabs_pos offset); lra. }
  set (g := fun x : nat * (disc * fate) => (fst x, outline (resized offset (fst (snd x))))).
  assert (LC : length (sh_ccw s) = length ds1) by (rewrite <- (map_length ip_pline), E1, map_length; reflexivity).
  assert (LIN : forall i d f, In (i, (d, f)) (lefts 0 ds fs) -> nth_error ds i = Some d /\ nth_error fs i = Some f /\ f <> Gone).
  { intros i d f H. apply lefts_nth in H. rewrite Nat.sub_0_r in H. tauto. }
  assert (IN1 : forall x, In x (lefts 0 ds1 fs1) -> (fst x < length ds1)%nat /\ of_sense 1 (resized offset (fst (snd x)))).
  { intros (i, (d, f)) H. pose proof H as H'. apply lefts_nth in H'. rewrite Nat.sub_0_r in H'. destruct H' as (_ & Hd & Hf & NG). cbn [fst snd]. split; [apply nth_error_Some; congruence|].
    assert (Hin : In (i, (d, f)) (lefts 0 ds fs)) by (rewrite lefts_app by exact L1; apply in_or_app; now left). destruct (LIN i d f Hin) as (A & B & C). destruct (left_pos i d f A B C) as (_ & _ & P).
    apply resized_disc; [|exact P]. rewrite Forall_forall in S1. apply S1. eapply nth_error_In; exact Hd. }
  assert (IN2 : forall x, In x (lefts (0 + length ds1) ds2 fs2) -> ~ (fst x < length ds1)%nat /\ of_sense (-1) (resized offset (fst (snd x)))).
  { intros (i, (d, f)) H. pose proof H as H'. apply lefts_nth in H'. destruct H' as (Li & Hd & Hf & NG). cbn [fst snd]. split; [lia|].
    assert (Hin : In (i, (d, f)) (lefts 0 ds fs)) by (rewrite lefts_app by exact L1; apply in_or_app; now right). destruct (LIN i d f Hin) as (A & B & C). destruct (left_pos i d f A B C) as (_ & _ & P).
    apply resized_disc; [|exact P]. rewrite Forall_forall in S2. apply S2. eapply nth_error_In; exact Hd. }
  assert (OUT : outlines (length (sh_ccw s)) offset rss = map g (lefts 0 ds fs)).
  { unfold outlines. cbv zeta. assert (NU : numbered rss = map g (lefts 0 ds fs)) by exact (lefts_numbered offset ds fs LF 0). rewrite NU, LC. rewrite lefts_app by exact L1. rewrite map_app.
    assert (N1 : forall x, In x (map g (lefts 0 ds1 fs1)) -> (fst x < length ds1)%nat /\ negative (snd x) = false).
    { intros x I. apply in_map_iff in I as (y & <- & I). destruct (IN1 y I) as (A & B). split; [exact A|]. apply (outline_negative _ B). }
    assert (N2 : forall x, In x (map g (lefts (0 + length ds1) ds2 fs2)) -> ~ (fst x < length ds1)%nat /\ negative (snd x) = true /\ positive (snd x) = false).
    { intros x I. apply in_map_iff in I as (y & <- & I). destruct (IN2 y I) as (A & B). split; [exact A|]. destruct (outline_positive _ B) as (Q1 & Q2 & _). auto. }
    set (A := map g (lefts 0 ds1 fs1)) in *. set (B := map g (lefts (0 + length ds1) ds2 fs2)) in *.
    rewrite (filter_all (fun x => negb (turned_around (length ds1) offset x)) (A ++ B)).
    - rewrite !filter_app.
      rewrite (filter_all (fun x => negb (negative (snd x))) A), (filter_nothing (fun x => negb (negative (snd x))) B), (filter_nothing (fun x => negative (snd x)) A), (filter_all (fun x => negative (snd x)) B); [now rewrite app_nil_r| | | |].
      + intros x I. apply N2, I.
      + intros x I. apply N1, I.
      + intros x I. now rewrite (proj1 (proj2 (N2 x I))).
      + intros x I. now rewrite (proj2 (N1 x I)).
    - intros x I. unfold turned_around. apply in_app_or in I as [I|I].
      + destruct (N1 x I) as (Q1 & Q2). rewrite (proj2 (Nat.ltb_lt _ _) Q1), Q2, andb_false_r. reflexivity.
      + destruct (N2 x I) as (Q1 & _ & Q2). rewrite (proj2 (Nat.ltb_ge (fst x) (length ds1))) by lia. rewrite Q2, andb_false_r. reflexivity. }
  destruct (shape_apart mk s offset o rss MK OK FR) as (gs & r & FG & ER & KR & C1 & C2).
  - rewrite OUT. apply Forall_forall. intros x I. apply in_map_iff in I as (y & <- & _). cbn. lia.
  - rewrite OUT. intros i j p q idx Hp Hq NE IX. rewrite map_map in Hp, Hq. rewrite nth_error_map in Hp, Hq.
    destruct (nth_error (lefts 0 ds fs) i) as [(i', (d, f))|] eqn:Xi; [|discriminate]. destruct (nth_error (lefts 0 ds fs) j) as [(j', (e, h))|] eqn:Xj; [|discriminate].
    cbn in Hp, Hq. injection Hp as <-. injection Hq as <-. destruct (LIN i' d f (nth_error_In _ _ Xi)) as (A1 & A2 & A3). destruct (LIN j' e h (nth_error_In _ _ Xj)) as (B1 & B2 & B3).
    assert (NE' : i' <> j').
    { intros <-. apply NE. assert (ND : NoDup (map fst (lefts 0 ds fs))).
      { clear. generalize 0%nat as k. generalize (fs1 ++ fs2) as m. induction (ds1 ++ ds2) as [|d l IH]; intros [|f m] k; try constructor. cbn [lefts]. destruct (is_left f); cbn [app map fst]; [|apply IH]. constructor; [|apply IH].
        intros I. apply in_map_iff in I as ((i, (d', f')) & E & I). cbn in E. subst i. apply lefts_nth in I. lia. }
      apply (proj1 (NoDup_nth_error _) ND); [rewrite map_length; apply nth_error_Some; congruence|]. rewrite !nth_error_map, Xi, Xj. reflexivity. }
    pose proof (MISS i' j' d e f h A1 A2 B1 B2 NE' A3 B3) as M. pose proof (all_discs d (nth_error_In _ _ A1)) as (U1 & Q1 & _). pose proof (all_discs e (nth_error_In _ _ B1)) as (U2 & Q2 & _).
    destruct (left_pos i' d f A1 A2 A3) as (Z1 & _). destruct (left_pos j' e h B1 B2 B3) as (Z2 & _).
    unfold outline. apply circles_miss; auto.
  - rewrite OUT in FG, C1, C2.
    assert (EG : gs = map (fun x => is_kept (snd (snd x))) (lefts 0 ds fs)).
    { assert (X : forall x, In x (lefts 0 ds fs) -> is_kept (snd (snd x)) = true <-> clear_start inputs offset o (g x)).
      { intros (i, (d, f)) I. destruct (LIN i d f I) as (A & B & C). exact (start_kept i d f A B C). }
      clear - FG X. revert gs FG X. induction (lefts 0 ds fs) as [|x l IH]; intros gs FG X; inversion FG as [|? b ? bs H F]; subst; [reflexivity|]. cbn [map]. f_equal.
      - specialize (X x (or_introl eq_refl)). apply Bool.eq_iff_eq_true. tauto.
      - apply IH; [exact F|intros y I; apply X; now right]. }
    assert (EM : marked (map snd (map g (lefts 0 ds fs))) gs = map outline (survivors offset ds1 fs1) ++ map outline (survivors offset ds2 fs2)).
    { rewrite EG, map_map, marked_map. unfold survivors. rewrite <- !map_app. rewrite <- marked_app by (rewrite map_length; now symmetry). rewrite <- map_app, <- (lefts_kept ds fs 0). rewrite !map_map. reflexivity. }
    assert (K1 : forall p, In p (map outline (survivors offset ds1 fs1)) -> negative p = false).
    { intros p I. apply in_map_iff in I as (d & <- & I). unfold survivors in I. rewrite <- (lefts_kept ds1 fs1 0) in I. rewrite map_map in I. apply in_map_iff in I as (x & <- & I). apply filter_In in I as (I & _). apply outline_negative. apply (IN1 x I). }
    assert (K2 : forall p, In p (map outline (survivors offset ds2 fs2)) -> negative p = true).
    { intros p I. apply in_map_iff in I as (d & <- & I). unfold survivors in I. rewrite <- (lefts_kept ds2 fs2 (0 + length ds1)) in I. rewrite map_map in I. apply in_map_iff in I as (x & <- & I). apply filter_In in I as (I & _). apply outline_positive. apply (IN2 x I). }
    rewrite EM, filter_app in C1, C2.
    rewrite (filter_all (fun p => negb (negative p))), (filter_nothing (fun p => negb (negative p))), app_nil_r in C1 by (intros p I; rewrite ?(K1 p I), ?(K2 p I); reflexivity).
    rewrite (filter_nothing negative), (filter_all negative) in C2 by (intros p I; auto).
    exists r. auto.
Qed.
End Rings.
