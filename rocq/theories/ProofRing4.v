(** What the offset of a plate of circles encloses (C73). *)
From Coq Require Import Reals List Bool Arith Lra Lia Classical.
From Verif Require Import Num RNum Res ModelMath ModelSeg ModelPline ModelView ModelIndex ModelIntersects ModelBoolean ModelOffset ModelShape.
From Verif Require Import Spec SpecGeom SpecBox SpecIndex SpecPrune SpecOffset SpecOffset2 SpecOffsetJoin SpecCircle SpecPolyBool SpecCurve SpecShape SpecRing.
From Verif Require Import ProofR ProofBase ProofArc ProofIntr ProofDisc ProofShape ProofRing ProofRing2 ProofRing3.
Import ListNotations.
Local Open Scope R_scope.

Lemma marked_at {A} (l : list A) fs x : In x (marked l fs) <-> exists i, nth_error l i = Some x /\ nth_error fs i = Some true.
Proof.
  unfold marked. revert fs. induction l as [|a l IH]; intros fs.
  - cbn. split; [intros []|intros ([|i] & E & _); discriminate].
  - destruct fs as [|f fs]; [cbn; split; [intros []|intros ([|i] & _ & E); discriminate]|]. cbn [combine filter snd]. split.
    + intros H. destruct f; cbn [map fst] in H; [destruct H as [<-|H]; [exists 0%nat; auto|]|]; apply IH in H as (i & E1 & E2); exists (S i); auto.
    + intros ([|i] & E1 & E2); cbn in E1, E2; [injection E1 as ->; injection E2 as ->; now left|]. assert (In x (map fst (filter snd (combine l fs)))) by (apply IH; eauto). destruct f; [right|]; assumption.
Qed.

Lemma survivors_at offset ds fs x : In x (survivors offset ds fs) <-> exists i d, nth_error ds i = Some d /\ nth_error fs i = Some Kept /\ x = resized offset d.
Proof.
  unfold survivors. rewrite in_map_iff. split.
  - intros (d & <- & H). apply marked_at in H as (i & E1 & E2). rewrite nth_error_map in E2. destruct (nth_error fs i) as [[]|] eqn:Ef; try discriminate. exists i, d. auto.
  - intros (i & d & E1 & E2 & ->). exists d. split; [reflexivity|]. apply marked_at. exists i. rewrite nth_error_map, E2. auto.
Qed.

Section Plate.
Context (s r : shape R) (offset : R) (o : shape_options R) (ds1 ds2 : list disc) (fs1 fs2 : list fate).
Hypothesis S1 : Forall (of_sense 1) ds1.
Hypothesis S2 : Forall (of_sense (-1)) ds2.
Hypothesis SO : sane o offset.
Hypothesis L1 : length fs1 = length ds1.
Hypothesis L2 : length fs2 = length ds2.
Hypothesis FA : fated o offset (ds1 ++ ds2) (fs1 ++ fs2).
Hypothesis PLATE : is_plate ds1 ds2.
Hypothesis R1 : map ip_pline (sh_ccw r) = map outline (survivors offset ds1 fs1).
Hypothesis R2 : map ip_pline (sh_cw r) = map outline (survivors offset ds2 fs2).

Lemma at1 i d f : nth_error ds1 i = Some d -> nth_error fs1 i = Some f -> has_fate o offset (ds1 ++ ds2) i d f.
Proof. intros Hd Hf. destruct FA as (_ & H & _). assert (i < length ds1)%nat by (apply nth_error_Some; congruence). apply H; rewrite nth_error_app1 by lia; assumption. Qed.
Lemma at2 i d f : nth_error ds2 i = Some d -> nth_error fs2 i = Some f -> has_fate o offset (ds1 ++ ds2) (length ds1 + i) d f.
Proof. intros Hd Hf. destruct FA as (_ & H & _). apply H; rewrite nth_error_app2 by lia; rewrite ?L1; replace (length ds1 + i - length ds1)%nat with i by lia; assumption. Qed.

Lemma fate_at1 i d : nth_error ds1 i = Some d -> exists f, nth_error fs1 i = Some f.
Proof. intros H. destruct (nth_error fs1 i) eqn:E; [eauto|]. apply nth_error_None in E. assert (i < length ds1)%nat by (apply nth_error_Some; congruence). lia. Qed.
Lemma fate_at2 i d : nth_error ds2 i = Some d -> exists f, nth_error fs2 i = Some f.
Proof. intros H. destruct (nth_error fs2 i) eqn:E; [eauto|]. apply nth_error_None in E. assert (i < length ds2)%nat by (apply nth_error_Some; congruence). lia. Qed.

Lemma sense1 d : In d ds1 -> db d = 1 /\ 0 < dr d /\ dr (resized offset d) = dr d - offset.
Proof. intros I. rewrite Forall_forall in S1. destruct (S1 d I) as ((_ & _ & P) & E). split; [exact E|]. split; [exact P|]. cbn. rewrite E. ring. Qed.
Lemma sense2 d : In d ds2 -> db d = -1 /\ 0 < dr d /\ dr (resized offset d) = dr d + offset.
Proof. intros I. rewrite Forall_forall in S2. destruct (S2 d I) as ((_ & _ & P) & E). split; [exact E|]. split; [exact P|]. cbn. rewrite E. ring. Qed.

Lemma kept_size ds i d : has_fate o offset ds i d Kept -> 0 < dr (resized offset d).
Proof. intros ((A & _) & _). destruct SO. lra. Qed.

(** The region of the result in terms of distances. *)
Lemma region_of_result x : off_shape r x ->
  in_shape r x <-> (exists i d, nth_error ds1 i = Some d /\ nth_error fs1 i = Some Kept /\ dist x (dc d) < dr d - offset)
                   /\ (forall i d, nth_error ds2 i = Some d -> nth_error fs2 i = Some Kept -> dr d + offset < dist x (dc d)).
Proof.
  intros OFF.
  assert (IS : forall d, In d (survivors offset ds1 fs1 ++ survivors offset ds2 fs2) -> is_disc d).
  { intros d I. apply in_app_or in I as [I|I]; apply survivors_at in I as (i & e & E1 & E2 & ->).
    - apply (resized_disc 1); [rewrite Forall_forall in S1; apply S1; eapply nth_error_In; exact E1|]. apply (kept_size (ds1 ++ ds2) i). now apply at1.
    - apply (resized_disc (-1)); [rewrite Forall_forall in S2; apply S2; eapply nth_error_In; exact E1|]. apply (kept_size (ds1 ++ ds2) (length ds1 + i)). now apply at2. }
  assert (INS : forall d, In d (survivors offset ds1 fs1 ++ survivors offset ds2 fs2) -> dist x (dc d) <> dr d /\ (inside (outline d) x = true <-> dist x (dc d) < dr d)).
  { intros d I. pose proof (IS d I) as (U & B & P). assert (NE : dist x (dc d) <> dr d).
    { assert (I' : In (outline d) (map ip_pline (sh_ccw r ++ sh_cw r))) by (rewrite map_app, R1, R2, <- map_app; now apply in_map). apply in_map_iff in I' as (ip & E & I').
      intros Q. apply (OFF ip I'). rewrite E. apply disc_on; assumption. }
    split; [exact NE|]. now apply disc_inside. }
  unfold in_shape. split.
  - intros ((ip & I & J) & K). split.
    + apply (in_map ip_pline) in I. rewrite R1 in I. apply in_map_iff in I as (d & E & I). rewrite <- E in J. apply INS in J; [|apply in_or_app; now left].
      apply survivors_at in I as (i & e & E1 & E2 & ->). exists i, e. split; [exact E1|]. split; [exact E2|]. destruct (sense1 e (nth_error_In _ _ E1)) as (_ & _ & Q). rewrite Q in J. exact J.
    + intros i d E1 E2. clear ip I J. assert (I : In (resized offset d) (survivors offset ds2 fs2)) by (apply survivors_at; eauto).
      pose proof (in_map outline _ _ I) as I'. rewrite <- R2 in I'. apply in_map_iff in I' as (jp & E & I'). specialize (K jp I'). rewrite E in K.
      destruct (INS (resized offset d)) as (NE & IF); [apply in_or_app; now right|]. destruct (sense2 d (nth_error_In _ _ E1)) as (_ & _ & Q). rewrite Q in NE, IF. change (dc (resized offset d)) with (dc d) in *.
      destruct (Rlt_le_dec (dist x (dc d)) (dr d + offset)) as [L|L]; [apply IF in L; congruence|lra].
  - intros ((i & d & E1 & E2 & L) & K). split.
    + assert (I : In (resized offset d) (survivors offset ds1 fs1)) by (apply survivors_at; eauto). pose proof (in_map outline _ _ I) as I'. rewrite <- R1 in I'. apply in_map_iff in I' as (ip & E & I').
      exists ip. split; [exact I'|]. rewrite E. apply INS; [apply in_or_app; now left|]. destruct (sense1 d (nth_error_In _ _ E1)) as (_ & _ & Q). rewrite Q. exact L.
    + intros ip I. apply (in_map ip_pline) in I. rewrite R2 in I. apply in_map_iff in I as (e & E & I). rewrite <- E. apply not_true_is_false. intros J. apply INS in J; [|apply in_or_app; now right].
      apply survivors_at in I as (j & h & E3 & E4 & ->). specialize (K j h E3 E4). destruct (sense2 h (nth_error_In _ _ E3)) as (_ & _ & Q). rewrite Q in J. change (dc (resized offset h)) with (dc h) in J. lra.
Qed.

(** Which input hides another. *)
Lemma hidden_cases i d : has_fate o offset (ds1 ++ ds2) i d Hidden -> exists j e, j <> i /\ nth_error (ds1 ++ ds2) j = Some e
  /\ ((nth_error ds1 j = Some e) \/ (exists k, j = (length ds1 + k)%nat /\ nth_error ds2 k = Some e))
  /\ dist (dc d) (dc e) + (dr (resized offset d) - dr e) + 1 / 5000 <= Rabs offset - so_offset_dist_eps o
  /\ dist (dc d) (dc e) - (dr (resized offset d) - dr e) + 1 / 5000 <= Rabs offset - so_offset_dist_eps o.
Proof.
  intros (_ & _ & j & e & E & NE & H). exists j, e. split; [exact NE|]. split; [exact E|]. split.
  - destruct (Nat.lt_ge_cases j (length ds1)) as [L|L].
    + left. now rewrite nth_error_app1 in E.
    + right. exists (j - length ds1)%nat. split; [lia|]. now rewrite nth_error_app2 in E.
  - destruct SO as (He & _). set (D := dist (dc d) (dc e)) in *. set (q := dr (resized offset d) - dr e) in *. pose proof (Rle_abs q). pose proof (Rle_abs (- q)) as N. rewrite Rabs_Ropp in N. split; lra.
Qed.

Ltac tri a b c := pose proof (ProofJordan2.dist_triangle a b c); pose proof (ProofJordan2.dist_triangle b a c); pose proof (ProofJordan2.dist_triangle a c b);
  rewrite ?(ProofJordan2.dist_sym b a), ?(ProofJordan2.dist_sym c b), ?(ProofJordan2.dist_sym c a) in *.

Theorem plate_inward x : 0 < offset -> off_shape r x ->
  (in_shape r x <-> in_plate ds1 ds2 x /\ forall d, In d (ds1 ++ ds2) -> offset < from_circle x d).
Proof.
  intros HO OFF. rewrite (region_of_result x OFF). destruct SO as (He & _ & Ht & Ho). rewrite (Rabs_pos_eq offset) in Ho by lra. destruct PLATE as (P1 & P2 & P3). split.
  - intros ((i & d & Ed & Ef & L) & K). destruct (sense1 d (nth_error_In _ _ Ed)) as (_ & PD & QD).
    (* all holes *)
    assert (KH : forall j h, nth_error ds2 j = Some h -> dr h + offset < dist x (dc h)).
    { intros j h Eh. destruct (fate_at2 j h Eh) as (f & Ej). destruct (sense2 h (nth_error_In _ _ Eh)) as (_ & PH & QH). pose proof (at2 j h f Eh Ej) as F. destruct f.
      - destruct F as (_ & F & _). rewrite QH in F. lra.
      - destruct (hidden_cases _ h F) as (j' & e & NE & Ee & W & F1 & F2). rewrite QH, (Rabs_pos_eq offset) in F1, F2 by lra. tri x (dc h) (dc e).
        destruct W as [W|(k & -> & W)].
        + destruct (sense1 e (nth_error_In _ _ W)) as (_ & PE & QE). destruct (Nat.eq_dec j' i) as [-> |NJ].
          * assert (e = d) as -> by congruence. exfalso. pose proof (at1 i d Kept Ed Ef) as (_ & _ & G). 
            assert (Eh' : nth_error (ds1 ++ ds2) (length ds1 + j) = Some h) by (rewrite nth_error_app2 by lia; replace (length ds1 + j - length ds1)%nat with j by lia; exact Eh).
            assert (NI : (length ds1 + j)%nat <> i) by (intros X; assert (i < length ds1)%nat by (apply nth_error_Some; congruence); lia).
            destruct (G _ h (offset - so_offset_dist_eps o) Eh' NI) as [G'|G']; [now rewrite (Rabs_pos_eq offset) by lra| |]; rewrite QD in G'; rewrite (ProofJordan2.dist_sym (dc d) (dc h)) in G'; pose proof (ProofIntr.dist_pos (dc h) (dc d)).
            -- lra.
            -- unfold Rabs in G'. destruct (Rcase_abs _); lra.
          * pose proof (P1 j' i e d W Ed NJ). tri x (dc d) (dc e). rewrite ?(ProofJordan2.dist_sym (dc e) (dc d)) in *. lra.
        + exfalso. assert (NJ : j <> k) by (intros ->; apply NE; reflexivity). pose proof (P2 j k h e Eh W NJ). destruct (sense2 e (nth_error_In _ _ W)) as (_ & PE & QE). lra.
      - apply (K j h Eh Ej). }
    split; [split|].
    + exists d. split; [eapply nth_error_In; exact Ed|]. lra.
    + intros h Ih. apply In_nth_error in Ih as (j & Eh). specialize (KH j h Eh). lra.
    + intros e Ie. unfold from_circle. apply in_app_or in Ie as [Ie|Ie]; apply In_nth_error in Ie as (j & Ej).
      * destruct (Nat.eq_dec j i) as [-> |NJ].
        -- assert (e = d) as -> by congruence. rewrite Rabs_left; lra.
        -- pose proof (P1 j i e d Ej Ed NJ). tri x (dc d) (dc e). rewrite ?(ProofJordan2.dist_sym (dc e) (dc d)) in *. rewrite Rabs_pos_eq; lra.
      * specialize (KH j e Ej). rewrite Rabs_pos_eq; lra.
  - intros (((d & Id & L) & K) & FAR). split.
    + apply In_nth_error in Id as (i & Ed). destruct (sense1 d (nth_error_In _ _ Ed)) as (_ & PD & QD).
      assert (L' : dist x (dc d) < dr d - offset).
      { specialize (FAR d (in_or_app _ _ _ (or_introl (nth_error_In _ _ Ed)))). unfold from_circle in FAR. rewrite Rabs_left in FAR; lra. }
      exists i, d. split; [exact Ed|]. split; [|exact L']. destruct (fate_at1 i d Ed) as (f & Ef). rewrite Ef. f_equal. pose proof (at1 i d f Ed Ef) as F. pose proof (ProofIntr.dist_pos x (dc d)). destruct f; [| |reflexivity]; exfalso.
      * destruct F as (_ & F & _). rewrite QD in F. lra.
      * destruct (hidden_cases _ d F) as (j & e & NE & Ee & W & F1 & F2). rewrite QD, (Rabs_pos_eq offset) in F1, F2 by lra. destruct W as [W|(k & -> & W)].
        -- assert (NJ : i <> j) by congruence. pose proof (P1 i j d e Ed W NJ). destruct (sense1 e (nth_error_In _ _ W)) as (_ & PE & _). lra.
        -- assert (Ie : In e (ds1 ++ ds2)) by (apply in_or_app; right; eapply nth_error_In; exact W). specialize (FAR e Ie). unfold from_circle in FAR. specialize (K e (nth_error_In _ _ W)). rewrite Rabs_pos_eq in FAR by lra.
           tri x (dc d) (dc e). lra.
    + intros i h Eh Ef. specialize (K h (nth_error_In _ _ Eh)). specialize (FAR h (in_or_app _ _ _ (or_intror (nth_error_In _ _ Eh)))). unfold from_circle in FAR. rewrite Rabs_pos_eq in FAR; lra.
Qed.

Theorem plate_outward x : offset < 0 -> off_shape r x ->
  (in_shape r x <-> in_plate ds1 ds2 x \/ exists d, In d (ds1 ++ ds2) /\ from_circle x d < - offset).
Proof.
  intros HO OFF. rewrite (region_of_result x OFF). destruct SO as (He & _ & Ht & Ho). rewrite (Rabs_left offset) in Ho by lra. destruct PLATE as (P1 & P2 & P3).
  assert (ALL1 : forall i d, nth_error ds1 i = Some d -> nth_error fs1 i = Some Kept).
  { intros i d Ed. destruct (fate_at1 i d Ed) as (f & Ef). rewrite Ef. f_equal. destruct (sense1 d (nth_error_In _ _ Ed)) as (_ & PD & QD). pose proof (at1 i d f Ed Ef) as F. destruct f; [| |reflexivity]; exfalso.
    - destruct F as (_ & F & _). rewrite QD in F. lra.
    - destruct (hidden_cases _ d F) as (j & e & NE & Ee & W & F1 & F2). rewrite QD, (Rabs_left offset) in F1, F2 by lra. destruct W as [W|(k & -> & W)].
      + assert (NJ : i <> j) by congruence. pose proof (P1 i j d e Ed W NJ). destruct (sense1 e (nth_error_In _ _ W)) as (_ & PE & _). lra.
      + destruct (P3 e (nth_error_In _ _ W)) as (d2 & I2 & C). apply In_nth_error in I2 as (i2 & E2). destruct (Nat.eq_dec i2 i) as [-> |N2].
        * assert (d2 = d) as -> by congruence. rewrite (ProofJordan2.dist_sym (dc e) (dc d)) in C. pose proof (ProofIntr.dist_pos (dc d) (dc e)). lra.
        * pose proof (P1 i2 i d2 d E2 Ed N2). tri (dc d) (dc e) (dc d2). rewrite ?(ProofJordan2.dist_sym (dc d2) (dc d)), ?(ProofJordan2.dist_sym (dc d2) (dc e)) in *. lra. }
  assert (NOHIDE : forall j h, nth_error ds2 j = Some h -> nth_error fs2 j <> Some Hidden).
  { intros j h Eh Ef. destruct (sense2 h (nth_error_In _ _ Eh)) as (_ & PH & QH). pose proof (at2 j h Hidden Eh Ef) as F. destruct (hidden_cases _ h F) as (j' & e & NE & Ee & W & F1 & F2). rewrite QH, (Rabs_left offset) in F1, F2 by lra.
    destruct W as [W|(k & -> & W)].
    - destruct (P3 h (nth_error_In _ _ Eh)) as (d0 & I0 & C). apply In_nth_error in I0 as (i0 & E0). destruct (sense1 e (nth_error_In _ _ W)) as (_ & PE & _). pose proof (ProofIntr.dist_pos (dc h) (dc e)). destruct (Nat.eq_dec i0 j') as [-> |N0].
      + assert (d0 = e) as -> by congruence. lra.
      + pose proof (P1 i0 j' d0 e E0 W N0). tri (dc h) (dc d0) (dc e). rewrite ?(ProofJordan2.dist_sym (dc d0) (dc h)) in *. 
        lra.
    - assert (NJ : j <> k) by (intros ->; apply NE; reflexivity). pose proof (P2 j k h e Eh W NJ). destruct (sense2 e (nth_error_In _ _ W)) as (_ & PE & QE). lra. }
  split.
  - intros ((i & d & Ed & Ef & L) & K). destruct (classic (exists e, In e (ds1 ++ ds2) /\ from_circle x e < - offset)) as [N|N]; [right; exact N|left].
    assert (N' : forall e, In e (ds1 ++ ds2) -> - offset <= from_circle x e) by (intros e I; destruct (Rlt_le_dec (from_circle x e) (- offset)); [exfalso; apply N; eauto|assumption]). split.
    + exists d. split; [eapply nth_error_In; exact Ed|]. specialize (N' d (in_or_app _ _ _ (or_introl (nth_error_In _ _ Ed)))). unfold from_circle, Rabs in N'. destruct (Rcase_abs _); lra.
    + intros h Ih. specialize (N' h (in_or_app _ _ _ (or_intror Ih))). apply In_nth_error in Ih as (j & Eh). destruct (fate_at2 j h Eh) as (f & Ej). unfold from_circle in N'. pose proof (ProofIntr.dist_pos x (dc h)).
      destruct (sense2 h (nth_error_In _ _ Eh)) as (_ & PH & QH). destruct f.
      * pose proof (at2 j h Gone Eh Ej) as (_ & F & _). rewrite QH in F. unfold Rabs in N'. destruct (Rcase_abs _); lra.
      * exfalso. apply (NOHIDE j h Eh Ej).
      * specialize (K j h Eh Ej). unfold Rabs in N'. destruct (Rcase_abs _); lra.
  - intros H. split.
    + assert (X : exists d, In d ds1 /\ dist x (dc d) < dr d - offset).
      { destruct H as [((d & I & L) & _)|(e & I & L)]; [exists d; split; [exact I|lra]|]. unfold from_circle in L. apply in_app_or in I as [I|I].
        - exists e. split; [exact I|]. unfold Rabs in L. destruct (Rcase_abs _); lra.
        - destruct (P3 e I) as (d & Id & C). exists d. split; [exact Id|]. pose proof (ProofJordan2.dist_triangle x (dc e) (dc d)). unfold Rabs in L. destruct (Rcase_abs _); lra. }
      destruct X as (d & I & L). apply In_nth_error in I as (i & Ed). exists i, d. split; [exact Ed|]. split; [exact (ALL1 i d Ed)|exact L].
    + intros j h Eh Ej. destruct (sense2 h (nth_error_In _ _ Eh)) as (_ & PH & QH). destruct (Rlt_le_dec (dr h + offset) (dist x (dc h))) as [G|G]; [exact G|exfalso].
      destruct H as [(_ & K)|(e & I & L)]; [specialize (K h (nth_error_In _ _ Eh)); lra|]. unfold from_circle in L.
      assert (L' : dist x (dc e) < dr e - offset /\ dr e + offset < dist x (dc e)) by (unfold Rabs in L; destruct (Rcase_abs _); lra).
      apply in_app_or in I as [I|I]; apply In_nth_error in I as (k & Ek).
      * destruct (P3 h (nth_error_In _ _ Eh)) as (d0 & I0 & C). apply In_nth_error in I0 as (i0 & E0). pose proof (ProofJordan2.dist_triangle x (dc h) (dc d0)). destruct (Nat.eq_dec i0 k) as [-> |N0].
        -- assert (d0 = e) as -> by congruence. lra.
        -- pose proof (P1 i0 k d0 e E0 Ek N0). pose proof (ProofJordan2.dist_triangle (dc d0) x (dc e)). rewrite (ProofJordan2.dist_sym (dc d0) x) in *. lra.
      * destruct (Nat.eq_dec j k) as [-> |NJ]; [assert (e = h) as -> by congruence; lra|]. pose proof (P2 j k h e Eh Ek NJ). pose proof (ProofJordan2.dist_triangle (dc h) x (dc e)). rewrite (ProofJordan2.dist_sym (dc h) x) in *. lra.
Qed.
End Plate.
