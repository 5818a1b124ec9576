(** Stitching: slices with paths, selectors and the loops that result (C31). *)
From Coq Require Import List Bool Arith Permutation Lia Reals Lra.
From Verif Require Import Num RNum Res ModelMath ModelSeg ModelPline ModelView ModelIndex ModelIntersects ModelBoolean.
From Verif Require Import Spec SpecPline SpecView SpecIndex SpecStitch.
From Verif Require Import ProofR ProofBase ProofRepeat ProofView ProofFind ProofStitch.
Import ListNotations.

Section Paths.
Context {T : Type} {N : Num T}.

Lemma view_inverted_zero (d : view_data T) p : vd_inverted d = true -> vd_end_index_offset d = 0 ->
  view_vertexes d p = Ret [from_vector2 (vd_end_point d) (nneg (vd_updated_end_bulge d)); with_bulge (vd_updated_start d) nzero].
Proof. intros I Z. unfold view_vertexes, view_vertex_count. rewrite Z. cbn [seq Nat.add]. unfold view_get_vertex, view_vertex_count. rewrite I, Z. reflexivity. Qed.

Lemma slice_path_ok (p1 p2 : pline T) s : slice_fits p1 p2 s ->
  exists l, slice_view s p1 p2 = Ret (PL l false) /\ slice_path_is p1 p2 s l.
Proof.
  intros (L1 & L2). unfold slice_view, view_pline. fold (slice_source p1 p2 s).
  destruct (vd_inverted (bs_view s)) eqn:I.
  - destruct (Nat.eq_dec (vd_end_index_offset (bs_view s)) 0) as [Z|Z].
    + rewrite (view_inverted_zero _ _ I Z). eexists. split; [reflexivity|]. unfold slice_path_is. rewrite I, Z. split; [reflexivity|].
      split; [|reflexivity]. intros [C|E]; [congruence|].
      destruct (view_inverted_spec (bs_view s) (slice_source p1 p2 s) L1 L2 I (fun _ => E)) as (l & _ & E' & _ & H & _).
      rewrite (view_inverted_zero _ _ I Z) in E'. injection E' as <-. rewrite <- Z. exact H.
    + destruct (view_inverted_spec (bs_view s) (slice_source p1 p2 s) L1 L2 I (fun e => False_ind _ (Z e))) as (l & _ & E & H1 & H2 & H3).
      exists l. rewrite E. split; [reflexivity|]. unfold slice_path_is. rewrite I. auto.
  - destruct (view_forward_spec (bs_view s) (slice_source p1 p2 s) L1 L2 I) as (_ & E & _).
    eexists. rewrite E. split; [reflexivity|]. unfold slice_path_is. rewrite I. reflexivity.
Qed.

Lemma slice_path_end (p1 p2 : pline T) s l : slice_path_is p1 p2 s l -> exists l' z, l = l' ++ [z] /\ pos z = slice_end s.
Proof.
  unfold slice_path_is, slice_end. destruct (vd_inverted (bs_view s)).
  - intros (L & _ & E). destruct l as [|z l'] using rev_ind; [cbn in L; lia|]. clear IHl'. exists l', z. split; [reflexivity|].
    rewrite app_length in L. cbn [length] in L. rewrite nth_error_app2 in E by lia.
    replace (vd_end_index_offset (bs_view s) + 1 - length l') with 0 in E by lia. cbn in E. injection E as ->. reflexivity.
  - intros ->. unfold spec_view. eexists (_ :: _), _. split; [reflexivity|].
    destruct (vd_end_point (bs_view s)). reflexivity.
Qed.

(** The selectors return one of the slices offered. *)
Lemma find_In (f : nat -> bool) l i : find f l = Some i -> In i l.
Proof. intros H. apply find_some in H as [H _]. exact H. Qed.

Lemma first_available_picks l : l <> [] -> exists o, first_available l = Ret o /\ forall i, o = Some i -> In i l.
Proof.
  destruct l as [|a t]; [congruence|]. intros _. exists (Some a). split; [reflexivity|]. intros i [= <-]. left. reflexivity.
Qed.

Lemma or_else_res_picks (o : option nat) (r : res (option nat)) (l : list nat) :
  (forall i, o = Some i -> In i l) -> (exists o', r = Ret o' /\ forall i, o' = Some i -> In i l) ->
  exists o', or_else_res o r = Ret o' /\ forall i, o' = Some i -> In i l.
Proof. intros H (o' & -> & H'). destruct o; cbn; eauto. Qed.

Lemma or_and_picks (ps : pruned_slices T) : picks (or_and_select ps).
Proof.
  intros cur l NE. unfold or_and_select.
  destruct (_ || _); repeat (apply or_else_res_picks; [apply find_In|]); now apply first_available_picks.
Qed.

Lemma not_xor_picks (ps : pruned_slices T) : picks (not_xor_select ps).
Proof.
  intros cur l NE. unfold not_xor_select.
  assert (G : forall a b, (forall i : nat, a = Some i -> In i l) -> (forall i, b = Some i -> In i l) ->
    exists o, Ret (or_else a b) = Ret o /\ forall i, o = Some i -> In i l).
  { intros a b A B. exists (or_else a b). split; [reflexivity|]. destruct a; cbn; auto. }
  destruct (_ <=? _)%nat.
  - destruct (_ <? _)%nat; apply G; apply find_In.
  - destruct (_ <? _)%nat; (apply or_else_res_picks; [apply find_In|]); now apply first_available_picks.
Qed.

Lemma find_pref (f : nat -> bool) (P : nat -> Prop) l : (forall i, f i = true <-> P i) ->
  (exists i, find f l = Some i /\ In i l /\ P i) \/ ((forall j, In j l -> ~ P j) /\ find f l = None).
Proof.
  intros H. destruct (find f l) as [i|] eqn:E.
  - left. exists i. apply find_some in E as [E1 E2]. split; [reflexivity|]. split; [exact E1|now apply H].
  - right. split; [|reflexivity]. intros j J C. apply (find_none _ _ E) in J. apply H in C. congruence.
Qed.

Lemma find1_pref (ps : pruned_slices T) l :
  (exists i, find_pline1 ps l = Some i /\ In i l /\ of_pline1 ps i) \/ ((forall j, In j l -> ~ of_pline1 ps j) /\ find_pline1 ps l = None).
Proof. apply find_pref. intros i. apply Nat.ltb_lt. Qed.
Lemma find2_pref (ps : pruned_slices T) l :
  (exists i, find_pline2 ps l = Some i /\ In i l /\ of_pline2 ps i) \/ ((forall j, In j l -> ~ of_pline2 ps j) /\ find_pline2 ps l = None).
Proof. apply find_pref. intros i. unfold of_pline2. rewrite andb_true_iff, Nat.leb_le, Nat.ltb_lt. tauto. Qed.

Lemma pref_intro (P Q : nat -> Prop) (a b : option nat) r l :
  (exists i, a = Some i /\ In i l /\ P i) \/ ((forall j, In j l -> ~ P j) /\ a = None) ->
  (exists i, b = Some i /\ In i l /\ Q i) \/ ((forall j, In j l -> ~ Q j) /\ b = None) ->
  preference P Q r l (or_else a (or_else b r)).
Proof.
  intros [(i & -> & A)|(A & ->)] B; cbn [or_else]; [left; eauto|right]. split; [exact A|].
  destruct B as [(i & -> & B)|(B & ->)]; cbn [or_else]; [left; eauto|right; auto].
Qed.

Lemma first_available_hd l : l <> [] -> first_available l = Ret (hd_error l).
Proof. destruct l; [congruence|reflexivity]. Qed.

Lemma or_and_prefers (ps : pruned_slices T) cur l : l <> [] -> exists o, or_and_select ps cur l = Ret o
  /\ (of_pline1 ps cur \/ of_overlap1 ps cur -> preference (of_pline2 ps) (of_pline1 ps) (hd_error l) l o)
  /\ (~ (of_pline1 ps cur \/ of_overlap1 ps cur) -> preference (of_pline1 ps) (of_pline2 ps) (hd_error l) l o).
Proof.
  intros NE. unfold or_and_select. rewrite (first_available_hd l NE).
  assert (E : forall a b : option nat, or_else_res a (or_else_res b (Ret (hd_error l))) = Ret (or_else a (or_else b (hd_error l)))).
  { intros [a|] [b|]; reflexivity. }
  rewrite !E. eexists. split; [match goal with |- (if ?c then Ret ?x else Ret ?y) = _ => instantiate (1 := if c then x else y); destruct c; reflexivity end|].
  set (c := (_ || _)). assert (C : c = true <-> of_pline1 ps cur \/ of_overlap1 ps cur).
  { unfold c, of_pline1, of_overlap1. rewrite orb_true_iff, andb_true_iff, !Nat.ltb_lt, Nat.leb_le. tauto. }
  destruct c; split; intros H; try (exfalso; intuition congruence).
  - apply pref_intro; [apply find2_pref|apply find1_pref].
  - apply pref_intro; [apply find1_pref|apply find2_pref].
Qed.

Lemma not_xor_prefers (ps : pruned_slices T) cur l : l <> [] ->
  ps_start2 ps <= ps_start1_overlapping ps <= ps_start2_overlapping ps -> exists o, not_xor_select ps cur l = Ret o
  /\ (of_pline1 ps cur -> preference (of_pline2 ps) (fun _ => False) (hd_error l) l o)
  /\ (of_pline2 ps cur -> preference (of_pline1 ps) (fun _ => False) (hd_error l) l o)
  /\ (of_overlap1 ps cur -> preference (of_pline2 ps) (of_pline1 ps) None l o)
  /\ (of_overlap2 ps cur -> preference (of_pline1 ps) (of_pline2 ps) None l o).
Proof.
  intros NE (O1 & O2). unfold not_xor_select. rewrite (first_available_hd l NE).
  assert (F : forall P a, (exists i, a = Some i /\ In i l /\ P i) \/ ((forall j, In j l -> ~ P j) /\ a = None) ->
    preference P (fun _ => False) (hd_error l) l (or_else a (hd_error l))).
  { intros P [a|] A; apply (pref_intro P (fun _ => False) _ None); auto. }
  assert (G : forall P Q a b, (exists i, a = Some i /\ In i l /\ P i) \/ ((forall j, In j l -> ~ P j) /\ a = None) ->
    (exists i, b = Some i /\ In i l /\ Q i) \/ ((forall j, In j l -> ~ Q j) /\ b = None) -> preference P Q None l (or_else a b)).
  { intros P Q a b A B. replace (or_else a b) with (or_else a (or_else b None)) by (destruct a, b; reflexivity). now apply pref_intro. }
  assert (E : forall a : option nat, or_else_res a (Ret (hd_error l)) = Ret (or_else a (hd_error l))) by (intros [a|]; reflexivity).
  rewrite !E. unfold of_pline1, of_pline2, of_overlap1, of_overlap2.
  destruct (Nat.leb_spec (ps_start1_overlapping ps) cur) as [L|L];
    [destruct (Nat.ltb_spec cur (ps_start2_overlapping ps)) as [L2|L2]|destruct (Nat.ltb_spec cur (ps_start2 ps)) as [L2|L2]];
    (eexists; split; [reflexivity|]); repeat split; intros H; try lia.
  - apply G; [apply find2_pref|apply find1_pref].
  - apply G; [apply find1_pref|apply find2_pref].
  - apply F, find2_pref.
  - apply F, find1_pref.
Qed.

Context (p1 p2 : pline T) (slices : list (boolean_slice T)) (select : nat -> list nat -> res (option nat)) (eps : T)
        (path : boolean_slice T -> list (vertex T) -> Prop).
Hypothesis PATH : forall s l, path s l -> exists l' z, l = l' ++ [z] /\ pos z = slice_end s.

Lemma stitch_closed_spec mk : makes_index mk -> picks select ->
  (forall s, In s slices -> exists l, slice_view s p1 p2 = Ret (PL l false) /\ path s l) ->
  exists chains rs, stitch_slices_into_closed_polylines mk slices p1 p2 select eps = Ret rs
  /\ stitching path slices select eps chains rs /\ Permutation (concat chains) (seq 0 (length slices)).
Proof.
  intros MK PICK VIEW. unfold stitch_slices_into_closed_polylines. destruct slices as [|s0 t] eqn:ES.
  - exists [], []. split; [reflexivity|]. split; [constructor|]. cbn. constructor.
  - rewrite <- ES in *. destruct (stitch_all_spec p1 p2 slices select eps path (mk (map (fun s => point_box (slice_start_point s)) slices)))
      as (chains & rs & E & H); auto. exists chains, rs. rewrite E. split; [reflexivity|exact H].
Qed.

Hypothesis PICK : picks select.

Lemma picked cur avail i : avail <> [] -> select cur avail = Ret (Some i) -> In i avail.
Proof. intros NE E. destruct (PICK cur avail NE) as (o & E' & I). rewrite E in E'. injection E' as <-. now apply I. Qed.

Lemma stitched_ordered used first c K : stitched path slices select eps used first c K ->
  (exists t, c = first :: t)
  /\ (forall i x y a b, nth_error c i = Some x -> nth_error c (S i) = Some y -> nth_error slices x = Some a -> nth_error slices y = Some b ->
      follows eps a b).
Proof.
  induction 1 as [s l rs E P R|c cur K v avail b s l rs ST IH O NE SEL D E P R].
  - split; [exists []; reflexivity|]. intros [|i] x y a b Hx Hy; [discriminate|destruct i; discriminate].
  - destruct IH as ((t & Et) & IH). split; [exists (t ++ [b]); rewrite Et; reflexivity|].
    intros i x y a b0 Hx Hy Ha Hb. destruct (Nat.ltb_spec (S i) (length (c ++ [cur]))) as [L|L].
    + rewrite nth_error_app1 in Hx by lia. rewrite nth_error_app1 in Hy by lia. exact (IH i x y a b0 Hx Hy Ha Hb).
    + rewrite app_length in L. cbn [length] in L.
      assert (LS : S i < length ((c ++ [cur]) ++ [b])) by (apply nth_error_Some; congruence).
      rewrite !app_length in LS. cbn [length] in LS. assert (i = length c) by lia. subst i.
      rewrite <- app_assoc in Hx. rewrite nth_error_app2, Nat.sub_diag in Hx by lia. cbn in Hx. injection Hx as <-.
      rewrite nth_error_app2 in Hy by (rewrite app_length; cbn; lia). rewrite app_length in Hy. cbn [length] in Hy.
      replace (S (length c) - (length c + 1)) with 0 in Hy by lia. cbn in Hy. injection Hy as <-.
      destruct (stitched_ends slices select eps path PATH used first _ _ ST) as ((c' & cur' & s' & E1 & E2 & K' & v' & E3 & C) & _).
      apply app_inj_tail in E1 as [_ <-]. apply app_inj_tail in E3 as [_ <-]. rewrite Ha in E2. injection E2 as <-.
      apply (picked _ _ _ NE), O in SEL as (s2 & E4 & W & _). rewrite Hb in E4. injection E4 as <-.
      exists (pos v). auto.
Qed.

Lemma map_some_nth (sub : list (boolean_slice T)) c i s : map (@Some _) sub = map (nth_error slices) c ->
  nth_error sub i = Some s -> exists x, nth_error c i = Some x /\ nth_error slices x = Some s.
Proof.
  intros E H. apply (map_nth_error (@Some _)) in H. rewrite E, nth_error_map in H.
  destruct (nth_error c i) as [x|]; [|discriminate]. cbn in H. injection H as H. eauto.
Qed.

Lemma nodup_app {A} (a b : list A) : NoDup (a ++ b) <-> NoDup a /\ NoDup b /\ forall x, In x a -> ~ In x b.
Proof.
  induction a as [|x a IH]; cbn [app].
  - split; [intros H; split; [constructor|]; split; [exact H|intros x []]|intros (_ & H & _); exact H].
  - split.
    + intros H. inversion H as [|? ? NI ND]; subst. apply IH in ND as (A1 & A2 & A3). rewrite in_app_iff in NI.
      split; [constructor; tauto|]. split; [exact A2|]. intros y [<-|Y]; [tauto|now apply A3].
    + intros (H1 & H2 & H3). inversion H1 as [|? ? NI ND]; subst. constructor.
      * rewrite in_app_iff. intros [X|X]; [tauto|]. now apply (H3 x (or_introl eq_refl)).
      * apply IH. split; [exact ND|]. split; [exact H2|]. intros y Y. apply H3. now right.
Qed.

Local Notation loop_ok := (SpecStitch.loop_ok slices eps).

Lemma finished_ok used first c K out : stitched path slices select eps used first c K -> finished slices select eps used first c K out ->
  out = [] \/ exists r, out = [r] /\ loop_ok r c.
Proof.
  intros SC FC. destruct FC as [c cur K v avail O|c cur K v avail O NE SEL L|c cur K v avail sub O NE SEL L SUB]; [auto|auto|right].
  eexists. split; [reflexivity|]. unfold loop_ok. cbn [brp_pline brp_subslices is_closed vtx]. split; [reflexivity|]. split; [exact L|].
  destruct (stitched_ends slices select eps path PATH used first _ _ SC) as ((c' & cur' & s' & E1 & E2 & K' & v' & E3 & C) & NR).
  split; [eapply no_repeat_front; exact NR|]. split; [exact SUB|].
  apply app_inj_tail in E1 as [_ <-]. apply app_inj_tail in E3 as [_ <-].
  destruct (stitched_ordered used first _ _ SC) as ((t & Et) & ORD).
  split; [intros ->; destruct c; discriminate|]. split.
  - intros i a b Ha Hb. destruct (map_some_nth _ _ _ _ SUB Ha) as (x & X1 & X2). destruct (map_some_nth _ _ _ _ SUB Hb) as (y & Y1 & Y2).
    exact (ORD i x y a b X1 Y1 X2 Y2).
  - intros a z Ha Hz.
    assert (HA : nth_error slices first = Some a).
    { destruct sub as [|a' sub']; [discriminate|]. cbn in Ha. injection Ha as ->. rewrite Et in SUB. cbn in SUB. injection SUB as SUB _. congruence. }
    assert (HZ : nth_error slices cur = Some z).
    { destruct sub as [|z' sub'] using rev_ind; [discriminate|]. rewrite rev_unit in Hz. cbn in Hz. injection Hz as ->.
      rewrite !map_app in SUB. cbn [map] in SUB. apply app_inj_tail in SUB as [_ SUB]. congruence. }
    rewrite HZ in E2. injection E2 as <-.
    apply (picked _ _ _ NE), O in SEL as (s2 & E4 & W & _). rewrite HA in E4. injection E4 as <-. exists (pos v). auto.
Qed.

Lemma stitching_loops chains rs : stitching path slices select eps chains rs ->
  exists cs, incl cs chains /\ (NoDup (concat chains) -> NoDup (concat cs)) /\ Forall2 loop_ok rs cs.
Proof.
  induction 1 as [|chains rs first c K out ST IH NI ALL SC FC].
  - exists []. split; [intros x []|]. split; [auto|constructor].
  - destruct IH as (cs & I & ND & F). destruct (finished_ok _ _ _ _ _ SC FC) as [->|(r & -> & OK)].
    + exists cs. split; [intros x X; apply in_or_app; auto|]. rewrite app_nil_r. split; [|exact F].
      rewrite concat_app. intros X. apply nodup_app in X as (X & _). auto.
    + exists (cs ++ [c]). split; [intros x X; apply in_app_or in X as [X|X]; apply in_or_app; auto|].
      split; [|apply Forall2_app; auto]. rewrite !concat_app. cbn [concat]. rewrite app_nil_r. intros X.
      apply nodup_app in X as (X1 & X2 & X3). apply nodup_app. split; [auto|]. split; [exact X2|].
      intros x Hx. apply X3. apply in_concat in Hx as (k & K1 & K2). apply in_concat. exists k. auto.
Qed.
End Paths.

Lemma stitch_ok {T} {N : Num T} (p1 p2 : pline T) slices select eps mk : makes_index mk -> picks select -> Forall (slice_fits p1 p2) slices ->
  exists chains rs cs, stitch_slices_into_closed_polylines mk slices p1 p2 select eps = Ret rs
  /\ stitching (slice_path_is p1 p2) slices select eps chains rs /\ Permutation (concat chains) (seq 0 (length slices))
  /\ incl cs chains /\ NoDup (concat cs) /\ Forall2 (SpecStitch.loop_ok slices eps) rs cs.
Proof.
  intros MK PI F. rewrite Forall_forall in F.
  destruct (stitch_closed_spec p1 p2 slices select eps (slice_path_is p1 p2) (fun s l H => slice_path_end p1 p2 s l H) mk MK PI) as (chains & rs & E & ST & PM).
  { intros s I. apply slice_path_ok, F, I. }
  destruct (stitching_loops slices select eps (slice_path_is p1 p2) (fun s l H => slice_path_end p1 p2 s l H) PI chains rs ST) as (cs & I & ND & FO).
  exists chains, rs, cs. split; [exact E|]. split; [exact ST|]. split; [exact PM|]. split; [exact I|]. split; [|exact FO].
  apply ND. eapply Permutation_NoDup; [apply Permutation_sym; exact PM|apply seq_NoDup].
Qed.

(** Within twice epsilon. *)
Lemma follows_R eps (a b : boolean_slice R) : (0 < eps)%R -> follows (N := RNum) eps a b ->
  (Rabs (vx (slice_begin b) - vx (slice_end a)) < 2 * eps /\ Rabs (vy (slice_begin b) - vy (slice_end a)) < 2 * eps)%R
  \/ (Rabs (vx (slice_begin b) - vx (slice_end a)) <= eps /\ Rabs (vy (slice_begin b) - vy (slice_end a)) <= eps)%R.
Proof.
  intros HE (q & Q & W). unfold within in W. rewrite !andb_true_iff, !negb_true_iff in W. destruct W as (((W1 & W2) & W3) & W4).
  rnum. rewrite rltb_false in W1, W2, W3, W4.
  destruct Q as [->|Q].
  - right. split; apply Rabs_le; lra.
  - left. unfold v2fuzzy_eq_eps, fuzzy_eq_eps in Q. rnum. apply andb_prop in Q as [Q1 Q2]. rewrite rltb_true in Q1, Q2.
    apply Rabs_def2 in Q1, Q2. split; apply Rabs_def1; lra.
Qed.
