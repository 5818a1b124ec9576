(** Ownership and error codes of the C API. *)
From Coq Require Import ZArith Bool List Arith Lia.
From Verif Require Import Num Res ModelMath ModelSeg ModelPline ModelRedundant ModelView ModelIndex ModelIntersects
  ModelBoolean ModelOffset ModelFfi SpecFfi.
Import ListNotations.

Section Mem.
Context {T : Type}.
Implicit Types m : mem T.

Lemma read_nth m a o : read_obj m a = Some o <-> nth_error m a = Some (Some o).
Proof.
  unfold read_obj. destruct (nth_error m a) as [[x|]|]; split; intros H; try discriminate; congruence.
Qed.

Lemma nth_list_set {A} (l : list A) i x j : i < length l ->
  nth_error (list_set l i x) j = if Nat.eqb j i then Some x else nth_error l j.
Proof.
  revert i j. induction l as [|h t IH]; intros i j L; cbn in L; [lia|].
  destruct i as [|i]; cbn [list_set].
  - destruct j; reflexivity.
  - destruct j as [|j]; cbn; [reflexivity|]. rewrite IH by lia. reflexivity.
Qed.
Lemma length_list_set {A} (l : list A) i x : length (list_set l i x) = length l.
Proof. revert i. induction l as [|h t IH]; intros [|i]; cbn; auto. Qed.

Lemma nth_lt m a o : nth_error m a = Some o -> a < length m.
Proof. intros H. apply nth_error_Some. congruence. Qed.

Lemma nth_write m a x o b : nth_error m a = Some x ->
  nth_error (write_obj m a o) b = if Nat.eqb b a then Some (Some o) else nth_error m b.
Proof. intros H. apply nth_list_set. now apply nth_lt in H. Qed.
Lemma nth_free m a x b : nth_error m a = Some x ->
  nth_error (free_obj m a) b = if Nat.eqb b a then Some None else nth_error m b.
Proof. intros H. apply nth_list_set. now apply nth_lt in H. Qed.
Lemma nth_alloc m o b :
  nth_error (m ++ [Some o]) b = if Nat.eqb b (length m) then Some (Some o) else nth_error m b.
Proof.
  destruct (Nat.eqb_spec b (length m)) as [->|NE].
  - rewrite nth_error_app2, Nat.sub_diag by lia. reflexivity.
  - destruct (lt_dec b (length m)) as [L|L].
    + now rewrite nth_error_app1.
    + transitivity (@None (option (obj T))); [|symmetry; apply nth_error_None; lia].
      apply nth_error_None. rewrite app_length. cbn. lia.
Qed.

End Mem.

Ltac nb := match goal with
  | |- context [Nat.eqb ?a ?b] => destruct (Nat.eqb_spec a b); [subst|]
  | H : context [Nat.eqb ?a ?b] |- _ => destruct (Nat.eqb_spec a b); [subst|]
  end.

Section Accounts.
Context {T : Type}.
Implicit Types m : mem T.

Lemma drop_in a l b : In b (drop a l) <-> In b l /\ b <> a.
Proof.
  unfold drop. rewrite filter_In. split; intros [H1 H2]; split; auto.
  - intros ->. now rewrite Nat.eqb_refl in H2.
  - destruct (Nat.eqb_spec a b); [congruence|reflexivity].
Qed.
Lemma drop_nodup a l : NoDup l -> NoDup (drop a l).
Proof. apply NoDup_filter. Qed.

Lemma drop_list_in a l b : In b (drop_list a l) <-> In b l /\ fst b <> a.
Proof.
  unfold drop_list. rewrite filter_In. split; intros [H1 H2]; split; auto.
  - intros E. rewrite E, Nat.eqb_refl in H2. discriminate.
  - destruct (Nat.eqb_spec a (fst b)); [congruence|reflexivity].
Qed.

Lemma in_concat_snd (l : list (nat * list nat)) x : In x (concat (map snd l)) <-> exists a c, In (a, c) l /\ In x c.
Proof.
  rewrite in_concat. split.
  - intros (c & H & Hx). apply in_map_iff in H. destruct H as ([a c'] & <- & H). now exists a, c'.
  - intros (a & c & H & Hx). exists c. split; [|exact Hx]. apply in_map_iff. now exists (a, c).
Qed.

Lemma nodup_app {A} (l r : list A) : NoDup (l ++ r) <-> NoDup l /\ NoDup r /\ forall x, In x l -> ~ In x r.
Proof.
  induction l as [|x l IH]; cbn; split.
  - intros H. split; [constructor|]. split; auto.
  - intros (_ & H & _). exact H.
  - intros H. inversion H as [|y k NI ND]; subst. apply IH in ND. destruct ND as (A1 & A2 & A3).
    rewrite in_app_iff in NI. split; [constructor; tauto|]. split; [exact A2|].
    intros y [->|Hy]; [tauto|now apply A3].
  - intros (H1 & H2 & H3). inversion H1; subst. constructor.
    + rewrite in_app_iff. intros [K|K]; [contradiction|]. exact (H3 x (or_introl eq_refl) K).
    + apply IH. split; [assumption|]. split; [exact H2|]. intros y Hy. apply H3. now right.
Qed.

(** Writing a polyline over a polyline changes no account. *)
Lemma accounts_write m o a p p' : accounts m o -> is_pline m a p -> accounts (write_obj m a (OPline p')) o.
Proof.
  intros [A1 A2 A3 A4 A5] P. unfold is_pline, is_list, is_index in *. constructor; unfold is_pline, is_list, is_index; auto.
  - intros b. rewrite <- A1. setoid_rewrite (nth_write m a _ (OPline p') b P). nb; [|reflexivity].
    split; intros _; eauto.
  - intros b l. rewrite <- A2. rewrite (nth_write m a _ (OPline p') b P). nb; [|reflexivity].
    rewrite P. split; discriminate.
  - intros b. rewrite <- A3. setoid_rewrite (nth_write m a _ (OPline p') b P). nb; [|reflexivity].
    setoid_rewrite P. split; intros [x E]; discriminate.
Qed.

Lemma fresh_pline m o : accounts m o -> ~ In (length m) (all_plines o).
Proof. intros A H. apply (ac_plines _ _ A) in H. destruct H as [p H]. apply nth_lt in H. lia. Qed.
Lemma fresh_list m o l : accounts m o -> ~ In (length m, l) (ow_lists o).
Proof. intros A H. apply (ac_lists _ _ A) in H. apply nth_lt in H. lia. Qed.

Lemma accounts_new_pline m o p : accounts m o ->
  accounts (m ++ [Some (OPline p)]) (OW (length m :: ow_plines o) (ow_lists o) (ow_indexes o) (ow_lost o)).
Proof.
  intros A. pose proof (fresh_pline _ _ A) as F. destruct A as [A1 A2 A3 A4 A5]. unfold is_pline, is_list, is_index in *.
  constructor; unfold is_pline, is_list, is_index; cbn [ow_plines ow_lists ow_indexes ow_lost all_plines]; auto.
  - intros b. setoid_rewrite nth_alloc. cbn [app In]. nb.
    + split; [now left|eauto].
    + rewrite A1. unfold all_plines. split; [now right|]. intros [H|H]; [congruence|exact H].
  - intros b l. rewrite <- A2, nth_alloc. nb; [|reflexivity]. split; [discriminate|]. intros H. apply nth_lt in H. lia.
  - intros b. rewrite <- A3. setoid_rewrite nth_alloc. nb; [|reflexivity].
    split; intros [x H]; [discriminate|]. apply nth_lt in H. lia.
  - unfold all_plines in *. cbn [ow_plines ow_lists ow_lost app]. constructor; assumption.
Qed.

Lemma accounts_new_index m o x : accounts m o ->
  accounts (m ++ [Some (OIndex x)]) (OW (ow_plines o) (ow_lists o) (length m :: ow_indexes o) (ow_lost o)).
Proof.
  intros [A1 A2 A3 A4 A5]. unfold is_pline, is_list, is_index in *.
  constructor; unfold is_pline, is_list, is_index; cbn [ow_plines ow_lists ow_indexes ow_lost]; auto.
  - intros b. unfold all_plines in *. cbn [ow_plines ow_lists ow_lost]. rewrite <- A1. setoid_rewrite nth_alloc. nb; [|reflexivity].
    split; intros [y H]; [discriminate|]. apply nth_lt in H. lia.
  - intros b l. rewrite <- A2, nth_alloc. nb; [|reflexivity]. split; [discriminate|]. intros H. apply nth_lt in H. lia.
  - intros b. setoid_rewrite nth_alloc. cbn [In]. nb.
    + split; [now left|eauto].
    + rewrite A3. split; [now right|]. intros [H|H]; [congruence|exact H].
Qed.

(** New polylines owned by a new list. *)
Lemma alloc_plines_spec m l r m1 : alloc_plines m l = (r, m1) ->
  r = seq (length m) (length l) /\ m1 = m ++ map (fun p => Some (OPline p)) l.
Proof.
  revert m r m1. induction l as [|p l IH]; intros m r m1 H; cbn in H.
  - injection H as <- <-. split; [reflexivity|now rewrite app_nil_r].
  - destruct (alloc_plines (m ++ [Some (OPline p)]) l) as [r' m2] eqn:E. injection H as <- <-.
    apply IH in E. destruct E as [-> ->]. rewrite app_length. cbn [length seq map].
    rewrite Nat.add_1_r. split; [reflexivity|]. rewrite <- app_assoc. reflexivity.
Qed.

Lemma accounts_plines_lost m o l : accounts m o -> forall lost1,
  True -> lost1 = seq (length m) (length l) ++ ow_lost o ->
  accounts (m ++ map (fun p => Some (OPline p)) l) (OW (ow_plines o) (ow_lists o) (ow_indexes o) lost1).
Proof.
  intros A lost1 _ ->. pose proof A as A0.
  assert (NE : forall b, b < length m -> nth_error (m ++ map (fun p => Some (OPline p)) l) b = nth_error m b)
    by (intros b L; now rewrite nth_error_app1).
  assert (NG : forall b, length m <= b -> nth_error (m ++ map (fun p => Some (OPline p)) l) b
      = option_map (fun p => Some (OPline p)) (nth_error l (b - length m)))
    by (intros b L; rewrite nth_error_app2 by exact L; apply nth_error_map).
  destruct A as [A1 A2 A3 A4 A5]. unfold is_pline, is_list, is_index in *.
  assert (OLD : forall b, In b (all_plines o) -> b < length m)
    by (intros b H; apply A1 in H; destruct H as [p H]; now apply nth_lt in H).
  constructor; unfold is_pline, is_list, is_index; cbn [ow_plines ow_lists ow_indexes ow_lost]; auto.
  - intros b. unfold all_plines. cbn [ow_plines ow_lists ow_lost]. rewrite !in_app_iff, in_seq.
    pose proof (A1 b) as B. unfold all_plines in B. rewrite !in_app_iff in B.
    destruct (lt_dec b (length m)) as [L|L].
    + rewrite (NE b L), B. intuition lia.
    + rewrite NG by lia. assert (NO : ~ In b (all_plines o)) by (intros H; apply OLD in H; lia).
      unfold all_plines in NO. rewrite !in_app_iff in NO.
      split.
      * intros [p H]. right. right. left. destruct (nth_error l (b - length m)) eqn:E; [|discriminate].
        assert (b - length m < length l) by (apply nth_error_Some; congruence). lia.
      * intros [H|[H|[H|H]]]; try tauto. destruct (nth_error l (b - length m)) as [p|] eqn:E.
        -- exists p. reflexivity.
        -- apply nth_error_None in E. lia.
  - intros b c. rewrite <- A2. destruct (lt_dec b (length m)) as [L|L]; [now rewrite NE|].
    rewrite NG by lia. split.
    + destruct (nth_error l (b - length m)); discriminate.
    + intros H. apply nth_lt in H. lia.
  - intros b. rewrite <- A3. destruct (lt_dec b (length m)) as [L|L]; [now setoid_rewrite (NE b L)|].
    setoid_rewrite (NG b); [|lia..]. split; intros [x H].
    + destruct (nth_error l (b - length m)); discriminate.
    + apply nth_lt in H. lia.
  - unfold all_plines in *. cbn [ow_plines ow_lists ow_lost].
    rewrite app_assoc in A4 |- *. apply nodup_app in A4. destruct A4 as (N1 & N2 & N3).
    apply nodup_app. split; [exact N1|]. split.
    + apply nodup_app. split; [apply seq_NoDup|]. split; [exact N2|].
      intros x Hx Hl. apply in_seq in Hx.
      assert (x < length m) by (apply OLD; rewrite !in_app_iff; tauto). lia.
    + intros x Hx. rewrite in_app_iff, in_seq. intros [K|K].
      * assert (x < length m) by (apply OLD; rewrite app_assoc; apply in_app_iff; now left). lia.
      * exact (N3 x Hx K).
Qed.

Lemma accounts_new_list m o k l lost : accounts m o -> ow_lost o = k ++ lost -> l = k ->
  accounts (m ++ [Some (OList l)]) (OW (ow_plines o) ((length m, l) :: ow_lists o) (ow_indexes o) lost).
Proof.
  intros A EL ->. pose proof (fun l => fresh_list _ _ l A) as F. destruct A as [A1 A2 A3 A4 A5].
  unfold is_pline, is_list, is_index in *.
  constructor; unfold is_pline, is_list, is_index; cbn [ow_plines ow_lists ow_indexes ow_lost]; auto.
  - intros b. unfold all_plines in *. cbn [ow_plines ow_lists ow_lost map snd concat].
    pose proof (A1 b) as B. rewrite EL in B. rewrite !in_app_iff in B |- *.
    setoid_rewrite nth_alloc. nb.
    + split; [intros [p H]; discriminate|]. intros H.
      assert (exists p, nth_error m (length m) = Some (Some (OPline p))) as [p HP] by (apply B; tauto).
      apply nth_lt in HP. lia.
    + rewrite B. tauto.
  - intros b c. cbn [In]. rewrite nth_alloc, <- A2. nb.
    + split.
      * intros [= <-]. now left.
      * intros [[= <-]|H]; [reflexivity|]. apply nth_lt in H. lia.
    + split; [now right|]. intros [[= <- _]|H]; [congruence|exact H].
  - intros b. rewrite <- A3. setoid_rewrite nth_alloc. nb; [|reflexivity].
    split; intros [x H]; [discriminate|]. apply nth_lt in H. lia.
  - unfold all_plines in *. cbn [ow_plines ow_lists ow_lost map snd concat]. rewrite EL in A4.
    apply nodup_app in A4. destruct A4 as (N1 & N2 & N3).
    apply nodup_app in N2. destruct N2 as (N4 & N5 & N6). apply nodup_app in N5. destruct N5 as (N7 & N8 & N9).
    apply nodup_app. split; [exact N1|]. split.
    + rewrite <- app_assoc. apply nodup_app. split; [exact N7|]. split.
      * apply nodup_app. split; [exact N4|]. split; [exact N8|]. intros x Hx Hl. apply (N6 x Hx). apply in_app_iff. now right.
      * intros x Hx. rewrite in_app_iff. intros [K|K]; [|exact (N9 x Hx K)].
        apply (N6 x K). apply in_app_iff. now left.
    + intros x Hx. specialize (N3 x Hx). rewrite !in_app_iff in N3 |- *. tauto.
  - cbn [map fst]. constructor; [|exact A5]. intros H. apply in_map_iff in H. destruct H as ([a c] & E & H).
    cbn in E. subst a. exact (F c H).
Qed.

Lemma accounts_from_internal m o l a m1 : accounts m o -> plinelist_from_internal m l = (a, m1) ->
  accounts m1 (OW (ow_plines o) ((a, listed m1 a) :: ow_lists o) (ow_indexes o) (ow_lost o))
  /\ (exists s, m1 = m ++ s) /\ length m <= a.
Proof.
  intros A H. unfold plinelist_from_internal in H. destruct (alloc_plines m l) as [r m2] eqn:E.
  apply alloc_plines_spec in E. destruct E as [-> ->]. unfold alloc in H. injection H as <- <-.
  pose proof (accounts_plines_lost m o l A _ I eq_refl) as A2.
  pose proof (accounts_new_list _ _ _ _ (ow_lost o) A2 eq_refl eq_refl) as A3.
  unfold listed. rewrite nth_alloc, Nat.eqb_refl. split; [exact A3|].
  split; [|rewrite app_length; lia]. rewrite <- app_assoc. eauto.
Qed.

Lemma in_all_plines o x : In x (all_plines o) <->
  In x (ow_plines o) \/ (exists a c, In (a, c) (ow_lists o) /\ In x c) \/ In x (ow_lost o).
Proof. unfold all_plines. rewrite !in_app_iff, in_concat_snd. reflexivity. Qed.

(** Freeing. *)
Lemma accounts_free_pline m o a p : accounts m o -> is_pline m a p -> In a (ow_plines o) ->
  accounts (free_obj m a) (OW (drop a (ow_plines o)) (ow_lists o) (ow_indexes o) (ow_lost o)).
Proof.
  intros [A1 A2 A3 A4 A5] P IA. unfold is_pline, is_list, is_index in *.
  assert (ND : NoDup (ow_plines o)
    /\ (forall x, In x (ow_plines o) -> ~ In x (concat (map snd (ow_lists o)) ++ ow_lost o))
    /\ NoDup (concat (map snd (ow_lists o)) ++ ow_lost o)).
  { unfold all_plines in A4. apply nodup_app in A4. tauto. }
  constructor; unfold is_pline, is_list, is_index; cbn [ow_plines ow_lists ow_indexes ow_lost]; auto.
  - intros b. setoid_rewrite (nth_free m a _ b P). unfold all_plines in *. cbn [ow_plines ow_lists ow_lost].
    rewrite in_app_iff, drop_in. specialize (A1 b). rewrite in_app_iff in A1. nb.
    + split; [intros [q H]; discriminate|]. intros [[_ H]|H]; [congruence|]. exfalso. exact (proj1 (proj2 ND) a IA H).
    + rewrite A1. tauto.
  - intros b l. rewrite <- A2, (nth_free m a _ b P). nb; [|reflexivity]. rewrite P. split; discriminate.
  - intros b. rewrite <- A3. setoid_rewrite (nth_free m a _ b P). nb; [|reflexivity]. setoid_rewrite P.
    split; intros [x H]; discriminate.
  - unfold all_plines. cbn [ow_plines ow_lists ow_lost]. apply nodup_app. split; [now apply drop_nodup|].
    split; [tauto|]. intros x Hx. apply drop_in in Hx. now apply ND.
Qed.

Lemma accounts_free_index m o a x : accounts m o -> is_index m a x ->
  accounts (free_obj m a) (OW (ow_plines o) (ow_lists o) (drop a (ow_indexes o)) (ow_lost o)).
Proof.
  intros [A1 A2 A3 A4 A5] P. unfold is_pline, is_list, is_index in *.
  constructor; unfold is_pline, is_list, is_index; cbn [ow_plines ow_lists ow_indexes ow_lost]; auto.
  - intros b. unfold all_plines in *. cbn [ow_plines ow_lists ow_lost]. rewrite <- A1. setoid_rewrite (nth_free m a _ b P).
    nb; [|reflexivity]. setoid_rewrite P. split; intros [q H]; discriminate.
  - intros b l. rewrite <- A2, (nth_free m a _ b P). nb; [|reflexivity]. rewrite P. split; discriminate.
  - intros b. setoid_rewrite (nth_free m a _ b P). rewrite drop_in, <- A3. nb.
    + split; [intros [y H]; discriminate|]. intros [_ H]. congruence.
    + tauto.
Qed.

Lemma owned_by_in a l x : In x (owned_by a l) <-> exists c, In (a, c) l /\ In x c.
Proof.
  unfold owned_by. rewrite in_concat_snd. split.
  - intros (b & c & H & Hx). apply filter_In in H. destruct H as [H E]. apply Nat.eqb_eq in E. cbn in E. subst b. eauto.
  - intros (c & H & Hx). exists a, c. split; [|exact Hx]. apply filter_In. split; [exact H|apply Nat.eqb_refl].
Qed.

Lemma concat_snd_split a (l : list (nat * list nat)) : NoDup (map fst l) -> NoDup (concat (map snd l)) ->
  NoDup (owned_by a l) /\ NoDup (concat (map snd (drop_list a l))).
Proof.
  intros _. induction l as [|[b c] l IH]; cbn; intros H.
  - split; constructor.
  - apply nodup_app in H. destruct H as (N1 & N2 & N3). destruct (IH N2) as [I1 I2].
    unfold owned_by, drop_list in *. cbn [filter fst]. destruct (Nat.eqb_spec a b) as [E|E]; cbn [negb map snd concat].
    + split; [|exact I2]. apply nodup_app. split; [exact N1|]. split; [exact I1|].
      intros x Hx Hy. apply (N3 x Hx). change (In x (owned_by a l)) in Hy. apply owned_by_in in Hy.
      apply in_concat_snd. destruct Hy as (k & ? & ?). eauto.
    + split; [exact I1|]. apply nodup_app. split; [exact N1|]. split; [exact I2|].
      intros x Hx Hy. apply (N3 x Hx). change (In x (concat (map snd (drop_list a l)))) in Hy.
      apply in_concat_snd in Hy. destruct Hy as (k & c' & H1 & H2). apply drop_list_in in H1.
      apply in_concat_snd. destruct H1. eauto.
Qed.

Lemma nodup_map_filter {A B} (f : A -> B) (g : A -> bool) l : NoDup (map f l) -> NoDup (map f (filter g l)).
Proof.
  induction l as [|x l IH]; cbn; intros H; [constructor|]. inversion H; subst. destruct (g x); [|auto].
  cbn. constructor; [|auto]. intros K. apply H2. apply in_map_iff in K. destruct K as (y & E & K).
  apply filter_In in K. apply in_map_iff. exists y. tauto.
Qed.

(** With the first components distinct, two entries with the same key are equal. *)
Lemma nodup_fst_inj {B} (l : list (nat * B)) a b c : NoDup (map fst l) -> In (a, b) l -> In (a, c) l -> b = c.
Proof.
  induction l as [|[k v] l IH]; cbn; intros H H1 H2; [contradiction|]. inversion H as [|x y NI ND]; subst.
  destruct H1 as [[= -> ->]|H1]; destruct H2 as [[= E1]|H2]; auto.
  - exfalso. apply NI. apply in_map_iff. now exists (a, c).
  - subst. exfalso. apply NI. apply in_map_iff. now exists (a, b).
Qed.

Lemma accounts_free_list m o a l : accounts m o -> is_list m a l ->
  accounts (free_obj m a)
    (OW (ow_plines o) (drop_list a (ow_lists o)) (ow_indexes o) (owned_by a (ow_lists o) ++ ow_lost o)).
Proof.
  intros [A1 A2 A3 A4 A5] P. unfold is_pline, is_list, is_index in *.
  constructor; unfold is_pline, is_list, is_index; cbn [ow_plines ow_lists ow_indexes ow_lost]; auto.
  - intros b. rewrite in_all_plines. cbn [ow_plines ow_lists ow_lost]. rewrite in_app_iff, owned_by_in.
    specialize (A1 b). rewrite in_all_plines in A1. setoid_rewrite (nth_free m a _ b P).
    assert (EQ : ((exists x c, In (x, c) (ow_lists o) /\ In b c) <->
        ((exists x c, In (x, c) (drop_list a (ow_lists o)) /\ In b c) \/ exists c, In (a, c) (ow_lists o) /\ In b c))).
    { split.
      - intros (x & c & H1 & H2). destruct (Nat.eq_dec x a) as [->|NE].
        + right. eauto.
        + left. exists x, c. split; [apply drop_list_in|]; auto.
      - intros [(x & c & H1 & H2)|(c & H1 & H2)]; [|eauto]. apply drop_list_in in H1. destruct H1. eauto. }
    nb.
    + split; [intros [q H]; discriminate|]. intros H.
      assert (exists p, nth_error m a = Some (Some (OPline p))) as [p HP] by (apply A1; tauto). congruence.
    + rewrite A1. tauto.
  - intros b c. rewrite drop_list_in, <- A2, (nth_free m a _ b P). cbn [fst]. nb; [|tauto].
    split; [discriminate|]. intros [_ H]. congruence.
  - intros b. rewrite <- A3. setoid_rewrite (nth_free m a _ b P). nb; [|reflexivity]. setoid_rewrite P.
    split; intros [x H]; discriminate.
  - unfold all_plines in *. cbn [ow_plines ow_lists ow_lost].
    apply nodup_app in A4. destruct A4 as (N1 & N2 & N3). apply nodup_app in N2. destruct N2 as (N4 & N5 & N6).
    destruct (concat_snd_split a _ A5 N4) as [N7 N8].
    assert (DISJ : forall x, In x (concat (map snd (drop_list a (ow_lists o)))) -> ~ In x (owned_by a (ow_lists o))).
    { clear - N4 A5. induction (ow_lists o) as [|[b c] l IH]; [intros x []|].
      intros x H K. cbn in N4, A5. apply nodup_app in N4. destruct N4 as (N1 & N2 & N3). pose proof (proj2 (proj1 (NoDup_cons_iff _ _) A5)) as A6.
      apply in_concat_snd in H. destruct H as (x1 & c1 & H1 & H2). apply drop_list_in in H1. destruct H1 as [H1 E1].
      apply owned_by_in in K. destruct K as (c2 & K1 & K2). cbn [fst] in E1.
      assert (I1 : forall y k, In (y, k) l -> In x k -> In x (concat (map snd l))).
      { intros y k ? ?. apply in_concat_snd. eauto. }
      destruct H1 as [[= -> ->]|H1]; destruct K1 as [[= E2 E3]|K1].
      - congruence.
      - exact (N3 x H2 (I1 _ _ K1 K2)).
      - subst. exact (N3 x K2 (I1 _ _ H1 H2)).
      - apply (IH N2 A6 x).
        + apply in_concat_snd. exists x1, c1. split; [apply drop_list_in|]; auto.
        + apply owned_by_in. eauto. }
    assert (SUB1 : forall x, In x (concat (map snd (drop_list a (ow_lists o)))) -> In x (concat (map snd (ow_lists o)))).
    { intros x H. apply in_concat_snd in H. destruct H as (x1 & c1 & H1 & H2). apply drop_list_in in H1.
      apply in_concat_snd. destruct H1. eauto. }
    assert (SUB2 : forall x, In x (owned_by a (ow_lists o)) -> In x (concat (map snd (ow_lists o)))).
    { intros x H. apply owned_by_in in H. apply in_concat_snd. destruct H as (c & ? & ?). eauto. }
    apply nodup_app. split; [exact N1|]. split.
    + apply nodup_app. split; [exact N8|]. split.
      * apply nodup_app. split; [exact N7|]. split; [exact N5|]. intros x Hx. apply N6. now apply SUB2.
      * intros x Hx. rewrite in_app_iff. intros [K|K]; [exact (DISJ x Hx K)|exact (N6 x (SUB1 x Hx) K)].
    + intros x Hx K. apply (N3 x Hx). apply in_app_iff. apply in_app_iff in K. destruct K as [K|K]; [left; auto|].
      apply in_app_iff in K. destruct K as [K|K]; [left|right]; auto.
  - now apply nodup_map_filter.
Qed.

(** Moving a polyline from a list to the caller. *)
Lemma drop_from_in a x l b c : In (b, c) (drop_from a x l) <->
  (b = a /\ exists c0, In (a, c0) l /\ c = drop x c0) \/ (b <> a /\ In (b, c) l).
Proof.
  unfold drop_from. rewrite in_map_iff. split.
  - intros ([b0 c0] & E & H). cbn [fst snd] in E. destruct (Nat.eqb_spec a b0) as [->|NE].
    + injection E as <- <-. left. split; [reflexivity|eauto].
    + injection E as <- <-. right. split; [congruence|exact H].
  - intros [(-> & c0 & H & ->)|(NE & H)].
    + exists (a, c0). cbn [fst snd]. rewrite Nat.eqb_refl. auto.
    + exists (b, c). cbn [fst snd]. destruct (Nat.eqb_spec a b); [congruence|auto].
Qed.
Lemma drop_from_fst a x l : map fst (drop_from a x l) = map fst l.
Proof.
  unfold drop_from. rewrite map_map. apply map_ext. intros [b c]. cbn. now destruct (Nat.eqb a b).
Qed.
Lemma drop_from_nodup a x l : NoDup (concat (map snd l)) -> NoDup (concat (map snd (drop_from a x l))).
Proof.
  induction l as [|[b c] l IH]; intros H; [constructor|].
  cbn [map snd concat] in H. apply nodup_app in H. destruct H as (N1 & N2 & N3).
  change (concat (map snd (drop_from a x ((b, c) :: l))))
    with (snd (if Nat.eqb a (fst (b, c)) then (fst (b, c), drop x (snd (b, c))) else (b, c))
            ++ concat (map snd (drop_from a x l))).
  assert (SUB : forall y, In y (concat (map snd (drop_from a x l))) -> In y (concat (map snd l))).
  { intros y H. apply in_concat_snd in H. destruct H as (k & c1 & H1 & H2). apply drop_from_in in H1.
    apply in_concat_snd. destruct H1 as [(-> & c0 & H & ->)|(_ & H)]; [|eauto]. apply drop_in in H2. destruct H2. eauto. }
  cbn [fst snd]. destruct (Nat.eqb a b); cbn [snd]; apply nodup_app.
  - split; [now apply drop_nodup|]. split; [auto|]. intros y Hy K. apply drop_in in Hy.
    exact (N3 y (proj1 Hy) (SUB y K)).
  - split; [exact N1|]. split; [auto|]. intros y Hy K. exact (N3 y Hy (SUB y K)).
Qed.

Lemma nodup_mid {A} (l1 l2 : list A) x : NoDup (l1 ++ x :: l2) -> ~ In x (l1 ++ l2).
Proof. apply NoDup_remove_2. Qed.

Lemma accounts_move m o a l1 x l2 : accounts m o -> is_list m a (l1 ++ x :: l2) ->
  accounts (write_obj m a (OList (l1 ++ l2)))
    (OW (x :: ow_plines o) (drop_from a x (ow_lists o)) (ow_indexes o) (ow_lost o)).
Proof.
  intros [A1 A2 A3 A4 A5] P. pose proof (proj1 (A2 _ _) P) as IN. unfold is_pline, is_list, is_index in *.
  assert (ND : NoDup (concat (map snd (ow_lists o)))).
  { unfold all_plines in A4. apply nodup_app in A4. destruct A4 as (_ & H & _). now apply nodup_app in H. }
  assert (NDL : NoDup (l1 ++ x :: l2)).
  { clear - ND IN. induction (ow_lists o) as [|[b c] l IH]; [destruct IN|]. cbn in ND. apply nodup_app in ND.
    destruct IN as [[= -> ->]|IN]; [tauto|]. now apply IH. }
  assert (DR : drop x (l1 ++ x :: l2) = l1 ++ l2).
  { pose proof (nodup_mid _ _ _ NDL) as NI. rewrite in_app_iff in NI. unfold drop. rewrite filter_app. cbn [filter].
    rewrite Nat.eqb_refl. cbn [negb]. 
    assert (F : forall k, ~ In x k -> filter (fun b => negb (Nat.eqb x b)) k = k).
    { induction k as [|y k IH]; intros H; [reflexivity|]. cbn. destruct (Nat.eqb_spec x y) as [->|NE].
      - exfalso. apply H. now left.
      - cbn. rewrite IH; [reflexivity|]. intros K. apply H. now right. }
    rewrite !F; tauto. }
  assert (XIN : In x (concat (map snd (ow_lists o)))).
  { apply in_concat_snd. exists a, (l1 ++ x :: l2). split; [exact IN|]. apply in_app_iff. right. now left. }
  (* [x] is in no list any more *)
  assert (OUT : forall b c, In (b, c) (drop_from a x (ow_lists o)) -> ~ In x c).
  { intros b c H K. apply drop_from_in in H. destruct H as [(-> & c0 & H & ->)|(NE & H)].
    - apply drop_in in K. tauto.
    - clear - ND IN H K NE. induction (ow_lists o) as [|[k v] l IH]; [destruct IN|]. cbn in ND. apply nodup_app in ND.
      destruct ND as (N1 & N2 & N3).
      assert (XA : In x (l1 ++ x :: l2)) by (apply in_app_iff; right; now left).
      destruct IN as [[= -> ->]|IN]; destruct H as [[= E1 E2]|H].
      + congruence.
      + apply (N3 x XA). apply in_concat_snd. eauto.
      + subst. apply (N3 x K). apply in_concat_snd. eauto.
      + now apply IH. }
  assert (SAME : forall b, (exists k c, In (k, c) (ow_lists o) /\ In b c) <->
     (b = x \/ exists k c, In (k, c) (drop_from a x (ow_lists o)) /\ In b c)).
  { intros b. split.
    - intros (k & c & H1 & H2). destruct (Nat.eq_dec b x) as [->|NE]; [now left|]. right.
      destruct (Nat.eq_dec k a) as [->|NK].
      + exists a, (drop x c). split; [|now apply drop_in]. apply drop_from_in. left. eauto.
      + exists k, c. split; [|exact H2]. apply drop_from_in. right. auto.
    - intros [->|(k & c & H1 & H2)]; [now apply in_concat_snd|]. apply drop_from_in in H1.
      destruct H1 as [(-> & c0 & H & ->)|(NE & H)]; [|eauto]. apply drop_in in H2. destruct H2. eauto. }
  constructor; unfold is_pline, is_list, is_index; cbn [ow_plines ow_lists ow_indexes ow_lost]; auto.
  - intros b. rewrite in_all_plines. cbn [ow_plines ow_lists ow_lost In]. specialize (A1 b). rewrite in_all_plines, SAME in A1.
    setoid_rewrite (nth_write m a _ _ b P). nb.
    + split; [intros [q H]; discriminate|]. intros H.
      assert (exists p, nth_error m a = Some (Some (OPline p))) as [p HP].
      { apply A1. destruct H as [[->|H]|[H|H]]; tauto. }
      congruence.
    + rewrite A1. intuition (subst; auto).
  - intros b c. rewrite (nth_write m a _ _ b P), drop_from_in. nb.
    + split.
      * intros [= <-]. left. split; [reflexivity|]. exists (l1 ++ x :: l2). auto.
      * intros [(_ & c0 & H & ->)|(NE & _)]; [|congruence].
        rewrite (nodup_fst_inj _ _ _ _ A5 H IN), DR. reflexivity.
    + rewrite A2. split; [now right|]. intros [(E & _)|(_ & H)]; [congruence|exact H].
  - intros b. rewrite <- A3. setoid_rewrite (nth_write m a _ _ b P). nb; [|reflexivity]. setoid_rewrite P.
    split; intros [y H]; discriminate.
  - unfold all_plines in *. cbn [ow_plines ow_lists ow_lost app].
    apply nodup_app in A4. destruct A4 as (N1 & N2 & N3). apply nodup_app in N2. destruct N2 as (N4 & N5 & N6).
    constructor.
    + rewrite !in_app_iff. intros [K|[K|K]].
      * apply (N3 x K). apply in_app_iff. now left.
      * apply in_concat_snd in K. destruct K as (k & c & H1 & H2). exact (OUT _ _ H1 H2).
      * exact (N6 x XIN K).
    + assert (SUB : forall y, In y (concat (map snd (drop_from a x (ow_lists o)))) -> In y (concat (map snd (ow_lists o)))).
      { intros y H. apply in_concat_snd. apply SAME. right. now apply in_concat_snd. }
      apply nodup_app. split; [exact N1|]. split.
      * apply nodup_app. split; [now apply drop_from_nodup|]. split; [exact N5|]. intros y Hy. apply N6. auto.
      * intros y Hy K. apply (N3 y Hy). apply in_app_iff. apply in_app_iff in K. destruct K as [K|K]; [left|right]; auto.
  - now rewrite drop_from_fst.
Qed.

End Accounts.
