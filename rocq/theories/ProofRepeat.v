(** Lemmas about repeat-position removal, additions with repeat suppression, start rotation and
    totality of accessors (C01, C03, C39, C41). *)
From Coq Require Import List Arith Bool ZArith Lia.
From Verif Require Import Num Res ModelMath ModelSeg ModelPline Spec SpecPline ProofBase ProofIter ProofInvert.
Import ListNotations.

Section Runs.
Context {A : Type} (close : A -> A -> bool).

Fixpoint group (h : A) (acc : list A) (l : list A) : list (list A) :=
  match l with
  | [] => [h :: rev acc]
  | v :: t => if close h v then group h (v :: acc) t else (h :: rev acc) :: group v [] t
  end.

Lemma group_concat l : forall h acc, concat (group h acc l) = h :: rev acc ++ l.
Proof.
  induction l as [|v t IH]; intros h acc; simpl.
  - reflexivity.
  - destruct (close h v); simpl; rewrite IH; simpl; rewrite ?app_assoc_reverse; reflexivity.
Qed.

Lemma group_hd l : forall h acc, exists t rest, group h acc l = (h :: t) :: rest.
Proof.
  induction l as [|v t IH]; intros h acc; simpl; [eauto|].
  destruct (close h v); eauto.
Qed.

Lemma group_is_runs_aux l : forall h acc, (forall x, In x acc -> close h x = true) ->
  is_runs close (h :: rev acc ++ l) (group h acc l).
Proof.
  induction l as [|v t IH]; intros h acc Hacc.
  - split; [apply (group_concat [])|split].
    + intros r [<-|[]]. exists h, (rev acc). split; [reflexivity|].
      intros x Hx. apply Hacc. now apply in_rev.
    + intros [|i] h1 t1 h2 t2 H1 H2; simpl in *; [discriminate|destruct i; discriminate].
  - split; [apply group_concat|]. simpl. destruct (close h v) eqn:E.
    + apply (IH h (v :: acc)). intros x [<-|Hx]; auto.
    + destruct (IH v []) as (_ & I1 & I2); [intros x []|]. split.
      * intros r [<-|Hr]; [|auto]. exists h, (rev acc). split; [reflexivity|].
        intros x Hx. apply Hacc. now apply in_rev.
      * intros [|i] h1 t1 h2 t2 H1 H2.
        -- simpl in H1, H2. injection H1 as <- <-.
           destruct (group_hd t v []) as (t' & rest & G). rewrite G in H2. simpl in H2. congruence.
        -- eapply I2; [exact H1|exact H2].
Qed.

Lemma group_is_runs h l : is_runs close (h :: l) (group h [] l).
Proof. apply (group_is_runs_aux l h []). intros x []. Qed.

Lemma runs_unique l rs rs' : is_runs close l rs -> is_runs close l rs' -> rs = rs'.
Proof.
  revert l rs'. induction rs as [|r rs IH]; intros l rs' (C & F & S) (C' & F' & S').
  - simpl in C. subst l. destruct rs' as [|r' rs']; [reflexivity|].
    destruct (F' r') as (h & t & -> & _); [now left|]. discriminate.
  - destruct (F r) as (h & t & -> & Ht); [now left|].
    destruct rs' as [|r' rs']; [simpl in *; congruence|].
    destruct (F' r') as (h' & t' & -> & Ht'); [now left|].
    simpl in C, C'. assert (h = h') by congruence. subst h'.
    assert (E : t ++ concat rs = t' ++ concat rs') by congruence.
    assert (Ett : t = t').
    { assert (Hrs : forall r2, In r2 rs -> exists h2 t2, r2 = h2 :: t2).
      { intros r2 Hr. destruct (F r2) as (h2 & t2 & -> & _); [now right|eauto]. }
      assert (Hrs' : forall r2, In r2 rs' -> exists h2 t2, r2 = h2 :: t2).
      { intros r2 Hr. destruct (F' r2) as (h2 & t2 & -> & _); [now right|eauto]. }
      assert (G : forall h2 t2 q, rs = (h2 :: t2) :: q -> close h h2 = false).
      { intros h2 t2 q ->. apply (S 0 h t h2 t2); reflexivity. }
      assert (G' : forall h2 t2 q, rs' = (h2 :: t2) :: q -> close h h2 = false).
      { intros h2 t2 q ->. apply (S' 0 h t' h2 t2); reflexivity. }
      clear C C' F F' S S' IH. revert t' E Ht'. induction t as [|a t IHt]; intros t' E Ht'.
      - destruct t' as [|b t']; [reflexivity|]. simpl in E. destruct rs as [|r2 rs]; [discriminate|].
        destruct (Hrs r2) as (h2 & t2 & ->); [now left|]. simpl in E. specialize (G h2 t2 rs eq_refl).
        assert (close h b = true) by (apply Ht'; now left). congruence.
      - destruct t' as [|b t'].
        + simpl in E. destruct rs' as [|r2 rs']; [discriminate|].
          destruct (Hrs' r2) as (h2 & t2 & ->); [now left|]. simpl in E. specialize (G' h2 t2 rs' eq_refl).
          assert (close h a = true) by (apply Ht; now left). congruence.
        + simpl in E. injection E as -> E. f_equal. apply IHt; auto.
          * intros x Hx. apply Ht. now right.
          * intros x Hx. apply Ht'. now right. }
    subst t'. f_equal. apply (IH (concat rs)).
    + split; [reflexivity|]. split; [intros r Hr; apply F; now right|].
      intros i h1 t1 h2 t2 H1 H2. apply (S (Datatypes.S i) h1 t1 h2 t2); auto.
    + split; [apply app_inv_head in E; congruence|]. split; [intros r Hr; apply F'; now right|].
      intros i h1 t1 h2 t2 H1 H2. apply (S' (Datatypes.S i) h1 t1 h2 t2); auto.
Qed.

End Runs.

Section Repeat.
Context {T : Type} {N : Num T}.
Implicit Types p : pline T.

Local Notation wb v b := (Vtx (px v) (py v) b).

Lemma last_app1 {A} (l : list A) a d : last (l ++ [a]) d = a.
Proof. induction l as [|x l IH]; simpl; [reflexivity|]. destruct (l ++ [a]) eqn:E; [destruct l; discriminate|exact IH]. Qed.

Lemma with_bulge_same (v : vertex T) : wb v (pbulge v) = v.
Proof. now destruct v. Qed.

Lemma with_bulge_twice (v : vertex T) a b : with_bulge (wb v a) b = wb v b.
Proof. reflexivity. Qed.

Lemma last_snoc_pline (l : list (vertex T)) v c : last_ (PL (l ++ [v]) c) = Ret (Some v).
Proof.
  unfold last_, vertex_count. cbn [vtx]. rewrite app_length. cbn [length].
  rewrite usub_ok by lia. cbn [rbind]. unfold get. cbn [vtx].
  rewrite nth_error_app2 by lia. replace (length l + 1 - 1 - length l) with 0 by lia. reflexivity.
Qed.

Lemma set_last_snoc_pline (l : list (vertex T)) v w c : set_last (PL (l ++ [v]) c) w = Ret (PL (l ++ [w]) c).
Proof.
  unfold set_last, vertex_count. cbn [vtx]. rewrite app_length. cbn [length].
  rewrite usub_ok by lia. cbn [rbind].
  rewrite set_vertex_ok by (unfold vertex_count; cbn [vtx]; rewrite app_length; cbn [length]; lia).
  cbn [vtx is_closed]. replace (length l + 1 - 1) with (length l) by lia. now rewrite list_set_last.
Qed.

Lemma remove_last_snoc (l : list (vertex T)) v c : remove_last (PL (l ++ [v]) c) = Ret (v, PL l c).
Proof.
  unfold remove_last, vertex_count. cbn [vtx]. rewrite app_length. cbn [length].
  rewrite usub_ok by lia. cbn [rbind]. replace (length l + 1 - 1) with (length l) by lia.
  unfold remove. cbn [vtx is_closed].
  rewrite (index_ok _ _ v) by (rewrite nth_error_app2 by lia; now rewrite Nat.sub_diag).
  cbn [rbind]. now rewrite list_remove_last.
Qed.

Section Fixed.
Variable eps : T.
Let close (a b : vertex T) := v2fuzzy_eq_eps (pos b) (pos a) eps.

Definition singles (rs : list (list (vertex T))) : bool := forallb (fun r => length r =? 1) rs.

Lemma remove_repeat_loop_some src c l : forall i h acc K,
  exists rest,
  remove_repeat_pos_loop src c eps i l (pos h)
    (Some (PL (K ++ run_rep (h :: rev acc)) c))
  = Ret (Some (PL (K ++ rest) c)) /\ rest = flat_map run_rep (group close h acc l).
Proof.
  induction l as [|v t IH]; intros i h acc K.
  - eexists. split; [reflexivity|]. cbn [group flat_map]. now rewrite app_nil_r.
  - cbn [remove_repeat_pos_loop group]. change (v2fuzzy_eq_eps (pos v) (pos h) eps) with (close h v).
    destruct (close h v) eqn:E.
    + cbn [run_rep]. rewrite last_snoc_pline. cbn [rbind unwrap].
      rewrite set_last_snoc_pline. cbn [rbind]. rewrite with_bulge_twice.
      destruct (IH (i + 1) h (v :: acc) K) as (rest & H1 & H2).
      exists rest. rewrite <- H1. split; [|exact H2]. cbn [rev]. cbn [run_rep].
      rewrite last_app1. reflexivity.
    + unfold add_vertex. cbn [vtx is_closed].
      destruct (IH (i + 1) v [] (K ++ run_rep (h :: rev acc))) as (rest & H1 & H2).
      exists (run_rep (h :: rev acc) ++ rest). split.
      * cbn [rev run_rep last] in H1. rewrite with_bulge_same in H1.
        cbn [run_rep] in *. rewrite H1. now rewrite <- !app_assoc.
      * cbn [flat_map]. now rewrite H2.
Qed.

Lemma singles_reps (rs : list (list (vertex T))) : singles rs = true -> flat_map run_rep rs = concat rs.
Proof.
  induction rs as [|r rs IH]; [reflexivity|]. cbn [singles forallb]. intros H.
  apply andb_true_iff in H as [H1 H2]. cbn [flat_map concat]. rewrite (IH H2). f_equal.
  destruct r as [|a [|b r]]; try discriminate. cbn. now rewrite with_bulge_same.
Qed.

Lemma remove_repeat_loop_none src c l : forall pre h,
  src = pre ++ h :: l ->
  remove_repeat_pos_loop src c eps (length pre + 1) l (pos h) None
  = Ret (if singles (group close h [] l) then None
         else Some (PL (pre ++ flat_map run_rep (group close h [] l)) c)).
Proof.
  induction l as [|v t IH]; intros pre h Hsrc.
  - reflexivity.
  - cbn [remove_repeat_pos_loop group]. change (v2fuzzy_eq_eps (pos v) (pos h) eps) with (close h v).
    destruct (close h v) eqn:E.
    + assert (Hf : firstn (length pre + 1) src = pre ++ [h]).
      { rewrite Hsrc, firstn_app. replace (length pre + 1 - length pre) with 1 by lia.
        rewrite firstn_all2 by lia. reflexivity. }
      rewrite Hf. rewrite last_snoc_pline. cbn [rbind unwrap]. rewrite set_last_snoc_pline. cbn [rbind].
      destruct (remove_repeat_loop_some src c t (length pre + 1 + 1) h [v] pre) as (rest & H1 & H2).
      cbn [rev app run_rep last] in H1. change (with_bulge h (pbulge v)) with (wb h (pbulge v)). rewrite H1, H2.
      assert (Hs : singles (group close h [v] t) = false).
      { clear. assert (G : forall l h acc, acc <> [] -> singles (group close h acc l) = false).
        { induction l as [|w l IH]; intros h' acc Hacc; cbn [group].
          - cbn [singles forallb]. cbn [length]. rewrite rev_length.
            destruct acc; [congruence|]. reflexivity.
          - destruct (close h' w); [apply IH; discriminate|]. cbn [singles forallb length].
            rewrite rev_length. destruct acc; [congruence|]. reflexivity. }
        apply G. discriminate. }
      rewrite Hs. reflexivity.
    + specialize (IH (pre ++ [h]) v). rewrite app_length in IH. cbn [length] in IH.
      rewrite IH by (rewrite Hsrc; now rewrite <- app_assoc).
      cbn [rev]. cbn [singles forallb length Nat.eqb andb flat_map run_rep last].
      fold (singles (group close v [] t)). rewrite with_bulge_same.
      destruct (singles (group close v [] t)); [reflexivity|]. now rewrite <- app_assoc.
Qed.

Lemma flat_map_run_rep_len (rs : list (list (vertex T))) :
  (forall r, In r rs -> exists h t, r = h :: t) -> length (flat_map run_rep rs) = length rs.
Proof.
  induction rs as [|r rs IH]; intros H; [reflexivity|]. cbn [flat_map].
  destruct (H r) as (h & t & ->); [now left|]. rewrite app_length, IH; [reflexivity|].
  intros r' Hr. apply H. now right.
Qed.

Lemma singles_all_single rs : singles rs = true <-> all_single rs.
Proof.
  unfold singles, all_single. rewrite forallb_forall. split; intros H r Hr.
  - apply Nat.eqb_eq. auto.
  - apply Nat.eqb_eq. auto.
Qed.

Lemma removelast_snoc {A} (l : list A) a : removelast (l ++ [a]) = l.
Proof. rewrite removelast_app by discriminate. apply app_nil_r. Qed.

Lemma remove_repeat_pos_spec p : 2 <= vertex_count p ->
  exists rs first lst,
    is_runs close (vtx p) rs
    /\ hd_error (vtx p) = Some first /\ nth_error (vtx p) (vertex_count p - 1) = Some lst
    /\ (is_closed p && close first lst = true ->
        remove_repeat_pos p eps = Ret (Some (PL (removelast (flat_map run_rep rs)) true)))
    /\ (is_closed p && close first lst = false -> all_single rs ->
        remove_repeat_pos p eps = Ret None)
    /\ (is_closed p && close first lst = false -> ~ all_single rs ->
        remove_repeat_pos p eps = Ret (Some (PL (flat_map run_rep rs) (is_closed p)))).
Proof.
  intros H2. destruct p as [l c]. destruct l as [|h t]; [unfold vertex_count in H2; cbn in H2; lia|].
  exists (group close h [] t), h.
  destruct (index_lt (h :: t) (vertex_count (PL (h :: t) c) - 1)) as (lst & Hl & _); [unfold vertex_count in *; cbn [vtx] in *; lia|].
  exists lst. cbn [vtx is_closed].
  split; [apply group_is_runs|]. split; [reflexivity|]. split; [exact Hl|].
  unfold remove_repeat_pos. destruct (Nat.ltb_spec (vertex_count (PL (h :: t) c)) 2); [lia|].
  unfold at_, index. cbn [vtx nth_error rbind skipn is_closed].
  pose proof (remove_repeat_loop_none (h :: t) c t [] h eq_refl) as HLoop. cbn [length Nat.add app] in HLoop.
  rewrite HLoop. cbn [rbind].
  assert (HL : last_ (PL (h :: t) c) = Ret (Some lst)).
  { unfold last_. rewrite usub_ok by lia. cbn [rbind]. unfold get. cbn [vtx]. exact (f_equal Ret Hl). }
  assert (Hclose : v2fuzzy_eq_eps (pos lst) (pos h) eps = close h lst) by reflexivity.
  destruct c; cbn [andb].
  - rewrite HL. cbn [rbind unwrap]. rewrite Hclose. destruct (close h lst).
    + split; [intros _|split; discriminate].
      set (r := match (if singles (group close h [] t) then None else Some (PL (flat_map run_rep (group close h [] t)) true)) with
                 Some r => r | None => PL (h :: t) true end).
      assert (Er : r = PL (flat_map run_rep (group close h [] t)) true).
      { unfold r. destruct (singles (group close h [] t)) eqn:S; [|reflexivity].
        rewrite (singles_reps _ S), group_concat. reflexivity. }
      rewrite Er. set (k := flat_map run_rep (group close h [] t)).
      assert (Hk : k <> []).
      { unfold k. destruct (group_hd close t h []) as (t' & rest & ->). discriminate. }
      destruct (exists_last Hk) as (k' & x & ->). rewrite remove_last_snoc. cbn [rbind snd].
      now rewrite removelast_snoc.
    + split; [discriminate|]. split.
      * intros _ HS. apply singles_all_single in HS. now rewrite HS.
      * intros _ HS. destruct (singles (group close h [] t)) eqn:S; [|reflexivity].
        exfalso. apply HS. now apply singles_all_single.
  - split; [discriminate|]. split.
    + intros _ HS. apply singles_all_single in HS. now rewrite HS.
    + intros _ HS. destruct (singles (group close h [] t)) eqn:S; [|reflexivity].
      exfalso. apply HS. now apply singles_all_single.
Qed.

End Fixed.

(** ** Consequences used in the property statements *)
Section Conseq.
Variable close : vertex T -> vertex T -> bool.
Hypothesis close_pos : forall a b a' b', pos a = pos a' -> pos b = pos b' -> close a b = close a' b'.

Lemma run_rep_nth (rs : list (list (vertex T))) i v : (forall r, In r rs -> exists h t, r = h :: t) ->
  nth_error (flat_map run_rep rs) i = Some v ->
  exists h t, nth_error rs i = Some (h :: t) /\ v = wb h (pbulge (last t h)).
Proof.
  revert i. induction rs as [|r rs IH]; intros i Hr Hn; [destruct i; discriminate|].
  destruct (Hr r) as (h & t & ->); [now left|]. cbn [flat_map run_rep app] in Hn.
  destruct i as [|i].
  - cbn in Hn. injection Hn as <-. exists h, t. split; reflexivity.
  - cbn in Hn. apply IH in Hn; [exact Hn|]. intros r Hin. apply Hr. now right.
Qed.

Lemma runs_no_repeat l rs : is_runs close l rs -> no_repeat close (flat_map run_rep rs).
Proof.
  intros (C & F & S) i a b Ha Hb.
  assert (F' : forall r, In r rs -> exists h t, r = h :: t).
  { intros r Hr. destruct (F r Hr) as (h & t & -> & _). eauto. }
  destruct (run_rep_nth _ _ _ F' Ha) as (h1 & t1 & N1 & ->).
  destruct (run_rep_nth _ _ _ F' Hb) as (h2 & t2 & N2 & ->).
  rewrite (close_pos (wb h1 (pbulge (last t1 h1))) (wb h2 (pbulge (last t2 h2))) h1 h2 eq_refl eq_refl). eapply S; eauto.
Qed.

Lemma no_repeat_removelast l : no_repeat close l -> no_repeat close (removelast l).
Proof.
  intros H i a b Ha Hb.
  assert (G : forall (A : Type) (l : list A) i x, nth_error (removelast l) i = Some x -> nth_error l i = Some x).
  { clear. intros A l. induction l as [|y l IH]; intros i x Hx; [destruct i; discriminate|].
    destruct l as [|z l]; [destruct i; discriminate|]. destruct i as [|i]; [exact Hx|].
    cbn [nth_error]. apply IH. exact Hx. }
  apply (H i); apply G; auto.
Qed.

End Conseq.

(** With a transitive and symmetric closeness the result has no repeat around the end either. *)
Section Cyclic.
Variable close : vertex T -> vertex T -> bool.
Hypothesis close_pos : forall a b a' b', pos a = pos a' -> pos b = pos b' -> close a b = close a' b'.
Hypothesis close_refl : forall a, close a a = true.
Hypothesis close_sym : forall a b, close a b = close b a.
Hypothesis close_trans : forall a b c, close a b = true -> close b c = true -> close a c = true.

Lemma last_run_close l rs : is_runs close l rs -> forall f lst,
  hd_error l = Some f -> nth_error l (length l - 1) = Some lst ->
  exists h0 t0 hk tk, nth_error rs 0 = Some (h0 :: t0) /\ h0 = f
    /\ nth_error rs (length rs - 1) = Some (hk :: tk) /\ close hk lst = true.
Proof.
  intros (C & F & _) f lst Hf Hl.
  assert (Hne : rs <> []) by (intros ->; simpl in C; subst l; discriminate).
  destruct (exists_last Hne) as (rs' & r & E).
  destruct (F r) as (hk & tk & Er & Ht); [rewrite E; apply in_app_iff; right; now left|].
  destruct rs as [|r0 rs0]; [congruence|].
  destruct (F r0) as (h0 & t0 & -> & _); [now left|].
  exists h0, t0, hk, tk. split; [reflexivity|]. split.
  { rewrite <- C in Hf. cbn in Hf. congruence. }
  split.
  { rewrite E, app_length. cbn [length]. rewrite nth_error_app2 by lia.
    replace (length rs' + 1 - 1 - length rs') with 0 by lia. cbn. congruence. }
  assert (EL : l = concat rs' ++ hk :: tk).
  { rewrite <- C, E, concat_app. cbn [concat]. rewrite app_nil_r. congruence. }
  destruct (Nat.eq_dec (length tk) 0) as [Z|Z].
  - destruct tk; [|discriminate]. rewrite EL, app_length in Hl. cbn [length] in Hl.
    rewrite nth_error_app2 in Hl by lia. replace (length (concat rs') + 1 - 1 - length (concat rs')) with 0 in Hl by lia.
    cbn in Hl. injection Hl as <-. apply close_refl.
  - apply Ht. rewrite EL, app_length in Hl. cbn [length] in Hl.
    rewrite nth_error_app2 in Hl by lia.
    replace (length (concat rs') + S (length tk) - 1 - length (concat rs')) with (S (length tk - 1)) in Hl by lia.
    cbn [nth_error] in Hl. eapply nth_error_In. exact Hl.
Qed.

Lemma kept_nth l rs : is_runs close l rs -> forall i v,
  nth_error (flat_map run_rep rs) i = Some v ->
  exists h t, nth_error rs i = Some (h :: t) /\ pos v = pos h.
Proof.
  intros (C & F & S) i v Hv.
  assert (F' : forall r, In r rs -> exists h t, r = h :: t).
  { intros r Hr. destruct (F r Hr) as (h & t & -> & _). eauto. }
  destruct (run_rep_nth _ _ _ F' Hv) as (h & t & N1 & ->). exists h, t. auto.
Qed.

(** The kept list, with or without its last element according to whether the last element of [l]
    is close to the first, has no repeat around its end. *)
Lemma runs_no_wrap l rs f lst a b :
  is_runs close l rs -> hd_error l = Some f -> nth_error l (length l - 1) = Some lst ->
  let kept := flat_map run_rep rs in
  let q := if close f lst then removelast kept else kept in
  2 <= length q \/ close f lst = false ->
  nth_error q 0 = Some a -> nth_error q (length q - 1) = Some b ->
  close a b = false.
Proof.
  intros R Hf Hl kept q HL Ha Hb.
  destruct (last_run_close _ _ R _ _ Hf Hl) as (h0 & t0 & hk & tk & N0 & E0 & NK & CK). subst h0.
  destruct (close f lst) eqn:CF; subst q.
  - destruct HL as [HL|HL]; [|discriminate].
    destruct kept as [|k0 kr] eqn:EK; [destruct (0 : nat); discriminate|]. rewrite <- EK in *.
    assert (Hne : kept <> []) by (rewrite EK; discriminate).
    destruct (exists_last Hne) as (q & x & EQ). rewrite EQ in *. rewrite removelast_snoc in *.
    assert (HLr : length (flat_map run_rep rs) = length rs).
    { apply flat_map_run_rep_len. intros r Hr. destruct (proj1 (proj2 R) r Hr) as (h & t & -> & _). eauto. }
    fold kept in HLr. rewrite EQ, app_length in HLr. cbn [length] in HLr.
    assert (Ha' : nth_error kept 0 = Some a) by (rewrite EQ, nth_error_app1 by lia; exact Ha).
    assert (Hb' : nth_error kept (length q - 1) = Some b) by (rewrite EQ, nth_error_app1 by lia; exact Hb).
    destruct (kept_nth _ _ R _ _ Ha') as (ha & ta & NA & PA).
    destruct (kept_nth _ _ R _ _ Hb') as (hb & tb & NB & PB).
    assert (ha = f) by congruence. subst ha.
    rewrite (close_pos a b f hb PA PB).
    destruct (close f hb) eqn:C1; [|reflexivity]. exfalso.
    assert (C2 : close hb lst = true).
    { apply (close_trans hb f lst); [now rewrite close_sym|exact CF]. }
    assert (C3 : close hb hk = true) by (apply (close_trans hb lst hk); [exact C2|now rewrite close_sym]).
    assert (C4 : close hb hk = false).
    { apply (proj2 (proj2 R) (length q - 1) hb tb hk tk NB).
      replace (S (length q - 1)) with (length rs - 1) by lia. exact NK. }
    congruence.
  - assert (HLr : length (flat_map run_rep rs) = length rs).
    { apply flat_map_run_rep_len. intros r Hr. destruct (proj1 (proj2 R) r Hr) as (h & t & -> & _). eauto. }
    fold kept in HLr. rewrite HLr in Hb.
    destruct (kept_nth _ _ R _ _ Ha) as (ha & ta & NA & PA).
    destruct (kept_nth _ _ R _ _ Hb) as (hb & tb & NB & PB).
    assert (ha = f) by congruence. assert (hb = hk) by congruence. subst ha hb.
    rewrite (close_pos a b f hk PA PB).
    destruct (close f hk) eqn:C1; [|reflexivity]. exfalso.
    assert (close f lst = true) by (apply (close_trans f hk lst); auto). congruence.
Qed.

End Cyclic.

(** ** Additions *)
Section Add.
Variable eps : T.
Let close2 (a b : vertex T) := v2fuzzy_eq_eps (pos a) (pos b) eps.

Lemma add_or_replace_vertex_snoc l x v c :
  add_or_replace_vertex (PL (l ++ [x]) c) v eps
  = PL (if close2 x v then l ++ [with_bulge x (pbulge v)] else l ++ [x; v]) c.
Proof.
  unfold add_or_replace_vertex. cbn [vtx is_closed]. rewrite rev_app_distr. cbn [rev app].
  unfold close2. destruct (v2fuzzy_eq_eps (pos x) (pos v) eps).
  - now rewrite rev_involutive.
  - unfold add_vertex. cbn [vtx is_closed]. now rewrite <- app_assoc.
Qed.

Lemma fold_add_spec l c : forall K h acc,
  fold_left (fun a v => add_or_replace_vertex a v eps) l (PL (K ++ run_rep (h :: rev acc)) c)
  = PL (K ++ flat_map run_rep (group close2 h acc l)) c.
Proof.
  induction l as [|v t IH]; intros K h acc.
  - cbn [fold_left group flat_map]. now rewrite app_nil_r.
  - cbn [fold_left group]. cbn [run_rep]. rewrite add_or_replace_vertex_snoc.
    assert (E : close2 (wb h (pbulge (last (rev acc) h))) v = close2 h v) by reflexivity.
    rewrite E. destruct (close2 h v).
    + rewrite <- (IH K h (v :: acc)). cbn [rev run_rep]. rewrite last_app1. reflexivity.
    + cbn [flat_map]. rewrite app_assoc. rewrite <- (IH _ v []). cbn [rev run_rep last].
      rewrite with_bulge_same. rewrite <- app_assoc. reflexivity.
Qed.

Lemma add_first_spec l c h :
  fold_left (fun a v => add_or_replace_vertex a v eps) (h :: l) (PL [] c)
  = PL (flat_map run_rep (group close2 h [] l)) c.
Proof.
  cbn [fold_left]. change (add_or_replace_vertex (PL [] c) h eps) with (PL [h] c).
  pose proof (fold_add_spec l c [] h []) as H. cbn [rev run_rep last app] in H.
  now rewrite with_bulge_same in H.
Qed.

Lemma adds_runs l c :
  exists rs, is_runs close2 l rs
    /\ fold_left (fun a v => add_or_replace_vertex a v eps) l (PL [] c) = PL (flat_map run_rep rs) c.
Proof.
  destruct l as [|h t].
  - exists []. split; [|reflexivity]. split; [reflexivity|]. split; [intros r []|].
    intros [|i]; discriminate.
  - exists (group close2 h [] t). split; [apply group_is_runs|apply add_first_spec].
Qed.

(** Adding to any polyline without repeats keeps it without repeats. *)
Lemma add_or_replace_no_repeat p v :
  no_repeat close2 (vtx p) -> no_repeat close2 (vtx (add_or_replace_vertex p v eps)).
Proof.
  destruct p as [l c]. cbn [vtx]. intros H.
  destruct l as [|a0 l0] eqn:EL.
  - intros [|i] a b Ha Hb; [discriminate|destruct i; discriminate].
  - rewrite <- EL in *. assert (Hne : l <> []) by (rewrite EL; discriminate).
    destruct (exists_last Hne) as (k & x & E). rewrite E in *. rewrite add_or_replace_vertex_snoc. cbn [vtx].
    destruct (close2 x v) eqn:C.
    + intros i a b Ha Hb.
      assert (HP : forall j w, nth_error (k ++ [with_bulge x (pbulge v)]) j = Some w ->
                exists w', nth_error (k ++ [x]) j = Some w' /\ pos w' = pos w).
      { intros j w Hw. destruct (Nat.ltb_spec j (length k)).
        - rewrite nth_error_app1 in Hw by lia. exists w. rewrite nth_error_app1 by lia. auto.
        - rewrite nth_error_app2 in Hw by lia. exists x. rewrite nth_error_app2 by lia.
          destruct (j - length k) as [|m]; [injection Hw as <-; auto|destruct m; discriminate]. }
      destruct (HP _ _ Ha) as (a' & A1 & A2). destruct (HP _ _ Hb) as (b' & B1 & B2).
      unfold close2. rewrite <- A2, <- B2. apply (H i a' b' A1 B1).
    + intros i a b Ha Hb. change [x; v] with ([x] ++ [v]) in Ha, Hb. rewrite app_assoc in Ha, Hb.
      destruct (Nat.ltb_spec (S i) (length (k ++ [x]))) as [Hi|Hi].
      * rewrite nth_error_app1 in Ha by lia. rewrite nth_error_app1 in Hb by lia. eapply H; eauto.
      * rewrite nth_error_app2 in Hb by lia. rewrite app_length in *. cbn [length] in *.
        destruct (S i - (length k + 1)) as [|m] eqn:Em; [|destruct m; discriminate].
        cbn in Hb. injection Hb as <-. assert (i = length k) by lia. subst i.
        rewrite nth_error_app1 in Ha by (rewrite app_length; cbn; lia).
        rewrite nth_error_app2 in Ha by lia. rewrite Nat.sub_diag in Ha. cbn in Ha. congruence.
Qed.

Lemma extend_remove_repeat_no_repeat p q :
  no_repeat close2 (vtx p) -> no_repeat close2 (vtx (extend_remove_repeat p q eps)).
Proof.
  unfold extend_remove_repeat. revert p. induction (vtx q) as [|v t IH]; intros p H; [exact H|].
  cbn [fold_left]. apply IH. now apply add_or_replace_no_repeat.
Qed.

Lemma create_from_remove_repeat_spec p :
  exists rs, is_runs close2 (vtx p) rs
    /\ let kept := flat_map run_rep rs in
       ((exists f l, hd_error kept = Some f /\ nth_error kept (length kept - 1) = Some l
            /\ is_closed p = true /\ 2 <= length kept /\ close2 l f = true
            /\ create_from_remove_repeat p eps = Ret (PL (removelast kept) true))
        \/ ((is_closed p = false \/ length kept < 2
             \/ exists f l, hd_error kept = Some f /\ nth_error kept (length kept - 1) = Some l
                            /\ close2 l f = false)
            /\ create_from_remove_repeat p eps = Ret (PL kept (is_closed p)))).
Proof.
  destruct (adds_runs (vtx p) (is_closed p)) as (rs & R & E).
  exists rs. split; [exact R|]. cbv zeta. unfold create_from_remove_repeat. rewrite E.
  set (kept := flat_map run_rep rs). destruct (is_closed p) eqn:C; cbn [andb].
  2:{ right. split; auto. }
  change (vertex_count (PL kept true)) with (length kept).
  destruct (Nat.leb_spec 2 (length kept)) as [L|L].
  - destruct kept as [|f k] eqn:EK; [cbn in L; lia|].
    assert (Hne : f :: k <> []) by discriminate.
    destruct (exists_last Hne) as (k' & l & E').
    assert (HL : nth_error (f :: k) (length (f :: k) - 1) = Some l).
    { rewrite E'. rewrite app_length. cbn [length]. rewrite nth_error_app2 by lia.
      replace (length k' + 1 - 1 - length k') with 0 by lia. reflexivity. }
    assert (H1 : last_ (PL (f :: k) true) = Ret (Some l)) by (rewrite E'; apply last_snoc_pline).
    rewrite H1. cbn [rbind unwrap]. unfold at_, index. cbn [vtx nth_error rbind].
    change (v2fuzzy_eq_eps (pos l) (pos f) eps) with (close2 l f).
    destruct (close2 l f) eqn:CL.
    + left. exists f, l. rewrite E' at 4. rewrite E', remove_last_snoc. cbn [rbind snd].
      rewrite removelast_snoc. rewrite <- E'. repeat split; auto.
    + right. split; [|reflexivity]. right. right. exists f, l. auto.
  - right. split; [|reflexivity]. auto.
Qed.

End Add.

(** ** rotate_start *)
Lemma wrapping_vertexes_spec p i : wrapping_vertexes_starting_at p i = spec_rotate i (vtx p).
Proof.
  unfold wrapping_vertexes_starting_at, spec_rotate. rewrite firstn_all2; [reflexivity|].
  rewrite skipn_length. unfold vertex_count. lia.
Qed.

Lemma rotate_start_none p i pt eps :
  rotate_start p i pt eps = Ret None <-> is_closed p = false \/ vertex_count p < 2 \/ vertex_count p <= i.
Proof.
  unfold rotate_start. destruct (is_closed p); cbn [negb orb]; [|split; auto].
  destruct (Nat.ltb_spec (vertex_count p) 2) as [L|L]; cbn [orb]; [split; auto|].
  destruct (Nat.ltb_spec (vertex_count p - 1) i) as [L2|L2].
  - split; [right; right; lia|reflexivity].
  - split; [|intros [?|[?|?]]; [discriminate|lia|lia]]. intros H. exfalso.
    destruct (index_lt (vtx p) i) as (a & Ha & Ha'); [unfold vertex_count in *; lia|].
    rewrite (at_ok _ _ _ Ha) in H. cbn [rbind] in H.
    destruct (v2fuzzy_eq_eps (pos a) pt eps); [discriminate|].
    destruct (next_prev_permutation p i) as (Hn & _); [lia|].
    destruct (index_lt (vtx p) (next_wrapping_index p i)) as (b & Hb & Hb'); [exact Hn|].
    rewrite (at_ok _ _ _ Hb) in H. cbn [rbind] in H.
    destruct (v2fuzzy_eq_eps pt (pos b) eps); [discriminate|].
    destruct (set_last _ _); cbn [rbind] in H; discriminate.
Qed.

Lemma rotate_start_some p i pt eps a b :
  is_closed p = true -> 2 <= vertex_count p ->
  nth_error (vtx p) i = Some a -> nth_error (vtx p) ((i + 1) mod vertex_count p) = Some b ->
  rotate_start p i pt eps =
  Ret (Some (PL (if v2fuzzy_eq_eps (pos a) pt eps then spec_rotate i (vtx p)
                 else if v2fuzzy_eq_eps pt (pos b) eps then spec_rotate ((i + 1) mod vertex_count p) (vtx p)
                 else let s := seg_split_at_point a b pt eps in
                      split_vertex s :: skipn (i + 1) (vtx p) ++ firstn i (vtx p) ++ [updated_start s]) true)).
Proof.
  intros C L Ha Hb. unfold rotate_start. rewrite C. cbn [negb orb].
  assert (Hi : i < vertex_count p) by (apply nth_error_Some; congruence).
  destruct (Nat.ltb_spec (vertex_count p) 2); [lia|]. cbn [orb].
  destruct (Nat.ltb_spec (vertex_count p - 1) i); [lia|].
  rewrite (at_ok _ _ _ Ha). cbn [rbind]. rewrite !wrapping_vertexes_spec.
  destruct (v2fuzzy_eq_eps (pos a) pt eps); [reflexivity|].
  rewrite next_wrapping_index_mod by exact Hi.
  rewrite (at_ok _ _ _ Hb). cbn [rbind].
  destruct (v2fuzzy_eq_eps pt (pos b) eps); [reflexivity|]. cbv zeta.
  set (s := seg_split_at_point a b pt eps).
  assert (E : spec_rotate ((i + 1) mod vertex_count p) (vtx p) = skipn (i + 1) (vtx p) ++ firstn i (vtx p) ++ [a]).
  { unfold spec_rotate. destruct (Nat.eq_dec (i + 1) (vertex_count p)) as [E|E].
    - rewrite E, Nat.mod_same by lia. cbn [skipn firstn app]. rewrite (skipn_all2 (vtx p) (n:=vertex_count p)) by (unfold vertex_count; lia). cbn [app].
      rewrite app_nil_r. rewrite <- (firstn_nth_snoc _ _ _ Ha). rewrite firstn_all2; [reflexivity|].
      unfold vertex_count in *. lia.
    - rewrite Nat.mod_small by lia. f_equal. replace (i + 1) with (S i) by lia. now rewrite (firstn_nth_snoc _ _ _ Ha). }
  rewrite E.
  replace (split_vertex s :: skipn (i + 1) (vtx p) ++ firstn i (vtx p) ++ [a])
    with ((split_vertex s :: skipn (i + 1) (vtx p) ++ firstn i (vtx p)) ++ [a])
    by (cbn [app]; now rewrite <- app_assoc).
  rewrite set_last_snoc_pline. cbn [rbind app]. now rewrite <- app_assoc.
Qed.

End Repeat.
