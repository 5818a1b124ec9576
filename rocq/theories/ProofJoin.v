(** Joining overlaps (C29), for any number type. *)
From Coq Require Import List Bool Arith Lia Permutation.
From Verif Require Import Num Res ModelMath ModelSeg ModelPline ModelView ModelIntersects Spec SpecJoin.
From Verif Require Import ProofBase ProofIter ProofInvert.
Import ListNotations.

Section Join.
Context {T : Type} {N : Num T}.
Context (p1 p2 : pline T) (eps : T).

Definition last_of (run : list (overlap_intr T)) : option (overlap_intr T) :=
  match run with _ :: _ :: _ => hd_error (rev run) | _ => None end.

Lemma vtx_lt (p : pline T) i : i < vertex_count p -> exists v, nth_error (vtx p) i = Some v.
Proof. intros H. destruct (nth_error (vtx p) i) eqn:E; [eauto|]. apply nth_error_None in E. unfold vertex_count in H. lia. Qed.

Lemma next_ok (p : pline T) i : i < vertex_count p -> exists v, next_wrapping_index p i = (i + 1) mod vertex_count p
  /\ nth_error (vtx p) ((i + 1) mod vertex_count p) = Some v.
Proof.
  intros H. destruct (vtx_lt p ((i + 1) mod vertex_count p)) as [v E]; [apply Nat.mod_upper_bound; lia|].
  exists v. split; [apply next_wrapping_index_mod; exact H|exact E].
Qed.

Lemma slice_new_single a : in_range p1 p2 a ->
  exists s, overlapping_slice_new p1 p2 a None eps = Ret s /\ run_slice p1 p2 eps [a] s.
Proof.
  intros [H1 H2]. destruct (vtx_lt p1 _ H1) as [v1 E1]. destruct (next_ok p1 _ H1) as (v2 & X1 & E2).
  destruct (vtx_lt p2 _ H2) as [u1 F1]. destruct (next_ok p2 _ H2) as (u2 & X2 & F2).
  unfold overlapping_slice_new. rewrite X1, X2. unfold at_, index. rewrite E1, E2, F1, F2. cbn [rbind].
  eexists. split; [reflexivity|]. exists a, a. cbn [hd_error rev app os_start_indexes os_view vd_start_index vd_inverted vd_end_point os_opposing os_is_loop vd_end_index_offset os_end_indexes length snd].
  unfold opposed. rewrite E1, E2, F1, F2. repeat split; try lia. rewrite Nat.add_0_r. apply Nat.mod_small. exact H2.
Qed.

Lemma slice_new_many a z run : in_range p1 p2 a -> in_range p1 p2 z -> 1 < length run -> hd_error run = Some a -> hd_error (rev run) = Some z ->
  exists s, overlapping_slice_new p1 p2 a (Some z) eps = Ret s /\ run_slice p1 p2 eps run s.
Proof.
  intros [H1 H2] [G1 G2] L HA HZ. destruct (vtx_lt p1 _ H1) as [v1 E1]. destruct (next_ok p1 _ H1) as (v2 & X1 & E2).
  destruct (vtx_lt p2 _ H2) as [u1 F1]. destruct (next_ok p2 _ H2) as (u2 & X2 & F2).
  unfold overlapping_slice_new. rewrite X1, X2. unfold at_ at 1 2 3 4, index. rewrite E1, E2, F1, F2. cbn [rbind].
  assert (LT : (1 <? length run) = true) by (apply Nat.ltb_lt; exact L).
  assert (OP : nltb (v2dot (seg_tangent_vector v1 v2 (oi_point1 a)) (seg_tangent_vector u1 u2 (oi_point1 a))) nzero = opposed p1 p2 a)
    by (unfold opposed; rewrite E1, E2, F1, F2; reflexivity).
  destruct (v2fuzzy_eq_eps (oi_point2 z) (oi_point1 a) eps) eqn:LP.
  - rewrite usub_ok by lia. cbn [rbind]. destruct (vtx_lt p2 (vertex_count p2 - 1)) as [w Ew]; [lia|].
    unfold at_, index. rewrite Ew. cbn [rbind]. eexists. split; [reflexivity|]. exists a, z.
    cbn [os_start_indexes os_view vd_start_index vd_inverted vd_end_point os_opposing os_is_loop vd_end_index_offset os_end_indexes vd_updated_start snd].
    rewrite LT, LP. repeat split; auto; try lia.
  - destruct (fwd_wrapping_dist_mod p2 _ _ H2 G2) as (k & Ek & Lk & Mk). cbn [snd]. rewrite Ek. cbn [rbind].
    destruct (Nat.eqb_spec (oi_index2 a) (oi_index2 z)) as [E|E].
    + eexists. split; [reflexivity|]. exists a, z.
      cbn [os_start_indexes os_view vd_start_index vd_inverted vd_end_point os_opposing os_is_loop vd_end_index_offset os_end_indexes vd_updated_start snd].
      rewrite LT, LP. repeat split; auto.
    + destruct (vtx_lt p2 _ G2) as [c Fc]. destruct (next_ok p2 _ G2) as (d & Xd & Fd). rewrite Xd.
      unfold at_, index. rewrite Fc, Fd. cbn [rbind]. eexists. split; [reflexivity|]. exists a, z.
      cbn [os_start_indexes os_view vd_start_index vd_inverted vd_end_point os_opposing os_is_loop vd_end_index_offset os_end_indexes vd_updated_start snd].
      rewrite LT, LP. repeat split; auto.
Qed.

Lemma slice_new_run a t : Forall (in_range p1 p2) (a :: t) ->
  exists s, overlapping_slice_new p1 p2 a (last_of (a :: t)) eps = Ret s /\ run_slice p1 p2 eps (a :: t) s.
Proof.
  intros F. inversion F as [|? ? Ha Ft]; subst. destruct t as [|b t]; [apply slice_new_single, Ha|].
  destruct (hd_error (rev (a :: b :: t))) as [z|] eqn:E.
  - cbn [last_of]. rewrite E. apply slice_new_many; auto; cbn [length]; try lia.
    rewrite Forall_forall in F. apply F. apply in_rev. destruct (rev (a :: b :: t)); [discriminate|]. injection E as ->. left. reflexivity.
  - exfalso. destruct (rev (a :: b :: t)) eqn:R; [|discriminate]. apply (f_equal (@length _)) in R. rewrite rev_length in R. discriminate.
Qed.

(** The division into runs that the loop makes. *)
Fixpoint runs_from (run : list (overlap_intr T)) (cur : overlap_intr T) (l : list (overlap_intr T)) : list (list (overlap_intr T)) :=
  match l with
  | [] => [run ++ [cur]]
  | o :: t => if joins eps cur o then runs_from (run ++ [cur]) o t else (run ++ [cur]) :: runs_from [] o t
  end.

Lemma last_of_app run a z : hd_error (run ++ [z]) = Some a -> last_of (run ++ [z]) = match run with [] => None | _ => Some z end.
Proof.
  intros H. destruct run as [|b t]; [reflexivity|]. unfold last_of. destruct (t ++ [z]) eqn:E; [destruct t; discriminate|].
  cbn [app]. rewrite E. rewrite <- E. change (b :: t ++ [z]) with ((b :: t) ++ [z]). rewrite rev_app_distr. reflexivity.
Qed.

Lemma join_loop_spec l : Forall (in_range p1 p2) l -> forall run cur a res,
  Forall (in_range p1 p2) (run ++ [cur]) -> hd_error (run ++ [cur]) = Some a ->
  exists slices, join_loop p1 p2 eps l res a (match run with [] => None | _ => Some cur end) (oi_point2 cur) = Ret (res ++ slices)
    /\ Forall2 (run_slice p1 p2 eps) (runs_from run cur l) slices.
Proof.
  intros F. induction F as [|o t Ho F IH]; intros run cur a res FR HA; cbn [join_loop runs_from].
  - destruct (run ++ [cur]) as [|x y] eqn:E; [destruct run; discriminate|]. injection HA as ->.
    destruct (slice_new_run a y FR) as (s & ES & RS). rewrite <- E in ES. rewrite (last_of_app run a) in ES by (rewrite E; reflexivity).
    rewrite ES. cbn [rbind]. exists [s]. split; [reflexivity|]. constructor; [exact RS|constructor].
  - unfold joins. destruct (v2fuzzy_eq_eps (oi_point1 o) (oi_point2 cur) eps) eqn:J; cbn [negb].
    + specialize (IH (run ++ [cur]) o a res).
      assert (M : (match run ++ [cur] with [] => None | _ => Some o end) = Some o) by (destruct run; reflexivity).
      rewrite M in IH. apply IH.
      * apply Forall_app. split; [exact FR|constructor; [exact Ho|constructor]].
      * destruct run; [exact HA|exact HA].
    + destruct (run ++ [cur]) as [|x y] eqn:E; [destruct run; discriminate|]. injection HA as ->.
      destruct (slice_new_run a y FR) as (s & ES & RS). rewrite <- E in ES. rewrite (last_of_app run a) in ES by (rewrite E; reflexivity).
      rewrite ES. cbn [rbind]. destruct (IH [] o o (res ++ [s])) as (sl & EL & FL); [constructor; [exact Ho|constructor]|reflexivity|].
      rewrite EL. exists (s :: sl). rewrite <- app_assoc. split; [reflexivity|]. constructor; assumption.
Qed.

Lemma runs_from_concat l : forall run cur, concat (runs_from run cur l) = run ++ cur :: l.
Proof.
  induction l as [|o t IH]; intros run cur; cbn [runs_from concat].
  - rewrite app_nil_r. reflexivity.
  - destruct (joins eps cur o); [|cbn [concat]]; rewrite IH; rewrite <- app_assoc; reflexivity.
Qed.

Lemma chain_snoc l cur o : (forall i a b, nth_error (l ++ [cur]) i = Some a -> nth_error (l ++ [cur]) (S i) = Some b -> joins eps a b = true) ->
  joins eps cur o = true ->
  forall i a b, nth_error ((l ++ [cur]) ++ [o]) i = Some a -> nth_error ((l ++ [cur]) ++ [o]) (S i) = Some b -> joins eps a b = true.
Proof.
  intros C J i a b A B. assert (L : S i < length ((l ++ [cur]) ++ [o])) by (apply nth_error_Some; congruence).
  rewrite app_length in L. cbn [length] in L. destruct (Nat.eq_dec (S i) (length (l ++ [cur]))) as [E|D].
  - rewrite nth_error_app2 in B by lia. rewrite E, Nat.sub_diag in B. injection B as <-.
    rewrite nth_error_app1 in A by lia. rewrite app_length in E. cbn [length] in E.
    rewrite nth_error_app2 in A by lia. replace (i - length l) with 0 in A by lia. injection A as <-. exact J.
  - rewrite nth_error_app1 in A, B by lia. eapply C; eauto.
Qed.

Lemma runs_from_chain l : forall run cur, (forall i a b, nth_error (run ++ [cur]) i = Some a -> nth_error (run ++ [cur]) (S i) = Some b -> joins eps a b = true) ->
  forall r, In r (runs_from run cur l) -> r <> [] /\ forall i a b, nth_error r i = Some a -> nth_error r (S i) = Some b -> joins eps a b = true.
Proof.
  induction l as [|o t IH]; intros run cur C r; cbn [runs_from].
  - intros [<-|[]]. split; [destruct run; discriminate|exact C].
  - destruct (joins eps cur o) eqn:J.
    + apply IH. apply chain_snoc; assumption.
    + intros [<-|H]; [split; [destruct run; discriminate|exact C]|]. apply (IH [] o); [|exact H].
      intros [|i] a b A B; cbn in *; [discriminate|destruct i; discriminate].
Qed.

Lemma runs_from_head l : forall run cur, exists t rest, runs_from run cur l = ((run ++ [cur]) ++ t) :: rest.
Proof.
  induction l as [|o t IH]; intros run cur; cbn [runs_from].
  - exists [], []. rewrite app_nil_r. reflexivity.
  - destruct (joins eps cur o).
    + destruct (IH (run ++ [cur]) o) as (t' & rest & E). exists (o :: t'), rest. rewrite E. rewrite <- !app_assoc. reflexivity.
    + exists [], (runs_from [] o t). rewrite app_nil_r. reflexivity.
Qed.

Lemma runs_from_max l : forall run cur i r1 a b r2, nth_error (runs_from run cur l) i = Some (r1 ++ [a]) ->
  nth_error (runs_from run cur l) (S i) = Some (b :: r2) -> joins eps a b = false.
Proof.
  induction l as [|o t IH]; intros run cur i r1 a b r2; cbn [runs_from].
  - cbn [nth_error]. destruct i; discriminate.
  - destruct (joins eps cur o) eqn:J; [apply IH|]. destruct i as [|i]; cbn [nth_error].
    + intros A B. injection A as A. apply app_inj_tail in A as [_ <-].
      destruct (runs_from_head t [] o) as (t' & rest & E). rewrite E in B. injection B as <- _. exact J.
    + apply IH.
Qed.

Lemma join_ends_spec slices : (slices <> [] -> 0 < vertex_count p2) -> exists r, join_ends p2 eps slices = Ret r /\ ends_merged p2 eps slices r.
Proof.
  intros HV. unfold join_ends. destruct slices as [|first [|second rest]].
  - eexists. split; [reflexivity|]. right. split; [|reflexivity]. intros f m l E. discriminate.
  - eexists. split; [reflexivity|]. right. split; [|reflexivity]. intros f m l E. injection E as _ E. destruct m; discriminate.
  - destruct (vtx_lt p2 0) as [v0 E0]; [apply HV; discriminate|].
    assert (EL : exists mid last, second :: rest = mid ++ [last]).
    { destruct (exists_last (l := second :: rest)) as (m & l & E); [discriminate|]. eauto. }
    destruct EL as (mid & last & EL). rewrite EL. change (first :: mid ++ [last]) with ((first :: mid) ++ [last]).
    rewrite rev_app_distr. cbn [rev app]. unfold at_, index. rewrite E0. cbn [rbind].
    destruct (v2fuzzy_eq_eps _ (pos (vd_updated_start (os_view first))) eps) eqn:F.
    + eexists. split; [reflexivity|]. left. exists first, mid, last, v0. split; [reflexivity|]. split; [exact E0|]. split; [exact F|].
      assert (ER : rev (rev mid ++ [first]) = first :: mid) by (rewrite rev_app_distr, rev_involutive; reflexivity).
      rewrite ER. cbn [skipn]. eexists. split; [reflexivity|].
      cbn [os_start_indexes os_end_indexes os_view os_is_loop os_opposing vd_updated_start vd_end_point vd_updated_end_bulge vd_inverted vd_end_index_offset].
      repeat split. destruct (v2fuzzy_eq_eps _ (pos v0) eps); lia.
    + eexists. split; [reflexivity|]. right. split; [|reflexivity]. intros f m l E. injection E as <- E.
      apply app_inj_tail in E as [_ <-]. exact F.
Qed.

Lemma join_sorted_spec l : Forall (in_range p1 p2) l ->
  exists runs slices result, join_sorted_overlaps p1 p2 eps l = Ret result
   /\ joined_runs eps l runs /\ Forall2 (run_slice p1 p2 eps) runs slices /\ ends_merged p2 eps slices result.
Proof.
  intros F. unfold join_sorted_overlaps. destruct l as [|o t].
  - exists [], [], []. split; [reflexivity|]. split; [|split; [constructor|]].
    + split; [reflexivity|]. split; [intros r []|]. intros [|i]; discriminate.
    + right. split; [|reflexivity]. discriminate.
  - inversion F as [|? ? Ho Ft]; subst. destruct (join_loop_spec t Ft [] o o []) as (slices & EJ & FJ).
    { constructor; [exact Ho|constructor]. } { reflexivity. }
    cbn beta iota in EJ. rewrite EJ. cbn [rbind app]. destruct (join_ends_spec slices) as (r & ER & M).
    { intros _. destruct Ho. lia. }
    exists (runs_from [] o t), slices, r. split; [exact ER|]. split; [|split; assumption].
    split; [apply runs_from_concat|]. split.
    + apply runs_from_chain. intros [|i] a b A B; cbn in *; [discriminate|destruct i; discriminate].
    + intros i r1 a b r2. apply runs_from_max.
Qed.

Lemma insert_perm {A} leb (a : A) l : Permutation (a :: l) (insert_sorted leb a l).
Proof.
  induction l as [|b t IH]; [reflexivity|]. cbn [insert_sorted]. destruct (leb a b); [reflexivity|].
  rewrite perm_swap. constructor. exact IH.
Qed.

Lemma isort_perm {A} leb (l : list A) : Permutation l (isort leb l).
Proof. induction l as [|a t IH]; [constructor|]. cbn [isort]. rewrite <- insert_perm. constructor. exact IH. Qed.

Lemma insert_sorted_ok {A} (leb : A -> A -> bool) a l : (forall x, In x l -> leb a x = false -> leb x a = true) ->
  (forall i x y, nth_error l i = Some x -> nth_error l (S i) = Some y -> leb x y = true) ->
  forall i x y, nth_error (insert_sorted leb a l) i = Some x -> nth_error (insert_sorted leb a l) (S i) = Some y -> leb x y = true.
Proof.
  induction l as [|b t IH]; intros TO S i x y; cbn [insert_sorted].
  - destruct i as [|[|i]]; discriminate.
  - destruct (leb a b) eqn:E.
    + destruct i as [|i]; cbn [nth_error].
      * intros A1 A2. injection A1 as <-. injection A2 as <-. exact E.
      * apply (S i).
    + assert (IH' : forall i x y, nth_error (insert_sorted leb a t) i = Some x -> nth_error (insert_sorted leb a t) (Datatypes.S i) = Some y -> leb x y = true).
      { apply IH; [intros x' H; apply TO; right; exact H|]. intros i' x' y' H1 H2. exact (S (Datatypes.S i') x' y' H1 H2). }
      destruct i as [|i]; [|apply IH']. cbn [nth_error]. intros A1 A2. injection A1 as <-.
      destruct t as [|c t]; cbn [insert_sorted] in A2.
      * injection A2 as <-. apply TO; [left; reflexivity|exact E].
      * destruct (leb a c); injection A2 as <-.
        -- apply TO; [left; reflexivity|exact E].
        -- apply (S 0); reflexivity.
Qed.

Lemma isort_ok {A} (leb : A -> A -> bool) l : (forall x y, In x l -> In y l -> leb x y = false -> leb y x = true) ->
  forall i x y, nth_error (isort leb l) i = Some x -> nth_error (isort leb l) (S i) = Some y -> leb x y = true.
Proof.
  induction l as [|a t IH]; intros TO; [intros [|i]; discriminate|]. cbn [isort]. apply insert_sorted_ok.
  - intros x H. apply TO; [left; reflexivity|]. right. apply (Permutation_in _ (Permutation_sym (isort_perm leb t))). exact H.
  - apply IH. intros x y Hx Hy. apply TO; right; assumption.
Qed.

Lemma sort_join_spec l : Forall (in_range p1 p2) l ->
  exists sorted, Permutation l sorted /\ sorted = isort (fun a b => cmp_leb (overlap_cmp p2 a b)) l
  /\ exists runs slices result, sort_and_join_overlapping_intersects l p1 p2 eps = Ret result
   /\ joined_runs eps sorted runs /\ Forall2 (run_slice p1 p2 eps) runs slices /\ ends_merged p2 eps slices result.
Proof.
  intros F. eexists. split; [apply isort_perm|]. split; [reflexivity|]. apply join_sorted_spec.
  eapply Permutation_Forall; [apply isort_perm|exact F].
Qed.
End Join.
