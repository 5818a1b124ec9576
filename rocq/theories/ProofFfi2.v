(** Every allowed call keeps the accounts; null handles, positions and panics. *)
From Coq Require Import Permutation ZArith Nnat Bool List Arith Lia.
From Verif Require Import Num Res ModelMath ModelSeg ModelPline ModelRedundant ModelView ModelIndex ModelIntersects
  ModelBoolean ModelOffset ModelFfi SpecFfi ProofFfi.
Import ListNotations.

Section Step.
Context {T : Type} {N_ : Num T}.
Variable mk : list (aabb T) -> sindex T.
Implicit Types m : mem T.

(** The outcome of a call that keeps the accounts. *)
Definition good (o : owner) (c : call T) (r : outcome T) : Prop :=
  r <> UB /\ forall code w m1, r = Done code w m1 -> accounts m1 (own_step o c code w m1).

Lemma good_done o c code w m1 : accounts m1 (own_step o c code w m1) -> good o c (Done code w m1).
Proof. intros A. split; [discriminate|]. intros ? ? ? [= <- <- <-]. exact A. Qed.

Lemma good_catch m o c (r : res (outcome T)) : accounts m (own_step o c (-1) WNothing m) ->
  (forall x, r = Ret x -> good o c x) -> good o c (catch m r).
Proof.
  intros A H. destruct r as [x|k]; cbn; [now apply H|].
  destruct k; try (apply good_done; exact A). split; [discriminate|discriminate].
Qed.

Lemma usable_live m o a : accounts m o -> usable o (Some a) -> exists p, is_pline m a p.
Proof.
  intros A U. apply (ac_plines _ _ A). unfold all_plines. rewrite !in_app_iff. cbn in U. tauto.
Qed.

Lemma good_pline m o c h f : accounts m o -> usable o h ->
  (h = None -> own_step o c 1 WNothing m = o) ->
  (forall a p, h = Some a -> is_pline m a p -> good o c (f a p)) -> good o c (with_pline m h f).
Proof.
  intros A U HN H. destruct h as [a|]; cbn [with_pline].
  - destruct (usable_live _ _ _ A U) as [p P]. unfold is_pline in P. rewrite (proj2 (read_nth m a _) P). now apply H.
  - apply good_done. now rewrite HN.
Qed.

Lemma owned_list m o a : accounts m o -> owned (map fst (ow_lists o)) (Some a) -> exists l, is_list m a l.
Proof.
  intros A U. cbn in U. apply in_map_iff in U. destruct U as ([b l] & E & H). cbn in E. subst b. exists l.
  now apply (ac_lists _ _ A).
Qed.
Lemma good_list m o c h f : accounts m o -> owned (map fst (ow_lists o)) h ->
  (h = None -> own_step o c 1 WNothing m = o) ->
  (forall a l, h = Some a -> is_list m a l -> good o c (f a l)) -> good o c (with_list m h f).
Proof.
  intros A U HN H. destruct h as [a|]; cbn [with_list].
  - destruct (owned_list _ _ _ A U) as [p P]. unfold is_list in P. rewrite (proj2 (read_nth m a _) P). now apply H.
  - apply good_done. now rewrite HN.
Qed.

Lemma good_in_place m o c h f : accounts m o -> usable o h ->
  (forall code m1, own_step o c code WNothing m1 = o) -> good o c (in_place m h f).
Proof.
  intros A U E. unfold in_place. apply good_pline; auto. intros a p -> P.
  apply good_catch; [now rewrite E|]. intros x H. destruct (f p) as [p'|]; [|discriminate].
  injection H as <-. apply good_done. rewrite E. now apply (accounts_write m o a p).
Qed.

Lemma raw_parts_ok {A} (l : list A) n : N.to_nat n <= length l ->
  raw_parts (Some l) n = Some (firstn (N.to_nat n) l).
Proof.
  intros H. unfold raw_parts. destruct (N.leb_spec n (N.of_nat (length l))) as [L|L]; [reflexivity|lia].
Qed.

Lemma good_index m o (h : ptr) : accounts m o -> owned (ow_indexes o) h ->
  exists x, option_index m h = Some x.
Proof.
  intros A U. destruct h as [a|]; [|cbn; eauto]. cbn in U. apply (ac_indexes _ _ A) in U. destruct U as [x U].
  unfold is_index in U. cbn. rewrite (proj2 (read_nth m a _) U). eauto.
Qed.

Ltac split_alloc := unfold alloc; cbn.

Theorem call_good m o c : accounts m o -> allowed m o c -> good o c (run_call mk m c).
Proof.
  intros A AL. destruct c; cbn [allowed] in AL; cbn [run_call].
  - destruct is_null; apply good_done; exact A.
  - destruct is_null; apply good_done; exact A.
  - unfold cavc_pline_create. destruct vs as [l|].
    + destruct (N.eqb n 0); [apply good_done; now apply accounts_new_pline|].
      rewrite (raw_parts_ok _ _ AL). apply good_done. now apply accounts_new_pline.
    + apply good_done. now apply accounts_new_pline.
  - destruct h as [a|]; [|apply good_done; exact A]. unfold cavc_pline_f.
    destruct (usable_live m o a A) as [p P]; [cbn in *; tauto|]. unfold is_pline in P.
    rewrite (proj2 (read_nth m a _) P). apply good_done. cbn. now apply (accounts_free_pline m o a p).
  - apply good_pline; auto. intros a p _ P. apply good_done. exact A.
  - apply good_pline; auto. intros a p _ P. apply good_done. now apply accounts_new_pline.
  - apply good_pline; auto. intros a p _ P. apply good_done. exact A.
  - apply good_pline; auto. intros a p _ P. apply good_done. now apply (accounts_write m o a p).
  - apply good_pline; auto. intros a p _ P. apply good_catch; [exact A|]. intros x H.
    destruct (try_u32 (vertex_count p)); [|discriminate]. injection H as <-. apply good_done. exact A.
  - destruct AL as [U B]. apply good_pline; auto. intros a p -> P.
    destruct (B a p eq_refl P) as (k & -> & L). unfold vertex_count.
    destruct (Nat.leb_spec (length (vtx p)) k); [|lia]. apply good_done. exact A.
  - destruct AL as (U & l & -> & L). apply good_pline; auto. intros a p -> P.
    rewrite (raw_parts_ok _ _ L). apply good_done. now apply (accounts_write m o a p).
  - apply good_pline; auto. intros a p _ P. apply good_done. now apply (accounts_write m o a p).
  - apply good_pline; auto. intros a p _ P. apply good_done. now apply (accounts_write m o a p).
  - apply good_pline; auto. intros a p _ P. destruct (_ <=? _)%N; [apply good_done; exact A|].
    apply good_catch; [exact A|]. intros x H. destruct (at_ p (N.to_nat i)); [|discriminate].
    injection H as <-. apply good_done. exact A.
  - apply good_pline; auto. intros a p _ P. destruct (_ <=? _)%N; [apply good_done; exact A|].
    apply good_catch; [exact A|]. intros x H. destruct (set_vertex p (N.to_nat i) v) as [p'|]; [|discriminate].
    injection H as <-. apply good_done. now apply (accounts_write m o a p).
  - apply good_pline; auto. intros a p _ P. destruct (_ <=? _)%N; [apply good_done; exact A|].
    apply good_catch; [exact A|]. intros x H. destruct (remove p (N.to_nat i)) as [[? p']|]; [|discriminate].
    injection H as <-. apply good_done. now apply (accounts_write m o a p).
  - apply good_pline; auto. intros a p _ P. apply good_catch; [exact A|]. intros x H.
    destruct (path_length p); [|discriminate]. injection H as <-. apply good_done. exact A.
  - apply good_pline; auto. intros a p _ P. apply good_catch; [exact A|]. intros x H.
    destruct (area p); [|discriminate]. injection H as <-. apply good_done. exact A.
  - apply good_pline; auto. intros a p _ P. apply good_catch; [exact A|]. intros r H.
    destruct (winding_number p (V2 x y)); [|discriminate]. injection H as <-. apply good_done. exact A.
  - now apply good_in_place.
  - now apply good_in_place.
  - now apply good_in_place.
  - now apply good_in_place.
  - now apply good_in_place.
  - apply good_pline; auto. intros a p _ P. apply good_catch; [exact A|]. intros x H.
    destruct (extents p) as [[b|]|]; [..|discriminate]; injection H as <-; apply good_done; exact A.
  - destruct AL as [U OI]. apply good_pline; auto. intros a p _ P. cbv zeta.
    assert (IX : exists x, option_index m (co_index match o0 with Some c => c | None => default_offset_options end) = Some x).
    { destruct o0 as [c0|]; [now apply (good_index m o)|cbn; eauto]. }
    destruct IX as [x ->]. apply good_catch; [exact A|]. intros r H.
    match type of H with rbind ?X _ = _ => destruct X as [l|] end; [|discriminate]. cbn [rbind] in H.
    destruct (plinelist_from_internal m l) as [b m1] eqn:E. injection H as <-. apply good_done.
    apply (accounts_from_internal m o l b m1 A E).
  - destruct AL as (U1 & U2 & OI). unfold cavc_pline_boolean.
    destruct h1 as [a1|]; [|apply good_done; exact A]. destruct h2 as [a2|]; [|apply good_done; exact A].
    destruct (boolean_op_from_u32 op); [|apply good_done; exact A].
    destruct (usable_live _ _ _ A U1) as [p1 P1]. destruct (usable_live _ _ _ A U2) as [p2 P2].
    unfold is_pline in P1, P2. rewrite (proj2 (read_nth m a1 _) P1), (proj2 (read_nth m a2 _) P2). cbv zeta.
    assert (IX : exists x, option_index m (cb_index match o0 with Some c => c | None => default_boolean_options end) = Some x).
    { destruct o0 as [c0|]; [now apply (good_index m o)|cbn; eauto]. }
    destruct IX as [x ->]. apply good_catch; [exact A|]. intros r H.
    match type of H with rbind ?X _ = _ => destruct X as [br|] end; [|discriminate]. cbn [rbind] in H.
    destruct (plinelist_from_internal m (map brp_pline (br_pos br))) as [a m1] eqn:E1.
    destruct (plinelist_from_internal m1 (map brp_pline (br_neg br))) as [b' m2] eqn:E2. injection H as <-. apply good_done.
    cbn [own_step].
    destruct (accounts_from_internal m o _ a m1 A E1) as (A1 & _ & LA).
    destruct (accounts_from_internal m1 _ _ b' m2 A1 E2) as (A2 & (s & S) & LB). cbn [ow_plines ow_lists ow_indexes ow_lost] in A2.
    assert (ML : a < length m1).
    { assert (is_list m1 a (listed m1 a)) as H by (apply (ac_lists _ _ A1); now left). apply nth_lt in H. exact H. }
    assert (EQ : listed m2 a = listed m1 a) by (unfold listed; rewrite S, nth_error_app1 by exact ML; reflexivity).
    rewrite EQ.
    (* the two lists in the other order *)
    clear - A2. destruct A2 as [B1 B2 B3 B4 B5]. constructor; cbn [ow_plines ow_lists ow_indexes ow_lost] in *; auto.
    + intros x. rewrite B1, !in_all_plines. cbn [ow_plines ow_lists ow_lost In].
      split; intros [H|[(k & c & H & Hx)|H]]; try tauto; right; left; exists k, c; (split; [|exact Hx]); tauto.
    + intros x c. rewrite B2. cbn [In]. tauto.
    + unfold all_plines in *. cbn [ow_plines ow_lists ow_lost map snd concat] in *.
      set (X := concat (map snd (ow_lists o))) in *.
      apply (Permutation_NoDup (l := ow_plines o ++ (listed m2 b' ++ listed m1 a ++ X) ++ ow_lost o)); [|exact B4].
      apply Permutation_app_head, Permutation_app_tail.
      rewrite !app_assoc. apply Permutation_app_tail, Permutation_app_comm.
    + cbn [map fst] in *. inversion B5 as [|? ? N1 N2]; subst. inversion N2 as [|? ? N3 N4]; subst.
      constructor; [|constructor; [|exact N4]].
      * cbn [In] in *. intros [E|E]; [apply N1; now left|now apply N3].
      * intros E. apply N1. now right.
  - apply good_pline; auto. intros a p _ P. apply good_catch; [exact A|]. intros x H.
    destruct (create_approx_aabb_index p); [|discriminate]. injection H as <-. apply good_done.
    now apply accounts_new_index.
  - apply good_pline; auto. intros a p _ P. apply good_catch; [exact A|]. intros x H.
    destruct (create_aabb_index p); [|discriminate]. injection H as <-. apply good_done.
    now apply accounts_new_index.
  - destruct h as [a|]; [|apply good_done; exact A]. unfold cavc_aabbindex_f. cbn in AL.
    apply (ac_indexes _ _ A) in AL. destruct AL as [x P]. pose proof P as P0. unfold is_index in P0.
    rewrite (proj2 (read_nth m a _) P0). apply good_done. cbn. now apply (accounts_free_index m o a x).
  - unfold cavc_aabbindex_get_extents. destruct h as [a|]; [|apply good_done; exact A]. cbn in AL.
    apply (ac_indexes _ _ A) in AL. destruct AL as [x P]. pose proof P as P0. unfold is_index in P0. cbn [with_index].
    rewrite (proj2 (read_nth m a _) P0). apply good_done. exact A.
  - destruct h as [a|]; [|apply good_done; exact A]. unfold cavc_plinelist_f.
    destruct (owned_list _ _ _ A AL) as [l P]. pose proof P as P0. unfold is_list in P0.
    rewrite (proj2 (read_nth m a _) P0). apply good_done. cbn [own_step]. now apply (accounts_free_list m o a l).
  - apply good_list; auto. intros a l _ P. apply good_catch; [exact A|]. intros x H.
    destruct (try_u32 (length l)); [|discriminate]. injection H as <-. apply good_done. exact A.
  - apply good_list; auto. intros a l _ P. destruct (_ <=? _)%N; [apply good_done; exact A|].
    destruct (nth_error l (N.to_nat i)); apply good_done; exact A.
  - apply good_list; auto.
    { intros ->. reflexivity. }
    intros a l -> P. destruct (rev l) as [|x r] eqn:E; [apply good_done; exact A|].
    assert (EL : l = rev r ++ [x]) by (rewrite <- (rev_involutive l), E; reflexivity).
    apply good_done. cbn [own_step]. subst l.
    pose proof (accounts_move m o a (rev r) x [] A P) as M. rewrite app_nil_r in M. exact M.
  - apply good_list; auto.
    { intros ->. reflexivity. }
    intros a l -> P. destruct (_ <=? _)%N; [apply good_done; exact A|].
    destruct (nth_error l (N.to_nat i)) as [x|] eqn:E; [|apply good_done; exact A].
    apply nth_error_split in E. destruct E as (l1 & l2 & -> & EN). rewrite <- EN.
    assert (ER : list_remove (l1 ++ x :: l2) (length l1) = l1 ++ l2).
    { clear. induction l1 as [|y l1 IH]; cbn; [reflexivity|]. now rewrite IH. }
    rewrite ER. apply good_done. now apply accounts_move.
Qed.

(** Histories. *)
Theorem history_accounts also m o m1 o1 : accounts m o -> history mk also m o m1 o1 ->
  accounts m1 o1 /\ forall c, allowed m1 o1 c -> run_call mk m1 c <> UB.
Proof.
  intros A H. assert (A1 : accounts m1 o1).
  { induction H as [|m o c code w m1 m2 o2 AL _ R H IH]; [exact A|]. apply IH.
    now apply (call_good m o c A AL). }
  split; [exact A1|]. intros c AL. apply (call_good m1 o1 c A1 AL).
Qed.

Lemma nobody_accounts : accounts ([] : mem T) nobody.
Proof.
  constructor; cbn; unfold is_pline, is_list, is_index; try constructor.
  - intros [p H]. destruct a; discriminate.
  - tauto.
  - destruct a; discriminate.
  - tauto.
  - intros [p H]. destruct a; discriminate.
  - tauto.
Qed.

Lemma lost_kept o c code w m1 : frees_empty_lists o c -> ow_lost (own_step o c code w m1) = ow_lost o.
Proof.
  intros F. destruct c; cbn [own_step]; try reflexivity; try (destruct w; reflexivity);
    try (destruct h; destruct w; reflexivity).
  destruct h as [a|]; [|reflexivity]. cbn in F. cbn [ow_lost]. now rewrite F.
Qed.

Lemma history_lost m o m1 o1 : history mk frees_empty_lists m o m1 o1 -> ow_lost o1 = ow_lost o.
Proof.
  intros H. induction H as [|m o c code w m1 m2 o2 _ F _ _ IH]; [reflexivity|]. rewrite IH. now apply lost_kept.
Qed.

Theorem tidy_history_frees_all m1 lost : history mk frees_empty_lists [] nobody m1 (OW [] [] [] lost) ->
  forall a, nth_error m1 a = None \/ nth_error m1 a = Some None.
Proof.
  intros H. pose proof (history_lost _ _ _ _ H) as EL. cbn in EL. subst lost.
  destruct (history_accounts _ _ _ _ _ nobody_accounts H) as [[A1 A2 A3 _ _] _].
  intros a. destruct (nth_error m1 a) as [[[p|l|x]|]|] eqn:E; auto; exfalso.
  - apply (A1 a). now exists p.
  - now apply (A2 a l).
  - apply (A3 a). now exists x.
Qed.

Theorem history_lost_live also m1 lost : history mk also [] nobody m1 (OW [] [] [] lost) ->
  NoDup lost /\ forall a, In a lost <-> exists x, nth_error m1 a = Some (Some x).
Proof.
  intros H. destruct (history_accounts _ _ _ _ _ nobody_accounts H) as [[A1 A2 A3 A4 _] _]. split; [exact A4|].
  intros a. rewrite <- (A1 a). split.
  - intros [p P]. now exists (OPline p).
  - intros [[p|l|x] E].
    + now exists p.
    + exfalso. now apply (A2 a l).
    + exfalso. apply (A3 a). now exists x.
Qed.

(** Error codes. *)
Theorem null_handles m c : (exists h, In h (handles c) /\ h = None) ->
  run_call mk m c = Done (null_code c) WNothing m.
Proof.
  intros (h & I & ->). destruct c; cbn [handles In] in I; try contradiction;
    try (destruct I as [->|[]]; reflexivity).
  destruct I as [->|[->|[]]]; [reflexivity|]. destruct h1; reflexivity.
Qed.

Theorem init_null m : run_call mk m (COffsetInit true) = Done 1 WNothing m
  /\ run_call mk m (CBooleanInit true) = Done 1 WNothing m.
Proof. split; reflexivity. Qed.

Lemma as_u32_small n : (N.of_nat n < 4294967296)%N -> as_u32 n = N.of_nat n.
Proof. intros H. apply N.mod_small. exact H. Qed.

Lemma with_pline_ok m a p f : is_pline m a p -> with_pline m (Some a) f = f a p.
Proof. intros P. unfold with_pline. unfold is_pline in P. now rewrite (proj2 (read_nth m a _) P). Qed.

Theorem get_vertex_in m a p i v : is_pline m a p -> (N.of_nat (length (vtx p)) < 4294967296)%N ->
  nth_error (vtx p) (N.to_nat i) = Some v -> run_call mk m (CGetVertex (Some a) i) = Done 0 (WVertex v) m.
Proof.
  intros P L E. cbn [run_call]. unfold cavc_pline_get_vertex. rewrite (with_pline_ok m a p _ P).
  unfold vertex_count. rewrite (as_u32_small _ L).
  assert (N.to_nat i < length (vtx p)) by (apply nth_error_Some; congruence). unfold vertex_count.
  destruct (N.leb_spec (N.of_nat (length (vtx p))) i); [lia|]. unfold at_, index. rewrite E. reflexivity.
Qed.

Theorem positions_out m a p i v : is_pline m a p -> (N.of_nat (length (vtx p)) < 4294967296)%N ->
  length (vtx p) <= N.to_nat i ->
  run_call mk m (CGetVertex (Some a) i) = Done 2 WNothing m
  /\ run_call mk m (CSetVertex (Some a) i v) = Done 2 WNothing m
  /\ run_call mk m (CRemove (Some a) i) = Done 2 WNothing m.
Proof.
  intros P L G. cbn [run_call]. unfold cavc_pline_get_vertex, cavc_pline_set_vertex, cavc_pline_remove.
  rewrite !(with_pline_ok m a p _ P). unfold vertex_count. rewrite ?(as_u32_small _ L).
  destruct (N.leb_spec (N.of_nat (length (vtx p))) i); [auto|lia].
Qed.

Theorem set_vertex_in m a p i v : is_pline m a p -> (N.of_nat (length (vtx p)) < 4294967296)%N ->
  N.to_nat i < length (vtx p) ->
  exists m1 p1, run_call mk m (CSetVertex (Some a) i v) = Done 0 WNothing m1
    /\ is_pline m1 a p1 /\ is_closed p1 = is_closed p
    /\ (forall j, nth_error (vtx p1) j = if Nat.eqb j (N.to_nat i) then Some v else nth_error (vtx p) j)
    /\ run_call mk m1 (CGetVertex (Some a) i) = Done 0 (WVertex v) m1.
Proof.
  intros P L G. cbn [run_call]. unfold cavc_pline_set_vertex.
  rewrite (with_pline_ok m a p _ P). unfold vertex_count. rewrite ?(as_u32_small _ L).
  destruct (N.leb_spec (N.of_nat (length (vtx p))) i); [lia|].
  unfold set_vertex, set_index. destruct (Nat.ltb_spec (N.to_nat i) (length (vtx p))); [|lia]. cbn [rbind catch].
  set (p1 := PL (list_set (vtx p) (N.to_nat i) v) (is_closed p)).
  assert (W : is_pline (write_obj m a (OPline p1)) a p1).
  { unfold is_pline. rewrite (nth_write m a _ _ a P), Nat.eqb_refl. reflexivity. }
  exists (write_obj m a (OPline p1)), p1. split; [reflexivity|]. split; [exact W|]. split; [reflexivity|].
  assert (V : forall j, nth_error (vtx p1) j = if Nat.eqb j (N.to_nat i) then Some v else nth_error (vtx p) j).
  { intros j. cbn [p1 vtx]. now apply nth_list_set. }
  split; [exact V|]. apply (get_vertex_in _ a p1 i v W).
  - cbn [p1 vtx]. rewrite length_list_set. exact L.
  - rewrite V, Nat.eqb_refl. reflexivity.
Qed.

Lemma list_remove_nth {A} (l : list A) i j :
  nth_error (list_remove l i) j = nth_error l (if Nat.ltb j i then j else S j).
Proof.
  revert i j. induction l as [|h t IH]; intros i j.
  - destruct i; cbn [list_remove]; destruct (Nat.ltb j _); destruct j; reflexivity.
  - destruct i as [|i]; [reflexivity|]. destruct j as [|j]; [reflexivity|]. cbn [list_remove nth_error].
    rewrite IH. change (Nat.ltb (S j) (S i)) with (Nat.ltb j i). destruct (Nat.ltb j i); reflexivity.
Qed.

Theorem remove_in m a p i : is_pline m a p -> N.to_nat i < length (vtx p) ->
  exists m1 p1, run_call mk m (CRemove (Some a) i) = Done 0 WNothing m1
    /\ is_pline m1 a p1 /\ is_closed p1 = is_closed p
    /\ (forall j, nth_error (vtx p1) j = nth_error (vtx p) (if Nat.ltb j (N.to_nat i) then j else S j)).
Proof.
  intros P G. cbn [run_call]. unfold cavc_pline_remove.
  rewrite (with_pline_ok m a p _ P). unfold vertex_count.
  destruct (N.leb_spec (N.of_nat (length (vtx p))) i); [lia|].
  unfold remove, index. destruct (nth_error (vtx p) (N.to_nat i)) eqn:E; [|apply nth_error_None in E; lia].
  cbn [rbind catch snd].
  eexists _, _. split; [reflexivity|]. split.
  { unfold is_pline. rewrite (nth_write m a _ _ a P), Nat.eqb_refl. reflexivity. }
  split; [reflexivity|]. intros j. apply list_remove_nth.
Qed.

Theorem set_get_data m a p l n cap : is_pline m a p -> N.to_nat n <= length l -> N.to_nat n <= cap ->
  exists m1, run_call mk m (CSetData (Some a) (Some l) n) = Done 0 WNothing m1
    /\ is_pline m1 a (PL (firstn (N.to_nat n) l) (is_closed p))
    /\ run_call mk m1 (CGetData (Some a) (Some cap)) = Done 0 (WVertexes (firstn (N.to_nat n) l)) m1.
Proof.
  intros P L C. cbn [run_call]. unfold cavc_pline_set_vertex_data. rewrite (with_pline_ok m a p _ P), (raw_parts_ok _ _ L).
  eexists. split; [reflexivity|].
  assert (W : is_pline (write_obj m a (OPline (extend_vertexes (clear p) (firstn (N.to_nat n) l)))) a
            (PL (firstn (N.to_nat n) l) (is_closed p))).
  { unfold is_pline. rewrite (nth_write m a _ _ a P), Nat.eqb_refl. reflexivity. }
  split; [exact W|]. unfold cavc_pline_get_vertex_data. rewrite (with_pline_ok _ a _ _ W). unfold vertex_count. cbn [vtx].
  assert (LF : length (firstn (N.to_nat n) l) <= cap) by (rewrite firstn_length; lia).
  apply Nat.leb_le in LF. now rewrite LF.
Qed.

Theorem set_get_closed m a p c : is_pline m a p ->
  exists m1, run_call mk m (CSetClosed (Some a) c) = Done 0 WNothing m1
    /\ is_pline m1 a (PL (vtx p) (negb (N.eqb c 0)))
    /\ run_call mk m1 (CGetClosed (Some a)) = Done 0 (WU32 (if N.eqb c 0 then 0%N else 1%N)) m1.
Proof.
  intros P. cbn [run_call]. unfold cavc_pline_set_is_closed. rewrite (with_pline_ok m a p _ P).
  eexists. split; [reflexivity|].
  assert (W : is_pline (write_obj m a (OPline (set_is_closed p (negb (N.eqb c 0))))) a (PL (vtx p) (negb (N.eqb c 0)))).
  { unfold is_pline. rewrite (nth_write m a _ _ a P), Nat.eqb_refl. reflexivity. }
  split; [exact W|]. unfold cavc_pline_get_is_closed. rewrite (with_pline_ok _ a _ _ W). cbn [is_closed].
  now destruct (N.eqb c 0).
Qed.

Theorem list_positions m a l i : is_list m a l ->
  (forall x, nth_error l (N.to_nat i) = Some x ->
     run_call mk m (CListGet (Some a) i) = Done 0 (WPtr x) m
     /\ exists m1, run_call mk m (CListTake (Some a) i) = Done 0 (WPtr x) m1)
  /\ (length l <= N.to_nat i -> run_call mk m (CListGet (Some a) i) = Done 2 WNothing m
        /\ run_call mk m (CListTake (Some a) i) = Done 2 WNothing m)
  /\ (l = [] -> run_call mk m (CListPop (Some a)) = Done 2 WNothing m).
Proof.
  intros P. unfold is_list in P. cbn [run_call]. unfold cavc_plinelist_get_pline, cavc_plinelist_take, cavc_plinelist_pop, with_list.
  rewrite !(proj2 (read_nth m a _) P). split; [|split].
  - intros x E. assert (N.to_nat i < length l) by (apply nth_error_Some; congruence).
    destruct (N.leb_spec (N.of_nat (length l)) i); [lia|]. rewrite E. split; [reflexivity|eexists; reflexivity].
  - intros L. destruct (N.leb_spec (N.of_nat (length l)) i); [auto|lia].
  - intros ->. reflexivity.
Qed.

Theorem unknown_operation m a b op opts : (4 <= op)%N ->
  run_call mk m (CBoolean (Some a) (Some b) op opts) = Done 2 WNothing m.
Proof.
  intros L. cbn [run_call]. unfold cavc_pline_boolean, boolean_op_from_u32.
  destruct (N.eqb_spec op 0); [lia|]. destruct (N.eqb_spec op 1); [lia|]. destruct (N.eqb_spec op 2); [lia|].
  destruct (N.eqb_spec op 3); [lia|]. reflexivity.
Qed.

(** A panic inside becomes -1 and leaves memory alone. *)
Theorem panics m a p k : is_pline m a p -> k <> OutOfFuel ->
  (forall eps, remove_redundant p eps = Panic k -> run_call mk m (CRemoveRedundant (Some a) eps) = Done (-1) WNothing m)
  /\ (forall eps, remove_repeat_pos p eps = Panic k -> run_call mk m (CRemoveRepeat (Some a) eps) = Done (-1) WNothing m)
  /\ (forall x y, winding_number p (V2 x y) = Panic k -> run_call mk m (CWinding (Some a) x y) = Done (-1) WNothing m)
  /\ (extents p = Panic k -> run_call mk m (CExtents (Some a)) = Done (-1) WNothing m)
  /\ (forall d, parallel_offset_constructed mk p d (OO (nlit 1 5) (nlit 1 4) (nlit 1 4) false) = Panic k ->
        run_call mk m (COffset (Some a) d None) = Done (-1) WNothing m)
  /\ (forall b q op o, boolean_op_from_u32 op = Some o -> is_pline m b q ->
        boolean_constructed mk p q o (nlit 1 5) = Panic k ->
        run_call mk m (CBoolean (Some a) (Some b) op None) = Done (-1) WNothing m)
  /\ ((4294967296 <= N.of_nat (length (vtx p)))%N -> run_call mk m (CGetCount (Some a)) = Done (-1) WNothing m).
Proof.
  intros P NK.
  assert (K : catch m (Panic k) = Done (-1) WNothing m) by (destruct k; try reflexivity; now elim NK).
  cbn [run_call]. repeat split.
  - intros eps E. unfold cavc_pline_remove_redundant, in_place. rewrite (with_pline_ok m a p _ P), E. exact K.
  - intros eps E. unfold cavc_pline_remove_repeat_pos, in_place. rewrite (with_pline_ok m a p _ P), E. exact K.
  - intros x y E. unfold cavc_pline_eval_wn. rewrite (with_pline_ok m a p _ P), E. exact K.
  - intros E. unfold cavc_pline_eval_extents. rewrite (with_pline_ok m a p _ P), E. exact K.
  - intros d E. unfold cavc_pline_parallel_offset. rewrite (with_pline_ok m a p _ P). cbn. rewrite E. exact K.
  - intros b q op o E1 Q E2. unfold cavc_pline_boolean. rewrite E1. unfold is_pline in P, Q.
    rewrite (proj2 (read_nth m a _) P), (proj2 (read_nth m b _) Q). cbn. rewrite E2. exact K.
  - intros L. unfold cavc_pline_get_vertex_count. rewrite (with_pline_ok m a p _ P). unfold try_u32, vertex_count.
    destruct (N.ltb_spec (N.of_nat (length (vtx p))) u32_max1) as [H|H]; [unfold u32_max1 in H; lia|reflexivity].
Qed.

(** Objects a call has no mutable handle to stay as they are. *)
Lemma from_internal_app m l a m1 : plinelist_from_internal m l = (a, m1) -> exists s, m1 = m ++ s.
Proof.
  intros H. unfold plinelist_from_internal in H. destruct (alloc_plines m l) as [r m2] eqn:E.
  apply alloc_plines_spec in E. destruct E as [-> ->]. injection H as <- <-. rewrite <- app_assoc. eauto.
Qed.

Definition frames (m : mem T) (c : call T) (r : outcome T) : Prop :=
  forall code w m1, r = Done code w m1 -> forall a, a < length m -> ~ In (Some a) (changes c) -> nth_error m1 a = nth_error m a.

Lemma frames_same m c code w : frames m c (Done code w m).
Proof. intros ? ? ? [= <- <- <-] ? ? ?. reflexivity. Qed.
Lemma frames_ub m c : frames m c UB.
Proof. intros ? ? ? [=]. Qed.
Lemma frames_app m c code w s : frames m c (Done code w (m ++ s)).
Proof. intros ? ? ? [= <- <- <-] a L _. now apply nth_error_app1. Qed.
Lemma frames_set m c code w a o : In (Some a) (changes c) -> frames m c (Done code w (list_set m a o)).
Proof.
  intros I ? ? ? [= <- <- <-] b L NI. destruct (lt_dec a (length m)) as [LA|LA].
  - rewrite nth_list_set by exact LA. destruct (Nat.eqb_spec b a); [subst; contradiction|reflexivity].
  - f_equal. clear - LA. revert m LA. induction a as [|a IH]; intros [|x t] L; cbn in *; auto; [lia|].
    f_equal. apply IH. lia.
Qed.
Lemma frames_catch m c r : (forall x, r = Ret x -> frames m c x) -> frames m c (catch m r).
Proof.
  intros H. destruct r as [x|k]; cbn; [now apply H|]. destruct k; try apply frames_same. intros ? ? ? [=].
Qed.
Lemma frames_pline m c h f : (forall a p, h = Some a -> frames m c (f a p)) -> frames m c (with_pline m h f).
Proof.
  intros H. destruct h as [a|]; cbn; [|apply frames_same]. destruct (read_obj m a) as [[]|]; try apply frames_ub. now apply H.
Qed.
Lemma frames_list m c h f : (forall a l, h = Some a -> frames m c (f a l)) -> frames m c (with_list m h f).
Proof.
  intros H. destruct h as [a|]; cbn; [|apply frames_same]. destruct (read_obj m a) as [[]|]; try apply frames_ub. now apply H.
Qed.

Ltac fsolve :=
  first [apply frames_same | apply frames_ub | apply frames_app
        | apply frames_set; subst; cbn; now left
        | apply frames_pline; intros; fsolve | apply frames_list; intros; fsolve
        | apply frames_catch; let E := fresh in intros ? E;
          match type of E with rbind ?X _ = _ => destruct X; [|discriminate E] end;
          injection E as <-; fsolve
        | match goal with |- frames _ _ (if ?b then _ else _) => destruct b; fsolve end
        | match goal with |- frames _ _ (match ?b with _ => _ end) => destruct b; fsolve end ].

Theorem call_frames m c : frames m c (run_call mk m c).
Proof.
  destruct c; cbn [run_call]; 
    unfold cavc_pline_parallel_offset_o_init, cavc_pline_boolean_o_init, cavc_pline_create, cavc_pline_f, cavc_pline_reserve,
      cavc_pline_clone, cavc_pline_get_is_closed, cavc_pline_set_is_closed, cavc_pline_get_vertex_count,
      cavc_pline_get_vertex_data, cavc_pline_set_vertex_data, cavc_pline_clear, cavc_pline_add, cavc_pline_get_vertex,
      cavc_pline_set_vertex, cavc_pline_remove, cavc_pline_eval_path_length, cavc_pline_eval_area, cavc_pline_eval_wn,
      cavc_pline_invert_direction, cavc_pline_scale, cavc_pline_translate, cavc_pline_remove_repeat_pos,
      cavc_pline_remove_redundant, in_place, cavc_pline_eval_extents, cavc_pline_create_approx_aabbindex,
      cavc_pline_create_aabbindex, cavc_aabbindex_f, cavc_aabbindex_get_extents, cavc_plinelist_f, cavc_plinelist_get_count,
      cavc_plinelist_get_pline, cavc_plinelist_pop, cavc_plinelist_take, alloc, ret, write_obj, free_obj, with_index;
    try solve [fsolve].
  - unfold cavc_pline_parallel_offset. apply frames_pline. intros a p _. cbv zeta.
    destruct (option_index m _); [|apply frames_ub]. apply frames_catch. intros x E.
    match type of E with rbind ?X _ = _ => destruct X as [l|]; [|discriminate E] end. cbn [rbind] in E.
    destruct (plinelist_from_internal m l) as [b m1] eqn:F. injection E as <-.
    apply from_internal_app in F. destruct F as [s ->]. apply frames_app.
  - unfold cavc_pline_boolean. destruct h1; [|apply frames_same]. destruct h2; [|apply frames_same].
    destruct (boolean_op_from_u32 op); [|apply frames_same]. destruct (read_obj m n) as [[]|]; try apply frames_ub.
    destruct (read_obj m n0) as [[]|]; try apply frames_ub. cbv zeta. destruct (option_index m _); [|apply frames_ub].
    apply frames_catch. intros x E.
    match type of E with rbind ?X _ = _ => destruct X as [l|]; [|discriminate E] end. cbn [rbind] in E.
    destruct (plinelist_from_internal m _) as [a1 m1] eqn:F1. destruct (plinelist_from_internal m1 _) as [a2 m2] eqn:F2.
    injection E as <-. apply from_internal_app in F1. destruct F1 as [s1 ->]. apply from_internal_app in F2. destruct F2 as [s2 ->].
    rewrite <- app_assoc. apply frames_app.
Qed.

End Step.

(** A polyline with 2^32 vertexes. *)
Lemma wrapped_get_vertex {T} {N_ : Num T} (mk : list (aabb T) -> sindex T) (v : vertex T) (n : N) :
  (n <> 0)%N -> (n mod u32_max1 = 0)%N ->
  exists m a p, is_pline m a p /\ nth_error (vtx p) 0 = Some v
    /\ run_call mk m (CGetVertex (Some a) 0) = Done 2 WNothing m.
Proof.
  intros NZ Z. remember (repeat v (N.to_nat n)) as l eqn:EL.
  assert (L : length l = N.to_nat n) by (subst l; apply repeat_length).
  assert (P : is_pline [Some (OPline (PL l true))] 0 (PL l true)) by (unfold is_pline; exact eq_refl).
  exists [Some (OPline (PL l true))], 0, (PL l true). split; [exact P|]. split; cbn [vtx].
  - destruct (nth_error l 0) as [w|] eqn:E.
    + apply nth_error_In in E. subst l. apply repeat_spec in E. now subst.
    + apply nth_error_None in E. rewrite L in E. lia.
  - cbn [run_call]. unfold cavc_pline_get_vertex. rewrite (with_pline_ok _ 0 _ _ P).
    unfold as_u32, vertex_count. cbn [vtx]. rewrite L, N2Nat.id, Z. reflexivity.
Qed.

Theorem huge_get_vertex {T} {N_ : Num T} (mk : list (aabb T) -> sindex T) (v : vertex T) :
  exists m a p, is_pline m a p /\ nth_error (vtx p) 0 = Some v
    /\ run_call mk m (CGetVertex (Some a) 0) = Done 2 WNothing m.
Proof. apply (wrapped_get_vertex mk v u32_max1); [discriminate|reflexivity]. Qed.
