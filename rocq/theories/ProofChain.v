(** Stitching offset slices (C35). *)
From Coq Require Import List Bool Arith Permutation Sorted Lia.
From Verif Require Import Num Res ModelMath ModelSeg ModelPline ModelView ModelIndex ModelIntersects ModelBoolean ModelOffset.
From Verif Require Import Spec SpecPline SpecView SpecIndex SpecStitch SpecChain.
From Verif Require Import ProofBase ProofRepeat ProofView ProofFind ProofJoin ProofStitch ProofOffset2.
Import ListNotations.

(** ** The flags of used slices *)
Section Flags.
Context (n : nat).
Definition cflags (used : list nat) : list bool := map (fun i => nat_in i used) (seq 0 n).

Lemma cflags_nth used i : i < n -> nth_error (cflags used) i = Some (nat_in i used).
Proof. intros H. unfold cflags. erewrite map_nth_error by (apply nth_error_seq'; exact H). reflexivity. Qed.

Lemma cflags_set used b : b < n -> set_index (cflags used) b true = Ret (cflags (used ++ [b])).
Proof.
  intros H. rewrite set_index_ok by (unfold cflags; rewrite map_length, seq_length; exact H). f_equal.
  apply nth_error_ext. intros i. rewrite list_set_nth.
  destruct (Nat.ltb_spec i n) as [L|L].
  - rewrite !cflags_nth by exact L. destruct (Nat.eqb_spec b i) as [->|NE].
    + destruct (Nat.ltb_spec i (length (cflags used))) as [_|X]; [|unfold cflags in X; rewrite map_length, seq_length in X; lia].
      f_equal. symmetry. apply nat_in_spec. apply in_or_app. right. left. reflexivity.
    + f_equal. apply eq_true_iff_eq. rewrite !nat_in_spec, in_app_iff. split; [auto|]. intros [X|[X|[]]]; [exact X|congruence].
  - assert (LF : forall u, length (cflags u) = n) by (intros u; unfold cflags; now rewrite map_length, seq_length).
    destruct (Nat.eqb_spec b i) as [->|NE]; [lia|].
    rewrite !(proj2 (nth_error_None _ _)) by (rewrite LF; exact L). reflexivity.
Qed.

Lemma cflags_nil : cflags [] = repeat false n.
Proof.
  unfold cflags. generalize 0 as k. induction n as [|m IH]; intros k; [reflexivity|]. cbn [seq map repeat]. f_equal. apply IH.
Qed.

Lemma used_count (u c : list nat) : NoDup (u ++ c) -> (forall i, In i (u ++ c) -> i < n) -> length c <= n.
Proof.
  intros ND LT. assert (Y : incl (u ++ c) (seq 0 n)) by (intros i Hi; apply in_seq; specialize (LT i Hi); lia).
  pose proof (NoDup_incl_length ND Y) as Z. rewrite seq_length, app_length in Z. lia.
Qed.
End Flags.

(** ** The candidates *)
Section Cands.
Context {T : Type} {N : Num T} (n : nat) (starts : list (vec2 T)) (ends : nat -> option (vec2 T)) (eps : T) (idx : sindex T).
Hypothesis LEN : length starts = n.
Hypothesis IDX : index_of (map (fun q => aabb_grow (point_box q) eps) starts) idx.

Lemma cands_spec used q : exists avail,
  rfilter (fun i => rbind (index (cflags n used) i) (fun b => Ret (negb b))) (ix_query idx (aabb_grow (point_box q) eps)) = Ret avail
  /\ NoDup avail
  /\ forall i, In i avail <-> ((exists r, nth_error starts i = Some r /\ reaches eps q r = true) /\ ~ In i used).
Proof.
  destruct IDX as (_ & _ & Q). destruct (Q (aabb_grow (point_box q) eps)) as (ND & M).
  assert (M' : forall i, In i (ix_query idx (aabb_grow (point_box q) eps)) <-> exists r, nth_error starts i = Some r /\ reaches eps q r = true).
  { intros i. rewrite M. split.
    - intros (b & E & O). rewrite nth_error_map in E. destruct (nth_error starts i) as [r|] eqn:ER; [|discriminate].
      cbn [option_map] in E. injection E as <-. exists r. split; [reflexivity|exact O].
    - intros (r & E & O). exists (aabb_grow (point_box r) eps). rewrite nth_error_map, E. split; [reflexivity|exact O]. }
  exists (filter (fun i => negb (nat_in i used)) (ix_query idx (aabb_grow (point_box q) eps))). split; [|split].
  - apply rfilter_ok. apply Forall_forall. intros i Hi. apply M' in Hi as (r & E & _).
    assert (L : i < n) by (rewrite <- LEN; apply nth_error_Some; congruence).
    unfold index. rewrite cflags_nth by exact L. reflexivity.
  - now apply NoDup_filter.
  - intros i. rewrite filter_In, M', negb_true_iff. split; intros (A & B); split; auto.
    + intros I. apply nat_in_spec in I. congruence.
    + destruct (nat_in i used) eqn:X; [|reflexivity]. apply nat_in_spec in X. contradiction.
Qed.
End Cands.

(** ** Chains *)
Section ChainFacts.
Context {T : Type} {N : Num T}.
Context (path : nat -> list (vertex T) -> Prop) (next : nat -> nat -> Prop)
        (choice : nat -> nat -> list nat -> nat -> Prop) (replace : bool) (eps : T).
Hypothesis NE : forall i l, path i l -> l <> [].

Lemma runs_nil (l : list (vertex T)) rs : is_runs (close_by eps) l rs -> l <> [] -> exists K v, flat_map run_rep rs = K ++ [v].
Proof.
  intros R X. destruct l as [|z l'] using rev_ind; [congruence|]. destruct (runs_snoc eps l' z rs R) as (K & v & E & _). eauto.
Qed.

Lemma chained_ends used first c K : chained path next choice replace eps used first c K ->
  (exists K' v, K = K' ++ [v]) /\ no_repeat (close_by eps) K.
Proof.
  intros H. destruct H as [l rs P R|c cur K v avail b l rs S CA CH P R]; (split; [|eapply runs_kept_no_repeat; exact R]).
  - eapply runs_nil; [exact R|]. eapply NE; exact P.
  - eapply runs_nil; [exact R|]. intros X. apply app_eq_nil in X as [_ X]. exact (NE _ _ P X).
Qed.
End ChainFacts.

(** ** The order of preference *)
Section Order.
Context {T : Type} {N : Num T} (slices : list (view_data T)) (last : nat) (eps : T).

Lemma index_dist_ok a c b y : nth_error slices a = Some c -> nth_error slices b = Some y -> vd_start_index c <= last ->
  index_dist slices last (vd_start_index c) b = Ret (ahead last c y).
Proof.
  intros EA EB L. unfold index_dist, index, ahead. rewrite EB. cbn [rbind].
  destruct (vd_start_index c <=? vd_start_index y); [reflexivity|]. rewrite usub_ok by exact L. reflexivity.
Qed.

Definition key_leb (a b : nat * bool * nat) : bool :=
  let '(da, ca, _) := a in let '(db, cb, _) := b in cmp_leb (cmp_then (Nat.compare da db) (Bool.compare ca cb)).

Lemma key_leb_spec a b : key_leb a b = true <->
  (fst (fst a) < fst (fst b) \/ (fst (fst a) = fst (fst b) /\ (snd (fst a) = true -> snd (fst b) = true))).
Proof.
  destruct a as [[da ca] ia]. destruct b as [[db cb] ib]. cbn [key_leb fst snd]. unfold cmp_then.
  destruct (Nat.compare_spec da db) as [E|L|G]; cbn [cmp_leb].
  - subst. destruct ca, cb; cbn; split; intros H; auto; try discriminate; destruct H as [H|[_ H]]; try lia; specialize (H eq_refl); discriminate.
  - split; [auto|reflexivity].
  - split; [discriminate|]. intros [X|[X _]]; lia.
Qed.

Lemma isort_head (l : list (nat * bool * nat)) h t : isort key_leb l = h :: t -> forall x, In x l -> key_leb h x = true.
Proof.
  intros E x Hx.
  assert (S : StronglySorted (fun a b => key_leb a b = true) (isort key_leb l)).
  { apply Sorted_StronglySorted.
    - intros a b c. rewrite !key_leb_spec. intros [A|[A A']] [B|[B B']]; auto; [left; lia|left; lia|left; lia|right; split; [lia|auto]].
    - assert (ADJ := isort_ok key_leb l). 
      assert (TOT : forall x y, In x l -> In y l -> key_leb x y = false -> key_leb y x = true).
      { intros a b _ _ F. apply key_leb_spec. destruct (Nat.lt_trichotomy (fst (fst a)) (fst (fst b))) as [L|[L|L]].
        - assert (X : key_leb a b = true) by (apply key_leb_spec; auto). congruence.
        - right. split; [lia|]. intros Z. destruct (snd (fst a)) eqn:EA; [reflexivity|].
          assert (X : key_leb a b = true) by (apply key_leb_spec; right; rewrite EA; split; [exact L|discriminate]). congruence.
        - auto. }
      specialize (ADJ TOT). clear - ADJ. revert ADJ. generalize (isort key_leb l) as s. induction s as [|a s IH]; intros ADJ; constructor.
      + apply IH. intros i x y X Y. apply (ADJ (S i) x y X Y).
      + destruct s as [|b s]; constructor. apply (ADJ 0 a b); reflexivity. }
  apply (Permutation_in _ (isort_perm key_leb l)) in Hx. rewrite E in S, Hx. inversion S as [|? ? _ F]; subst. rewrite Forall_forall in F.
  destruct Hx as [<-|Hx]; [|now apply F]. apply key_leb_spec. auto.
Qed.

Lemma sort_candidates_spec first f cur c avail : nth_error slices first = Some f -> nth_error slices cur = Some c ->
  (forall i, In i avail -> i < length slices) -> vd_start_index c <= last ->
  (avail = [] -> sort_candidates slices last (vd_start_index c) (pos (vd_updated_start f)) eps avail = Ret [])
  /\ (avail <> [] -> exists b t, sort_candidates slices last (vd_start_index c) (pos (vd_updated_start f)) eps avail = Ret (b :: t)
       /\ nearest_ahead slices last eps first cur avail b).
Proof.
  intros EF EC LT LC. split; [intros ->; reflexivity|]. intros NE.
  destruct avail as [|a0 [|a1 avail]]; [congruence| |].
  - exists a0, []. split; [reflexivity|]. split; [left; reflexivity|]. intros i f' c' x y [<-|[]] _ _ X Y. right. split; congruence.
  - cbn [sort_candidates]. set (l := a0 :: a1 :: avail) in *.
    set (key := fun i => match nth_error slices i with
                         | Some y => (ahead last c y, v2fuzzy_eq_eps (vd_end_point y) (pos (vd_updated_start f)) eps, i)
                         | None => (0, false, i) end).
    rewrite (rmapM_ok _ l (map key l)).
    2:{ apply map_length. }
    2:{ intros i a E. exists (key a). split; [erewrite map_nth_error by exact E; reflexivity|].
        assert (LA : a < length slices) by (apply LT; eapply nth_error_In; exact E).
        destruct (nth_error slices a) as [y|] eqn:EY; [|apply nth_error_None in EY; lia].
        rewrite (index_dist_ok cur c a y) by auto. cbn [rbind]. unfold key, connects_to_start. rewrite EY. reflexivity. }
    cbn [rbind]. fold key_leb.
    assert (PM := isort_perm key_leb (map key l)).
    destruct (isort key_leb (map key l)) as [|h t] eqn:ES.
    { apply Permutation_sym, Permutation_nil in PM. discriminate. }
    cbn [map].
    assert (IH : In h (map key l)) by (apply (Permutation_in _ (Permutation_sym PM)); left; reflexivity).
    apply in_map_iff in IH as (b & EB & IB).
    assert (SK : forall i, snd (key i) = i) by (intros i; unfold key; destruct (nth_error slices i); reflexivity).
    exists b, (map snd t). rewrite <- EB, SK. split; [reflexivity|]. split; [exact IB|].
    intros i f' c' x y II F' C' X Y. rewrite EF in F'. injection F' as <-. rewrite EC in C'. injection C' as <-.
    pose proof (isort_head _ _ _ ES (key i) (in_map key _ _ II)) as L. rewrite <- EB in L. apply key_leb_spec in L.
    unfold key in L. rewrite X, Y in L. exact L.
Qed.
End Order.

(** ** The loop *)
Section StitchOffset.
Context {T : Type} {N : Num T} (raw : pline T) (slices : list (view_data T)) (closed : bool) (last : nat) (o : offset_options T) (idx : sindex T).
Local Notation n := (length slices).
Local Notation eps := (oo_pos_equal_eps o).
Local Notation join := (oo_slice_join_eps o).
Hypothesis IDX : index_of (map (fun q => aabb_grow (point_box q) join) (map (fun s => pos (vd_updated_start s)) slices)) idx.
Hypothesis FITS : Forall (view_fits raw) slices.
Hypothesis LAST : Forall (fun s => vd_start_index s <= last) slices.
Local Notation path := (path_at raw slices).
Local Notation next := (next_at slices join).
Local Notation choice := (nearest_ahead slices last eps).
Local Notation chained := (chained path next choice true eps).
Local Notation candidates := (candidates next).

Lemma view_path_nonempty p (d : view_data T) : view_path_of p d <> [].
Proof. unfold view_path_of, spec_view. destruct (rebulge_last _ _); discriminate. Qed.

Lemma path_nonempty i l : path i l -> l <> [].
Proof. intros (d & _ & ->). apply view_path_nonempty. Qed.

Lemma view_pline_path d : view_fits raw d -> view_pline d raw = Ret (PL (view_path_of raw d) false).
Proof.
  intros (F1 & F2 & F3). destruct (view_forward_spec d raw F1 F2 F3) as (_ & E & _). unfold view_pline. rewrite E. reflexivity.
Qed.

Lemma next_candidates used cur d avail : nth_error slices cur = Some d -> NoDup avail ->
  (forall i, In i avail <-> ((exists r, nth_error (map (fun s => pos (vd_updated_start s)) slices) i = Some r /\ reaches join (vd_end_point d) r = true) /\ ~ In i used)) ->
  candidates used cur avail.
Proof.
  intros E ND H. split; [exact ND|]. intros i. rewrite H. split; intros (A & B); (split; [|exact B]).
  - destruct A as (r & ER & R). rewrite nth_error_map in ER. destruct (nth_error slices i) as [b|] eqn:EB; [|discriminate]. cbn in ER. injection ER as <-.
    exists d, b. auto.
  - destruct A as (a & b & EA & EB & R). rewrite E in EA. injection EA as <-. exists (pos (vd_updated_start b)). rewrite nth_error_map, EB. auto.
Qed.

Lemma finish_spec K v : finish_stitched (PL (K ++ [v]) false) closed eps = Ret (offset_result closed eps (K ++ [v])).
Proof.
  unfold finish_stitched, offset_result, vertex_count. cbn [vtx]. rewrite app_length. cbn [length].
  destruct (Nat.ltb_spec 1 (length K + 1)) as [L|L], (Nat.leb_spec 2 (length K + 1)) as [L'|L']; try lia; [|reflexivity].
  destruct K as [|a K]; [cbn in L; lia|]. cbn [app]. unfold at_ at 1, index. cbn [vtx nth_error rbind].
  change (a :: K ++ [v]) with ((a :: K) ++ [v]). rewrite last_snoc_pline. cbn [rbind unwrap].
  unfold close_path. rewrite rev_unit. cbn [app hd_error]. change (a :: K ++ [v]) with ((a :: K) ++ [v]).
  destruct (closed && _); [|reflexivity]. rewrite remove_last_snoc. cbn [rbind snd]. rewrite removelast_last. reflexivity.
Qed.

Lemma offset_loop_spec fuel : forall used first c cur K0,
  n < fuel + length (c ++ [cur]) -> NoDup (used ++ c ++ [cur]) -> (forall i, In i (used ++ c ++ [cur]) -> i < n) ->
  In first (c ++ [cur]) -> no_repeat (close_by eps) K0 ->
  (forall l rs, path cur l -> is_runs (close_by eps) (K0 ++ l) rs -> chained used first (c ++ [cur]) (flat_map run_rep rs)) ->
  forall f, nth_error slices first = Some f ->
  exists c' cur' K, stitch_offset_loop fuel raw slices idx closed last o (pos (vd_updated_start f)) cur (length c) (cflags n (used ++ c ++ [cur])) (PL K0 false)
                    = Ret (cflags n (used ++ c' ++ [cur']), offset_result closed eps K)
  /\ chained used first (c' ++ [cur']) K /\ candidates (used ++ c' ++ [cur']) cur' []
  /\ NoDup (used ++ c' ++ [cur']) /\ (forall i, In i (used ++ c' ++ [cur']) -> i < n) /\ In first (c' ++ [cur']).
Proof.
  induction fuel as [|fuel IH]; intros used first c cur K0 HF ND LT HI NR INV f EF; pose proof (used_count n _ _ ND LT) as LC.
  - exfalso. lia.
  - cbn [stitch_offset_loop]. assert (LC' := LC). rewrite app_length in LC'. cbn [length] in LC'.
    destruct (Nat.ltb_spec n (length c)) as [L|_]; [lia|].
    assert (LCUR : cur < n) by (apply LT; rewrite !in_app_iff; right; right; left; reflexivity).
    destruct (nth_error slices cur) as [d|] eqn:ED; [|apply nth_error_None in ED; lia].
    unfold index at 1. rewrite ED. cbn [rbind].
    rewrite Forall_forall in FITS, LAST. assert (FD := FITS d (nth_error_In _ _ ED)). assert (LD := LAST d (nth_error_In _ _ ED)).
    rewrite (view_pline_path d FD). cbn [rbind].
    destruct (extend_glue eps K0 (view_path_of raw d) false false NR) as (rs & R & ->).
    assert (CH : chained used first (c ++ [cur]) (flat_map run_rep rs)) by (eapply INV; [exists d; auto|exact R]).
    destruct (chained_ends path next choice true eps path_nonempty used first _ _ CH) as ((K & v & EK) & NRK). rewrite EK in *.
    destruct (cands_spec n (map (fun s => pos (vd_updated_start s)) slices) join idx (map_length _ _) IDX (used ++ c ++ [cur]) (vd_end_point d)) as (avail & -> & NDA & AV).
    cbn [rbind]. pose proof (next_candidates _ _ _ _ ED NDA AV) as CA.
    assert (LTA : forall i, In i avail -> i < n).
    { intros i I. apply CA in I as ((a & b & _ & EB & _) & _). apply nth_error_Some. congruence. }
    destruct (sort_candidates_spec slices last eps first f cur d avail EF ED LTA LD) as (S0 & S1).
    destruct avail as [|a0 avail0].
    { rewrite S0 by reflexivity. cbn [rbind]. rewrite finish_spec. cbn [rbind]. exists c, cur, (K ++ [v]).
      split; [reflexivity|]. split; [exact CH|]. split; [exact CA|]. auto. }
    destruct S1 as (b & t & -> & NB); [discriminate|]. set (avail := a0 :: avail0) in *. clearbody avail. cbn [rbind].
    assert (IB : In b avail) by apply NB. assert (LB := LTA b IB). rewrite cflags_set by exact LB. cbn [rbind].
    rewrite remove_last_snoc. cbn [rbind snd].
    assert (NIB : ~ In b (used ++ c ++ [cur])) by (apply CA; exact IB).
    replace (length c + 1) with (length (c ++ [cur])) by (rewrite app_length; reflexivity).
    replace ((used ++ c ++ [cur]) ++ [b]) with (used ++ (c ++ [cur]) ++ [b]) by now rewrite !app_assoc.
    apply IH; auto.
    + rewrite !app_length in *. cbn [length] in *. lia.
    + replace (used ++ (c ++ [cur]) ++ [b]) with ((used ++ c ++ [cur]) ++ [b]) by now rewrite !app_assoc. apply nodup_snoc; assumption.
    + replace (used ++ (c ++ [cur]) ++ [b]) with ((used ++ c ++ [cur]) ++ [b]) by now rewrite !app_assoc.
      intros i Hi. apply in_app_or in Hi as [Hi|[<-|[]]]; auto.
    + apply in_or_app. auto.
    + eapply no_repeat_front; exact NRK.
    + intros l rs' P R'. eapply chained_more; eauto.
Qed.

Local Notation all_chained := (all_chained path next choice true eps).

Lemma offset_from_spec chains Ks i : i < n ->
  all_chained chains Ks -> NoDup (concat chains) -> (forall j, In j (concat chains) -> j < n) ->
  (forall j, j < i -> In j (concat chains)) ->
  exists chains' Ks', stitch_offset_from raw slices idx closed last o (cflags n (concat chains), flat_map (offset_result closed eps) Ks) i
    = Ret (cflags n (concat chains'), flat_map (offset_result closed eps) Ks')
  /\ all_chained chains' Ks' /\ NoDup (concat chains') /\ (forall j, In j (concat chains') -> j < n)
  /\ (forall j, j < S i -> In j (concat chains')).
Proof.
  intros LI ST ND LT ALL. unfold stitch_offset_from. unfold index at 1. rewrite cflags_nth by exact LI. cbn [rbind].
  destruct (nat_in i (concat chains)) eqn:U.
  - exists chains, Ks. split; [reflexivity|]. split; [exact ST|]. split; [exact ND|]. split; [exact LT|].
    intros j Hj. destruct (Nat.eq_dec j i) as [->|NE]; [apply nat_in_spec; exact U|apply ALL; lia].
  - assert (NI : ~ In i (concat chains)) by (intros X; apply nat_in_spec in X; congruence).
    rewrite cflags_set by exact LI. cbn [rbind].
    destruct (nth_error slices i) as [s|] eqn:ES; [|apply nth_error_None in ES; lia].
    unfold index. rewrite ES. cbn [rbind].
    destruct (offset_loop_spec (n + 2) (concat chains) i [] i []) with (f := s) as (c & cur & K & E & S & F & ND' & LT' & HI); auto.
    + cbn [app length]. lia.
    + cbn [app]. apply nodup_snoc; assumption.
    + cbn [app]. intros j Hj. apply in_app_or in Hj as [Hj|[<-|[]]]; auto.
    + left. reflexivity.
    + intros [|k] a b X; discriminate.
    + cbn [app]. intros l rs P R. now apply (chained_one path next choice true eps _ _ l).
    + cbn [app length] in E. unfold empty_pline. rewrite E. cbn [rbind fst snd].
      exists (chains ++ [c ++ [cur]]), (Ks ++ [K]). rewrite concat_app, flat_map_app. cbn [concat flat_map]. rewrite !app_nil_r.
      split; [reflexivity|]. split; [eapply all_chained_more; eauto|]. split; [exact ND'|]. split; [exact LT'|].
      intros j Hj. apply in_or_app. destruct (Nat.eq_dec j i) as [->|NE]; [auto|left; apply ALL; lia].
Qed.

Lemma offset_all_spec : exists chains Ks,
  rfold (stitch_offset_from raw slices idx closed last o) (seq 0 n) (repeat false n, []) = Ret (cflags n (concat chains), flat_map (offset_result closed eps) Ks)
  /\ all_chained chains Ks /\ Permutation (concat chains) (seq 0 n).
Proof.
  assert (G : forall m, m <= n -> exists chains Ks,
    rfold (stitch_offset_from raw slices idx closed last o) (seq 0 m) (repeat false n, []) = Ret (cflags n (concat chains), flat_map (offset_result closed eps) Ks)
    /\ all_chained chains Ks /\ NoDup (concat chains) /\ (forall j, In j (concat chains) -> j < n)
    /\ (forall j, j < m -> In j (concat chains))).
  { induction m as [|m IH]; intros Hm.
    - exists [], []. cbn [seq rfold concat]. rewrite cflags_nil. split; [reflexivity|]. split; [constructor|].
      split; [constructor|]. split; [intros j []|intros j Hj; lia].
    - destruct IH as (chains & rs & E & ST & ND & LT & ALL); [lia|].
      destruct (offset_from_spec chains rs m) as (chains' & rs' & E' & X); auto.
      exists chains', rs'. split; [|exact X]. replace (S m) with (m + 1) by lia. rewrite seq_app, rfold_app, E. cbn [rbind seq rfold]. change (0 + m) with m.
      rewrite E'. reflexivity. }
  destruct (G n (Nat.le_refl n)) as (chains & rs & E & S & ND & LT & ALL). exists chains, rs. split; [exact E|]. split; [exact S|].
  apply NoDup_Permutation; [exact ND|apply seq_NoDup|]. intros j. rewrite in_seq. split; [intros H; specialize (LT j H); lia|].
  intros H. apply ALL. lia.
Qed.
End StitchOffset.

(** ** The whole function *)
Section Whole.
Context {T : Type} {N : Num T} (mk : list (aabb T) -> sindex T) (raw : pline T) (slices : list (view_data T)) (closed : bool) (last : nat) (o : offset_options T).
Local Notation eps := (oo_pos_equal_eps o).
Local Notation join := (oo_slice_join_eps o).

Lemma stitch_offset_spec : makes_index mk -> Forall (view_fits raw) slices -> Forall (fun s => vd_start_index s <= last) slices ->
  exists chains Ks, stitch_slices_together mk raw slices closed last o = Ret (offset_results slices closed eps join Ks)
  /\ all_chained (path_at raw slices) (next_at slices join) (nearest_ahead slices last eps) true eps chains Ks
  /\ Permutation (concat chains) (seq 0 (length slices)).
Proof.
  intros MK FI LA. destruct slices as [|s [|s2 sl]] eqn:ES.
  - exists [], []. split; [reflexivity|]. split; constructor.
  - cbn [stitch_slices_together]. assert (F := FI). rewrite Forall_forall in F. specialize (F s (or_introl eq_refl)).
    rewrite (view_pline_path raw s F). cbn [rbind].
    destruct (create_glue eps (view_path_of raw s)) as (rs & R & ->). cbn [rbind].
    destruct (runs_nil eps _ _ R (view_path_nonempty raw s)) as (K & v & EK).
    exists [[0]], [flat_map run_rep rs]. split; [|split].
    + cbn [offset_results map]. rewrite EK. unfold close_path. rewrite rev_unit. cbn [hd_error]. unfold set_is_closed. cbn [vtx].
      destruct (hd_error (K ++ [v])) as [a|] eqn:EH; [|destruct K; discriminate].
      assert (EA : at_ (PL (K ++ [v]) false) 0 = Ret a).
      { unfold at_, index. cbn [vtx]. destruct (K ++ [v]); [discriminate|]. cbn in EH |- *. now injection EH as ->. }
      destruct closed; [|reflexivity]. rewrite EA. cbn [rbind]. rewrite last_snoc_pline. cbn [rbind unwrap andb].
      destruct (v2fuzzy_eq_eps _ _ _); [|reflexivity]. rewrite remove_last_snoc. cbn [rbind snd]. rewrite removelast_last. reflexivity.
    + apply (all_chained_more _ _ _ _ _ [] [] 0 [] 0).
      * constructor.
      * intros [].
      * intros j J. lia.
      * cbn [app concat]. apply (chained_one _ _ _ _ _ _ _ (view_path_of raw s)); [exists s; auto|exact R].
      * split; [constructor|]. intros i. split; [intros []|]. intros ((a & b & _ & EB & _) & NI). cbn in NI.
        assert (L : i < 1) by (change 1 with (length [s]); apply nth_error_Some; congruence). apply NI. left. lia.
    + reflexivity.
  - rewrite <- ES in *.
    assert (E1 : stitch_slices_together mk raw slices closed last o =
      let idx := mk (map (fun s => aabb_grow (point_box (pos (vd_updated_start s))) join) slices) in
      let! st := rfold (stitch_offset_from raw slices idx closed last o) (seq 0 (length slices)) (repeat false (length slices), []) in
      Ret (snd st)) by (rewrite ES; reflexivity).
    assert (E2 : forall Ks, offset_results slices closed eps join Ks = flat_map (offset_result closed eps) Ks) by (intros; rewrite ES; reflexivity).
    cbv zeta in E1. clear ES. rewrite E1.
    destruct (offset_all_spec raw slices closed last o (mk (map (fun s => aabb_grow (point_box (pos (vd_updated_start s))) join) slices))) as (chains & Ks & E & A & P); auto.
    { rewrite map_map. apply MK. }
    exists chains, Ks. rewrite E. cbn [rbind snd]. rewrite E2. auto.
Qed.
End Whole.
