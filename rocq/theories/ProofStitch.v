(** Stitching slices into closed polylines (C31). *)
From Coq Require Import List Bool Arith Permutation Lia.
From Verif Require Import Num Res ModelMath ModelSeg ModelPline ModelView ModelIndex ModelIntersects ModelBoolean.
From Verif Require Import Spec SpecPline SpecView SpecIndex SpecStitch.
From Verif Require Import ProofBase ProofRepeat ProofView ProofFind.
Import ListNotations.

Section Glue.
Context {T : Type} {N : Num T} (eps : T).
Local Notation add := (fun a v => add_or_replace_vertex a v eps).

Lemma no_repeat_snoc (K : list (vertex T)) x y : no_repeat (close_by eps) ((K ++ [x]) ++ [y]) ->
  no_repeat (close_by eps) (K ++ [x]) /\ close_by eps x y = false.
Proof.
  intros H. split.
  - intros i a b Ha Hb. apply (H i a b); rewrite nth_error_app1; auto; apply nth_error_Some; congruence.
  - apply (H (length K) x y).
    + rewrite <- app_assoc. rewrite nth_error_app2 by lia. rewrite Nat.sub_diag. reflexivity.
    + rewrite nth_error_app2 by (rewrite app_length; cbn; lia). rewrite app_length. cbn [length].
      replace (S (length K) - (length K + 1)) with 0 by lia. reflexivity.
Qed.

Lemma add_all_same (K : list (vertex T)) c : no_repeat (close_by eps) K -> fold_left add K (PL [] c) = PL K c.
Proof.
  induction K as [|y K IH] using rev_ind; [reflexivity|]. intros H. rewrite fold_left_app. cbn [fold_left].
  destruct K as [|z K'] using rev_ind; [reflexivity|]. clear IHK'.
  apply no_repeat_snoc in H as [H1 H2]. rewrite (IH H1), add_or_replace_vertex_snoc.
  change (v2fuzzy_eq_eps (pos z) (pos y) eps) with (close_by eps z y). rewrite H2, <- app_assoc. reflexivity.
Qed.

Lemma extend_glue (K l : list (vertex T)) c c' : no_repeat (close_by eps) K ->
  exists rs, is_runs (close_by eps) (K ++ l) rs /\ extend_remove_repeat (PL K c) (PL l c') eps = PL (flat_map run_rep rs) c.
Proof.
  intros H. destruct (adds_runs eps (K ++ l) c) as (rs & R & E). exists rs. split; [exact R|].
  rewrite fold_left_app, (add_all_same K c H) in E. exact E.
Qed.

Lemma create_glue (l : list (vertex T)) :
  exists rs, is_runs (close_by eps) l rs /\ create_from_remove_repeat (PL l false) eps = Ret (PL (flat_map run_rep rs) false).
Proof.
  destruct (adds_runs eps l false) as (rs & R & E). exists rs. split; [exact R|].
  unfold create_from_remove_repeat. cbn [is_closed vtx]. rewrite E. reflexivity.
Qed.

Lemma runs_snoc (l : list (vertex T)) z rs : is_runs (close_by eps) (l ++ [z]) rs ->
  exists K v, flat_map run_rep rs = K ++ [v] /\ (pos v = pos z \/ v2fuzzy_eq_eps (pos v) (pos z) eps = true).
Proof.
  intros (E & R & _). destruct rs as [|r rs'] using rev_ind; [destruct l; discriminate|]. clear IHrs'.
  rewrite flat_map_app. cbn [flat_map]. rewrite app_nil_r.
  destruct (R r) as (h & t & -> & C); [apply in_or_app; right; left; reflexivity|].
  cbn [run_rep]. eexists _, _. split; [reflexivity|]. rewrite concat_app in E. cbn [concat] in E. rewrite app_nil_r in E.
  destruct t as [|z' t'] using rev_ind.
  - apply app_inj_tail in E as [_ ->]. left. reflexivity.
  - clear IHt'. change (h :: t' ++ [z']) with ((h :: t') ++ [z']) in E. rewrite app_assoc in E.
    apply app_inj_tail in E as [_ ->]. right. apply (C z). apply in_or_app. right. left. reflexivity.
Qed.

Lemma runs_kept_no_repeat (l : list (vertex T)) rs : is_runs (close_by eps) l rs -> no_repeat (close_by eps) (flat_map run_rep rs).
Proof. intros R. apply (runs_no_repeat (close_by eps)) in R; [exact R|]. intros a b a' b' E1 E2. unfold close_by. now rewrite E1, E2. Qed.

Lemma no_repeat_front (K : list (vertex T)) x : no_repeat (close_by eps) (K ++ [x]) -> no_repeat (close_by eps) K.
Proof.
  intros H i a b Ha Hb. apply (H i a b); rewrite nth_error_app1; auto; apply nth_error_Some; congruence.
Qed.
End Glue.

Section Stitch.
Context {T : Type} {N : Num T}.
Context (p1 p2 : pline T) (slices : list (boolean_slice T)) (select : nat -> list nat -> res (option nat)) (eps : T)
        (path : boolean_slice T -> list (vertex T) -> Prop) (idx : sindex T).
Hypothesis IDX : index_of (map (fun s => point_box (slice_start_point s)) slices) idx.
Hypothesis PICK : picks select.
Hypothesis VIEW : forall s, In s slices -> exists l, slice_view s p1 p2 = Ret (PL l false) /\ path s l.
Hypothesis PATH : forall s l, path s l -> exists l' z, l = l' ++ [z] /\ pos z = slice_end s.
Local Notation n := (length slices).
Local Notation stitched := (stitched path slices select eps).
Local Notation finished := (finished slices select eps).
Local Notation offered := (offered slices eps).

(** The flags of the slices in [used]. *)
Definition flags (used : list nat) : list bool := map (fun i => nat_in i used) (seq 0 n).

Lemma flags_nth used i : i < n -> nth_error (flags used) i = Some (nat_in i used).
Proof. intros H. unfold flags. erewrite map_nth_error by (apply nth_error_seq'; exact H). reflexivity. Qed.

Lemma flags_set used b : b < n -> set_index (flags used) b true = Ret (flags (used ++ [b])).
Proof.
  intros H. rewrite set_index_ok by (unfold flags; rewrite map_length, seq_length; exact H). f_equal.
  apply nth_error_ext. intros i. rewrite list_set_nth.
  destruct (Nat.ltb_spec i n) as [L|L].
  - rewrite !flags_nth by exact L. destruct (Nat.eqb_spec b i) as [->|NE].
    + destruct (Nat.ltb_spec i (length (flags used))) as [_|X]; [|unfold flags in X; rewrite map_length, seq_length in X; lia].
      f_equal. symmetry. apply nat_in_spec. apply in_or_app. right. left. reflexivity.
    + f_equal. apply eq_true_iff_eq. rewrite !nat_in_spec, in_app_iff. split; [auto|]. intros [X|[X|[]]]; [exact X|congruence].
  - assert (LF : forall u, length (flags u) = n) by (intros u; unfold flags; now rewrite map_length, seq_length).
    destruct (Nat.eqb_spec b i) as [->|NE]; [lia|].
    rewrite !(proj2 (nth_error_None _ _)) by (rewrite LF; exact L). reflexivity.
Qed.

Lemma flags_nil : flags [] = repeat false n.
Proof.
  unfold flags. generalize 0 as k. induction n as [|m IH]; intros k; [reflexivity|]. cbn [seq map repeat]. f_equal. apply IH.
Qed.

Lemma query_offered q i : In i (ix_query idx (aabb_grow (point_box q) eps)) <->
  exists s, nth_error slices i = Some s /\ within eps q (slice_begin s) = true.
Proof.
  destruct IDX as (_ & _ & Q). destruct (Q (aabb_grow (point_box q) eps)) as (_ & M). rewrite M. split.
  - intros (b & E & O). rewrite nth_error_map in E. destruct (nth_error slices i) as [s|] eqn:ES; [|discriminate].
    cbn [option_map] in E. injection E as <-. exists s. split; [reflexivity|exact O].
  - intros (s & E & O). exists (point_box (slice_start_point s)). rewrite nth_error_map, E. split; [reflexivity|exact O].
Qed.

Lemma filter_offered used first q : exists avail,
  rfilter (fun i => if Nat.eqb i first then Ret true else rbind (index (flags used) i) (fun b => Ret (negb b)))
          (ix_query idx (aabb_grow (point_box q) eps)) = Ret avail
  /\ offered used first q avail.
Proof.
  exists (filter (fun i => Nat.eqb i first || negb (nat_in i used)) (ix_query idx (aabb_grow (point_box q) eps))). split.
  - apply rfilter_ok. apply Forall_forall. intros i Hi. apply query_offered in Hi as (s & E & _).
    assert (L : i < n) by (apply nth_error_Some; congruence).
    destruct (Nat.eqb i first); [reflexivity|]. unfold index. rewrite flags_nth by exact L. reflexivity.
  - intros i. rewrite filter_In, query_offered, orb_true_iff, Nat.eqb_eq, negb_true_iff. split.
    + intros ((s & E & W) & D). exists s. split; [exact E|]. split; [exact W|]. destruct D as [D|D]; [auto|right].
      intros I. apply nat_in_spec in I. congruence.
    + intros (s & E & W & D). split; [eauto|]. destruct D as [D|D]; [auto|right].
      destruct (nat_in i used) eqn:X; [|reflexivity]. apply nat_in_spec in X. contradiction.
Qed.

Lemma stitched_ends used first c K : stitched used first c K ->
  (exists c' cur s, c = c' ++ [cur] /\ nth_error slices cur = Some s
     /\ exists K' v, K = K' ++ [v] /\ (pos v = slice_end s \/ v2fuzzy_eq_eps (pos v) (slice_end s) eps = true))
  /\ no_repeat (close_by eps) K.
Proof.
  intros H. destruct H as [s l rs E P R|c cur K v avail b s l rs S O NE SEL D E P R].
  - split; [|eapply runs_kept_no_repeat; exact R]. exists [], first, s. split; [reflexivity|]. split; [exact E|].
    destruct (PATH s l P) as (l' & z & -> & EZ). destruct (runs_snoc eps l' z rs R) as (K' & v & EK & C).
    exists K', v. rewrite EZ in C. auto.
  - split; [|eapply runs_kept_no_repeat; exact R]. exists (c ++ [cur]), b, s. split; [reflexivity|]. split; [exact E|].
    destruct (PATH s l P) as (l' & z & -> & EZ). rewrite app_assoc in R.
    destruct (runs_snoc eps (K ++ l') z rs R) as (K' & v' & EK & C). exists K', v'. rewrite EZ in C. auto.
Qed.

Lemma count_le (u c : list nat) : NoDup (u ++ c) -> (forall i, In i (u ++ c) -> i < n) -> length c <= n.
Proof.
  intros ND LT. assert (Y : incl (u ++ c) (seq 0 n)) by (intros i Hi; apply in_seq; specialize (LT i Hi); lia).
  pose proof (NoDup_incl_length ND Y) as Z. rewrite seq_length, app_length in Z. lia.
Qed.

Lemma nodup_snoc (l : list nat) b : NoDup l -> ~ In b l -> NoDup (l ++ [b]).
Proof.
  intros H I. apply (Permutation_NoDup (l := b :: l)); [apply Permutation_cons_append|]. now constructor.
Qed.

Lemma stitch_loop_spec fuel : forall used first c cur K sub,
  n < fuel + length (c ++ [cur]) -> NoDup (used ++ c ++ [cur]) -> (forall i, In i (used ++ c ++ [cur]) -> i < n) ->
  In first (c ++ [cur]) ->
  stitched used first (c ++ [cur]) K ->
  map (@Some _) sub = map (nth_error slices) (c ++ [cur]) ->
  exists c' K' out, stitch_loop fuel slices idx p1 p2 select eps first cur (length c) (flags (used ++ c ++ [cur])) (PL K false) sub
                    = Ret (flags (used ++ c'), out)
  /\ stitched used first c' K' /\ finished used first c' K' out
  /\ NoDup (used ++ c') /\ (forall i, In i (used ++ c') -> i < n) /\ In first c'.
Proof.
  induction fuel as [|fuel IH]; intros used first c cur K sub HF ND LT HI ST SUB; pose proof (count_le _ _ ND LT) as LC.
  - exfalso. lia.
  - cbn [stitch_loop]. assert (LC' := LC). rewrite app_length in LC'. cbn [length] in LC'.
    destruct (Nat.ltb_spec n (length c)) as [L|_]; [lia|].
    destruct (stitched_ends used first _ K ST) as ((c0 & cur0 & s0 & E0 & ES0 & K0 & v & -> & _) & NR).
    apply app_inj_tail in E0 as [<- <-].
    rewrite last_snoc_pline. cbn [rbind unwrap].
    destruct (filter_offered (used ++ c ++ [cur]) first (pos v)) as (avail & -> & OF). cbn [rbind].
    destruct avail as [|a0 avail0].
    { exists (c ++ [cur]), (K0 ++ [v]), []. split; [reflexivity|]. split; [exact ST|]. split; [|auto].
      eapply finished_end; [exact OF|auto]. }
    assert (NE : a0 :: avail0 <> []) by discriminate. set (avail := a0 :: avail0) in *. clearbody avail.
    destruct (PICK cur avail NE) as (o & SEL & IN). rewrite SEL. cbn [rbind].
    destruct o as [b|].
    2:{ exists (c ++ [cur]), (K0 ++ [v]), []. split; [reflexivity|]. split; [exact ST|]. split; [|auto].
        eapply finished_end; [exact OF|]. auto. }
    destruct (Nat.eqb_spec b first) as [->|NF].
    { unfold close_pline. change (vertex_count (PL (K0 ++ [v]) false)) with (length (K0 ++ [v])). rewrite app_length. cbn [length].
      destruct (Nat.ltb_spec (length K0 + 1) 3) as [L3|L3].
      - exists (c ++ [cur]), (K0 ++ [v]), []. split; [reflexivity|]. split; [exact ST|]. split; [|auto].
        eapply finished_small; [exact OF|exact NE|exact SEL|lia].
      - rewrite remove_last_snoc. cbn [rbind snd].
        exists (c ++ [cur]), (K0 ++ [v]), [BRP (PL K0 true) sub]. split; [reflexivity|]. split; [exact ST|]. split; [|auto].
        eapply finished_loop; [exact OF|exact NE|exact SEL|lia|exact SUB]. }
    destruct (proj1 (OF b) (IN b eq_refl)) as (s & ES & W & [D|D]); [contradiction|].
    assert (LB : b < n) by (apply nth_error_Some; congruence).
    destruct (VIEW s) as (l & EV & P); [eapply nth_error_In; exact ES|].
    unfold index. rewrite ES. cbn [rbind]. rewrite remove_last_snoc. cbn [rbind snd]. rewrite EV. cbn [rbind].
    destruct (extend_glue eps K0 l false false) as (rs & R & ->); [eapply no_repeat_front; exact NR|].
    rewrite flags_set by exact LB. cbn [rbind].
    replace (length c + 1) with (length (c ++ [cur])) by (rewrite app_length; reflexivity).
    replace ((used ++ c ++ [cur]) ++ [b]) with (used ++ (c ++ [cur]) ++ [b]) by now rewrite !app_assoc.
    apply IH.
    + rewrite !app_length in *. cbn [length] in *. lia.
    + replace (used ++ (c ++ [cur]) ++ [b]) with ((used ++ c ++ [cur]) ++ [b]) by now rewrite !app_assoc.
      apply nodup_snoc; assumption.
    + replace (used ++ (c ++ [cur]) ++ [b]) with ((used ++ c ++ [cur]) ++ [b]) by now rewrite !app_assoc.
      intros i Hi. apply in_app_or in Hi as [Hi|[<-|[]]]; auto.
    + apply in_or_app. auto.
    + eapply stitched_more; eauto.
    + rewrite !map_app. rewrite SUB, map_app. cbn [map]. rewrite ES. reflexivity.
Qed.

Lemma stitch_from_spec chains rs i : i < n ->
  stitching path slices select eps chains rs -> NoDup (concat chains) -> (forall j, In j (concat chains) -> j < n) ->
  (forall j, j < i -> In j (concat chains)) ->
  exists chains' rs', stitch_from slices idx p1 p2 select eps (flags (concat chains), rs) i = Ret (flags (concat chains'), rs')
  /\ stitching path slices select eps chains' rs' /\ NoDup (concat chains') /\ (forall j, In j (concat chains') -> j < n)
  /\ (forall j, j < S i -> In j (concat chains')).
Proof.
  intros LI ST ND LT ALL. unfold stitch_from. unfold index at 1. rewrite flags_nth by exact LI. cbn [rbind].
  destruct (nat_in i (concat chains)) eqn:U.
  - exists chains, rs. split; [reflexivity|]. split; [exact ST|]. split; [exact ND|]. split; [exact LT|].
    intros j Hj. destruct (Nat.eq_dec j i) as [->|NE]; [apply nat_in_spec; exact U|apply ALL; lia].
  - assert (NI : ~ In i (concat chains)) by (intros X; apply nat_in_spec in X; congruence).
    rewrite flags_set by exact LI. cbn [rbind].
    destruct (nth_error slices i) as [s|] eqn:ES; [|apply nth_error_None in ES; lia].
    unfold index. rewrite ES. cbn [rbind]. destruct (VIEW s) as (l & EV & P); [eapply nth_error_In; exact ES|].
    rewrite EV. cbn [rbind]. destruct (create_glue eps l) as (runs & R & ->). cbn [rbind].
    destruct (stitch_loop_spec (n + 2) (concat chains) i [] i (flat_map run_rep runs) [s]) as (c & K & out & E & S & F & ND' & LT' & HI).
    + cbn [app length]. lia.
    + cbn [app]. apply nodup_snoc; assumption.
    + cbn [app]. intros j Hj. apply in_app_or in Hj as [Hj|[<-|[]]]; auto.
    + left. reflexivity.
    + cbn [app]. eapply stitched_one; eauto.
    + cbn [app map]. rewrite ES. reflexivity.
    + cbn [app length] in E. rewrite E. cbn [rbind fst snd].
      exists (chains ++ [c]), (rs ++ out). rewrite concat_app. cbn [concat]. rewrite app_nil_r.
      split; [reflexivity|]. split; [eapply stitching_more; eauto|]. split; [exact ND'|]. split; [exact LT'|].
      intros j Hj. apply in_or_app. destruct (Nat.eq_dec j i) as [->|NE]; [auto|left; apply ALL; lia].
Qed.

Lemma stitch_all_spec : exists chains rs,
  rfold (stitch_from slices idx p1 p2 select eps) (seq 0 n) (repeat false n, []) = Ret (flags (concat chains), rs)
  /\ stitching path slices select eps chains rs /\ Permutation (concat chains) (seq 0 n).
Proof.
  assert (G : forall m, m <= n -> exists chains rs,
    rfold (stitch_from slices idx p1 p2 select eps) (seq 0 m) (repeat false n, []) = Ret (flags (concat chains), rs)
    /\ stitching path slices select eps chains rs /\ NoDup (concat chains) /\ (forall j, In j (concat chains) -> j < n)
    /\ (forall j, j < m -> In j (concat chains))).
  { induction m as [|m IH]; intros Hm.
    - exists [], []. cbn [seq rfold concat]. rewrite flags_nil. split; [reflexivity|]. split; [constructor|].
      split; [constructor|]. split; [intros j []|intros j Hj; lia].
    - destruct IH as (chains & rs & E & ST & ND & LT & ALL); [lia|].
      destruct (stitch_from_spec chains rs m) as (chains' & rs' & E' & X); auto.
      exists chains', rs'. split; [|exact X]. replace (S m) with (m + 1) by lia. rewrite seq_app, rfold_app, E. cbn [rbind seq rfold]. change (0 + m) with m.
      rewrite E'. reflexivity. }
  destruct (G n (Nat.le_refl n)) as (chains & rs & E & S & ND & LT & ALL). exists chains, rs. split; [exact E|]. split; [exact S|].
  apply NoDup_Permutation; [exact ND|apply seq_NoDup|]. intros j. rewrite in_seq. split; [intros H; specialize (LT j H); lia|].
  intros H. apply ALL. lia.
Qed.
End Stitch.
