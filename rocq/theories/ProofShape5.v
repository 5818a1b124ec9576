(** Shapes (C37): stitching the slices and the whole offset. *)
From Coq Require Import List Bool Arith Permutation Sorted Lia.
From Verif Require Import Num Res ModelMath ModelSeg ModelPline ModelView ModelIndex ModelIntersects ModelBoolean ModelOffset ModelShape.
From Verif Require Import Spec SpecPline SpecView SpecIndex SpecStitch SpecIntersects SpecChain SpecShape.
From Verif Require Import ProofBase ProofRepeat ProofIter ProofView ProofIndex2 ProofFind ProofJoin ProofPrune ProofStitch ProofOffset2 ProofOffsetTotal ProofChain ProofShape ProofShape2 ProofShape3 ProofShape4.
Import ListNotations.

Section StitchShape.
Context {T : Type} {N : Num T} (mk : list (aabb T) -> sindex T).
Hypothesis MK : makes_index mk.
Context (dl : list (offset_loop T)) (ps : list (pline T)) (sn : list (nat * view_data T)) (o : shape_options T) (idx : sindex T).
Definition mkds (x : nat * view_data T) : dissected_slice T := DS (fst x) (snd x).
Local Notation slices := (map mkds sn).
Local Notation n := (length sn).
Local Notation eps := (so_pos_equal_eps o).
Local Notation join := (so_slice_join_eps o).
Hypothesis IDX : index_of (map (fun q => aabb_grow (point_box q) join) (map (fun s => pos (vd_updated_start (snd s))) sn)) idx.
Hypothesis FITS : forall k d, In (k, d) sn -> exists l, nth_error dl k = Some l /\ nth_error ps k = Some (ip_pline (ol_pline l)) /\ view_fits (ip_pline (ol_pline l)) d.
Local Notation path := (loop_path ps sn).
Local Notation next := (next_at (map snd sn) join).
Local Notation choice := (prefer_loop sn).
Local Notation chained := (chained path next choice false eps).
Local Notation candidates := (candidates next).

Lemma loop_path_nonempty i l : path i l -> l <> [].
Proof. intros (k & d & p & _ & _ & ->). unfold view_path_of, spec_view. destruct (rebulge_last _ _); discriminate. Qed.

Lemma slice_candidates used cur k d avail : nth_error sn cur = Some (k, d) -> NoDup avail ->
  (forall i, In i avail <-> ((exists r, nth_error (map (fun s => pos (vd_updated_start (snd s))) sn) i = Some r /\ reaches join (vd_end_point d) r = true) /\ ~ In i used)) ->
  candidates used cur avail.
Proof.
  intros E ND H. split; [exact ND|]. intros i. rewrite H. split; intros (A & B); (split; [|exact B]).
  - destruct A as (r & ER & R). rewrite nth_error_map in ER. destruct (nth_error sn i) as [b|] eqn:EB; [|discriminate]. cbn in ER. injection ER as <-.
    exists d, (snd b). rewrite !nth_error_map, E, EB. auto.
  - destruct A as (a & b & EA & EB & R). rewrite nth_error_map, E in EA. injection EA as <-. rewrite nth_error_map in EB. destruct (nth_error sn i) as [b'|] eqn:EB'; [|discriminate].
    injection EB as <-. exists (pos (vd_updated_start (snd b'))). rewrite nth_error_map, EB'. auto.
Qed.

Lemma finish_shape_spec K v : exists ip, finish_shape_pline mk (PL (K ++ [v]) false) = Ret (loop_ccw (joined (K ++ [v])), ip)
  /\ ip_pline ip = joined (K ++ [v]) /\ has_index ip.
Proof.
  unfold finish_shape_pline, joined, vertex_count. cbn [vtx]. 
  assert (E : (if 2 <? length (K ++ [v]) then let! r := remove_last (PL (K ++ [v]) false) in Ret (set_is_closed (snd r) true) else Ret (PL (K ++ [v]) false))
    = Ret (if 2 <? length (K ++ [v]) then PL (removelast (K ++ [v])) true else PL (K ++ [v]) false)).
  { destruct (2 <? length (K ++ [v])); [|reflexivity]. rewrite remove_last_snoc, removelast_last. reflexivity. }
  rewrite E. cbn [rbind]. set (q := if 2 <? length (K ++ [v]) then _ else _). destruct (orientation_ccw q) as (r & -> & ER). cbn [rbind].
  destruct (indexed_new_ok mk MK q) as (ip & -> & EP & I). cbn [rbind]. exists ip. rewrite ER. auto.
Qed.

Lemma shape_loop_spec fuel : forall used first c cur K0,
  n < fuel + length (c ++ [cur]) -> NoDup (used ++ c ++ [cur]) -> (forall i, In i (used ++ c ++ [cur]) -> i < n) ->
  In first (c ++ [cur]) -> no_repeat (close_by eps) K0 ->
  (forall l rs, path cur l -> is_runs (close_by eps) (K0 ++ l) rs -> chained used first (c ++ [cur]) (flat_map run_rep rs)) ->
  exists c' cur' K ip, stitch_shape_loop mk fuel dl slices idx o cur (length c) (cflags n (used ++ c ++ [cur])) (PL K0 false)
                    = Ret (cflags n (used ++ c' ++ [cur']), (loop_ccw (joined K), ip))
  /\ ip_pline ip = joined K /\ has_index ip
  /\ chained used first (c' ++ [cur']) K /\ candidates (used ++ c' ++ [cur']) cur' []
  /\ NoDup (used ++ c' ++ [cur']) /\ (forall i, In i (used ++ c' ++ [cur']) -> i < n) /\ In first (c' ++ [cur']).
Proof.
  induction fuel as [|fuel IH]; intros used first c cur K0 HF ND LT HI NR INV; pose proof (used_count n _ _ ND LT) as LC.
  - exfalso. lia.
  - cbn [stitch_shape_loop]. assert (LC' := LC). rewrite app_length in LC'. cbn [length] in LC'. rewrite map_length.
    destruct (Nat.ltb_spec n (length c)) as [L|_]; [lia|].
    assert (LCUR : cur < n) by (apply LT; rewrite !in_app_iff; right; right; left; reflexivity).
    destruct (nth_error sn cur) as [[k d]|] eqn:ED; [|apply nth_error_None in ED; lia].
    unfold index at 1. rewrite nth_error_map, ED. cbn [option_map mkds fst snd rbind ds_source ds_view].
    destruct (FITS k d (nth_error_In _ _ ED)) as (l & EL & EPS & FD). unfold index at 1. rewrite EL. cbn [rbind].
    rewrite (view_pline_path _ d FD). cbn [rbind].
    destruct (extend_glue eps K0 (view_path_of (ip_pline (ol_pline l)) d) false false NR) as (rs & R & ->).
    assert (CH : chained used first (c ++ [cur]) (flat_map run_rep rs)) by (eapply INV; [exists k, d, (ip_pline (ol_pline l)); auto|exact R]).
    destruct (chained_ends path next choice false eps loop_path_nonempty used first _ _ CH) as ((K & v & EK) & NRK). rewrite EK in *.
    destruct (cands_spec n (map (fun s => pos (vd_updated_start (snd s))) sn) join idx (map_length _ _) IDX (used ++ c ++ [cur]) (vd_end_point d)) as (avail & -> & NDA & AV).
    cbn [rbind]. pose proof (slice_candidates _ _ _ _ _ ED NDA AV) as CA.
    assert (LTA : forall i, In i avail -> i < n).
    { intros i I. apply CA in I as ((a & b & _ & EB & _) & _). rewrite nth_error_map in EB. apply nth_error_Some. destruct (nth_error sn i); [discriminate|discriminate EB]. }
    destruct avail as [|a0 avail0].
    { destruct (finish_shape_spec K v) as (ip & -> & EP & I). cbn [rbind]. exists c, cur, (K ++ [v]), ip.
      split; [reflexivity|]. split; [exact EP|]. split; [exact I|]. split; [exact CH|]. split; [exact CA|]. auto. }
    set (same := fun i => match nth_error (map mkds sn) i with Some s2 => ds_source s2 =? k | None => false end).
    set (b := match find same (a0 :: avail0) with Some i => i | None => a0 end).
    assert (SAME : forall i, same i = true <-> same_loop sn cur i).
    { intros i. unfold same, same_loop. rewrite nth_error_map. destruct (nth_error sn i) as [[k' d']|] eqn:Ei; cbn [option_map mkds fst snd ds_source].
      - rewrite Nat.eqb_eq. split.
        + intros ->. exists (k, d), (k, d'). auto.
        + intros (x & y & X & Y & Z). rewrite ED in X. injection X as <-. injection Y as <-. symmetry. exact Z.
      - split; [discriminate|]. intros (x & y & _ & Y & _). discriminate. }
    assert (NB : prefer_loop sn first cur (a0 :: avail0) b).
    { unfold b. destruct (find same (a0 :: avail0)) as [j|] eqn:EF.
      - apply find_some in EF as (EF1 & EF2). split; [exact EF1|]. intros i _ _. apply SAME. exact EF2.
      - split; [left; reflexivity|]. intros i Hi S. apply SAME in S. pose proof (find_none _ _ EF i Hi). congruence. }
    clearbody b. set (avail := a0 :: avail0) in *. clearbody avail.
    assert (IB : In b avail) by apply NB. assert (LB := LTA b IB). rewrite cflags_set by exact LB. cbn [rbind].
    assert (NIB : ~ In b (used ++ c ++ [cur])) by (apply CA; exact IB).
    replace (length c + 1) with (length (c ++ [cur])) by (rewrite app_length; reflexivity).
    replace ((used ++ c ++ [cur]) ++ [b]) with (used ++ (c ++ [cur]) ++ [b]) by now rewrite !app_assoc.
    apply IH; auto.
    + rewrite !app_length in *. cbn [length] in *. lia.
    + replace (used ++ (c ++ [cur]) ++ [b]) with ((used ++ c ++ [cur]) ++ [b]) by now rewrite !app_assoc. apply nodup_snoc; assumption.
    + replace (used ++ (c ++ [cur]) ++ [b]) with ((used ++ c ++ [cur]) ++ [b]) by now rewrite !app_assoc.
      intros i Hi. apply in_app_or in Hi as [Hi|[<-|[]]]; auto.
    + apply in_or_app. auto.
    + intros l' rs' P R'. eapply (chained_more path next choice false); eauto.
Qed.

Local Notation all_chained := (all_chained path next choice false eps).
Context (ccw0 cw0 : list (indexed_pline T)).
Definition is_ccw (ip : indexed_pline T) : bool := loop_ccw (ip_pline ip).
Definition results (Ks : list (list (vertex T))) (ips : list (indexed_pline T)) : Prop := map ip_pline ips = map joined Ks /\ Forall has_index ips.

Lemma shape_from_spec chains Ks ips i : i < n ->
  all_chained chains Ks -> NoDup (concat chains) -> (forall j, In j (concat chains) -> j < n) ->
  (forall j, j < i -> In j (concat chains)) -> results Ks ips ->
  exists chains' Ks' ips', stitch_shape_from mk dl slices idx o (cflags n (concat chains), (ccw0 ++ filter is_ccw ips, cw0 ++ filter (fun x => negb (is_ccw x)) ips)) i
    = Ret (cflags n (concat chains'), (ccw0 ++ filter is_ccw ips', cw0 ++ filter (fun x => negb (is_ccw x)) ips'))
  /\ all_chained chains' Ks' /\ NoDup (concat chains') /\ (forall j, In j (concat chains') -> j < n)
  /\ (forall j, j < S i -> In j (concat chains')) /\ results Ks' ips'.
Proof.
  intros LI ST ND LT ALL (RM & RH). unfold stitch_shape_from. unfold index at 1. rewrite cflags_nth by exact LI. cbn [rbind].
  destruct (nat_in i (concat chains)) eqn:U.
  - exists chains, Ks, ips. split; [reflexivity|]. split; [exact ST|]. split; [exact ND|]. split; [exact LT|]. split; [|split; assumption].
    intros j Hj. destruct (Nat.eq_dec j i) as [->|NE]; [apply nat_in_spec; exact U|apply ALL; lia].
  - assert (NI : ~ In i (concat chains)) by (intros X; apply nat_in_spec in X; congruence).
    rewrite cflags_set by exact LI. cbn [rbind]. rewrite map_length.
    destruct (shape_loop_spec (n + 2) (concat chains) i [] i []) as (c & cur & K & ip & E & EP & I & S & F & ND' & LT' & HI); auto.
    + cbn [app length]. lia.
    + cbn [app]. apply nodup_snoc; assumption.
    + cbn [app]. intros j Hj. apply in_app_or in Hj as [Hj|[<-|[]]]; auto.
    + left. reflexivity.
    + intros [|k] a b X; discriminate.
    + cbn [app]. intros l rs P R. now apply (chained_one path next choice false eps _ _ l).
    + cbn [app length] in E. unfold empty_pline. rewrite E. cbn [rbind fst snd].
      exists (chains ++ [c ++ [cur]]), (Ks ++ [K]), (ips ++ [ip]). rewrite concat_app, !filter_app. cbn [concat filter]. rewrite !app_nil_r.
      split; [|split; [eapply all_chained_more; eauto|split; [exact ND'|split; [exact LT'|split]]]].
      * assert (EI : is_ccw ip = loop_ccw (joined K)) by (unfold is_ccw; now rewrite EP). rewrite EI. destruct (loop_ccw (joined K)); cbn [negb]; rewrite ?app_nil_r, ?app_assoc; reflexivity.
      * intros j Hj. apply in_or_app. destruct (Nat.eq_dec j i) as [->|NE]; [auto|left; apply ALL; lia].
      * split; [rewrite !map_app, RM; cbn [map]; rewrite EP; reflexivity|]. apply Forall_app. split; [exact RH|]. constructor; [exact I|constructor].
Qed.

Lemma shape_stitch_spec : exists chains Ks ips,
  rfold (stitch_shape_from mk dl slices idx o) (seq 0 n) (repeat false n, (ccw0, cw0))
    = Ret (cflags n (concat chains), (ccw0 ++ filter is_ccw ips, cw0 ++ filter (fun x => negb (is_ccw x)) ips))
  /\ all_chained chains Ks /\ Permutation (concat chains) (seq 0 n) /\ results Ks ips.
Proof.
  assert (G : forall m, m <= n -> exists chains Ks ips,
    rfold (stitch_shape_from mk dl slices idx o) (seq 0 m) (repeat false n, (ccw0, cw0))
      = Ret (cflags n (concat chains), (ccw0 ++ filter is_ccw ips, cw0 ++ filter (fun x => negb (is_ccw x)) ips))
    /\ all_chained chains Ks /\ NoDup (concat chains) /\ (forall j, In j (concat chains) -> j < n)
    /\ (forall j, j < m -> In j (concat chains)) /\ results Ks ips).
  { induction m as [|m IH]; intros Hm.
    - exists [], [], []. cbn [seq rfold concat filter]. rewrite cflags_nil, !app_nil_r. split; [reflexivity|]. split; [constructor|].
      split; [constructor|]. split; [intros j []|]. split; [intros j Hj; lia|]. split; [reflexivity|constructor].
    - destruct IH as (chains & rs & ips & E & ST & ND & LT & ALL & RS); [lia|].
      destruct (shape_from_spec chains rs ips m) as (chains' & rs' & ips' & E' & X); auto.
      exists chains', rs', ips'. split; [|exact X]. replace (S m) with (m + 1) by lia. rewrite seq_app, rfold_app, E. cbn [rbind seq rfold]. change (0 + m) with m.
      rewrite E'. reflexivity. }
  destruct (G n (Nat.le_refl n)) as (chains & rs & ips & E & S & ND & LT & ALL & RS). exists chains, rs, ips. split; [exact E|]. split; [exact S|]. split; [|exact RS].
  apply NoDup_Permutation; [exact ND|apply seq_NoDup|]. intros j. rewrite in_seq. split; [intros H; specialize (LT j H); lia|].
  intros H. apply ALL. lia.
Qed.
End StitchShape.

Section DissectAll.
Context {T : Type} {N : Num T} (mk : list (aabb T) -> sindex T) (s : shape T) (offset : T) (o : shape_options T).
Hypothesis SOK : Forall has_index (sh_ccw s ++ sh_cw s).
Context (loops : list (offset_loop T)) (idx : sindex T) (boxes : list (aabb T)) (ccw_count : nat) (lookup : list (nat * list nat)).
Local Notation n := (length loops).
Hypothesis BOX : Forall2 (fun ip b => index_bounds (ip_index ip) = Some b) (map ol_pline loops) boxes.
Hypothesis IDX : index_of boxes idx.
Hypothesis OK : Forall (fun l => loop_ok (ol_pline l)) loops.
Hypothesis CCW : forall i l, nth_error loops i = Some l -> (i <? ccw_count) = negb (negative (ip_pline (ol_pline l))).
Local Notation M := (meet loops boxes o).
Local Notation sets := (all_sets loops idx boxes o).
Hypothesis LK : lookup_of sets lookup.
Definition kept_ips (rs : list (bool * list (view_data T))) (g : pline T -> bool) : list (indexed_pline T) :=
  map (fun x => ol_pline (fst x)) (filter (fun x => fst (snd x) && g (ip_pline (ol_pline (fst x)))) (combine loops rs)).

Lemma has_indexes : Forall (fun l => has_index (ol_pline l)) loops.
Proof. eapply Forall_impl; [|exact OK]. intros l (H & _). exact H. Qed.

Lemma combine_snoc {A B} (l : list A) (m : list B) a b : nth_error l (length m) = Some a -> combine l (m ++ [b]) = combine l m ++ [(a, b)].
Proof.
  revert l. induction m as [|x m IH]; intros [|y l] H; try discriminate.
  - cbn in H. injection H as ->. cbn. destruct l; reflexivity.
  - cbn [app combine]. f_equal. apply IH. exact H.
Qed.

Lemma dissect_all_spec : exists rs dl,
  rfold (dissect_loop mk s offset o ccw_count sets lookup) (seq 0 n) (DSt loops [] [] [])
    = Ret (DSt dl (map mkds (numbered (map snd rs))) (kept_ips rs (fun p => negb (negative p))) (kept_ips rs negative))
  /\ length rs = n
  /\ (forall i l r, nth_error loops i = Some l -> nth_error rs i = Some r -> loop_result (sh_ccw s ++ sh_cw s) offset o (cuts_of M n i) (oview l) r)
  /\ (forall i, (forall r, nth_error rs i = Some r -> fst r = false) -> nth_error dl i = nth_error loops i).
Proof.
  assert (G : forall k, k <= n -> exists rs dl,
    rfold (dissect_loop mk s offset o ccw_count sets lookup) (seq 0 k) (DSt loops [] [] [])
      = Ret (DSt dl (map mkds (numbered (map snd rs))) (kept_ips rs (fun p => negb (negative p))) (kept_ips rs negative))
    /\ length rs = k
    /\ (forall i l r, nth_error loops i = Some l -> nth_error rs i = Some r -> loop_result (sh_ccw s ++ sh_cw s) offset o (cuts_of M n i) (oview l) r)
    /\ (forall i, (forall r, nth_error rs i = Some r -> fst r = false) -> nth_error dl i = nth_error loops i)).
  { induction k as [|k IH]; intros L.
    - exists [], loops. split; [|split; [reflexivity|split; [|reflexivity]]].
      + cbn [seq rfold map]. unfold kept_ips. rewrite combine_nil. reflexivity.
      + intros [|i] l r _ X; discriminate.
    - destruct IH as (rs & dl & E & LR & RES & DL); [lia|].
      destruct (nth_error loops k) as [l|] eqn:El; [|apply nth_error_None in El; lia].
      assert (NR : nth_error rs k = None) by (apply nth_error_None; lia).
      rewrite seq_S, rfold_app, E. cbn [rbind rfold Nat.add].
      destruct (points_spec loops idx boxes o BOX IDX k L) as (cuts & PM & PT).
      assert (LO : loop_ok (ol_pline l)) by (rewrite Forall_forall in OK; apply OK; eapply nth_error_In; exact El).
      destruct (dissect_spec mk s offset o SOK k l ccw_count sets lookup (positions k sets) cuts (cuts_of M n k)) with
        (st := DSt dl (map mkds (numbered (map snd rs))) (kept_ips rs (fun p => negb (negative p))) (kept_ips rs negative)) as (r & R & ER).
      + rewrite (proj2 LK k). destruct (positions k sets); reflexivity.
      + apply (positions_nil loops idx boxes o BOX IDX k L).
      + exact PT.
      + exact PM.
      + intros c Hc. apply (cuts_indexes loops boxes o has_indexes k l c El Hc).
      + apply LO.
      + cbn [dst_loops]. rewrite DL; [exact El|]. rewrite NR. discriminate.
      + rewrite ER. cbn [rbind dst_loops dst_slices dst_ccw dst_cw]. exists (rs ++ [r]). eexists. split; [|split; [|split]].
        * f_equal. f_equal.
          -- rewrite map_app. cbn [map]. change (@numbered ?A) with (@numbered_from A 0). rewrite numbered_from_app, map_length, LR. cbn [Nat.add].
             rewrite map_app. f_equal. rewrite numbered_from_cons. cbn. rewrite app_nil_r, map_map. reflexivity.
          -- unfold kept_ips. rewrite (combine_snoc _ _ l) by (rewrite LR; exact El). rewrite filter_app, map_app. cbn [filter fst snd].
             rewrite (CCW k l El). destruct (fst r && negb (negative (ip_pline (ol_pline l)))); [reflexivity|]. cbn [map]. now rewrite app_nil_r.
          -- unfold kept_ips. rewrite (combine_snoc _ _ l) by (rewrite LR; exact El). rewrite filter_app, map_app. cbn [filter fst snd].
             rewrite (CCW k l El), negb_involutive. destruct (fst r && negative (ip_pline (ol_pline l))); [reflexivity|]. cbn [map]. now rewrite app_nil_r.
        * rewrite app_length, LR. cbn [length]. lia.
        * intros i l' r' Hl Hr. destruct (Nat.lt_ge_cases i k) as [Li|Li].
          -- rewrite nth_error_app1 in Hr by lia. eapply RES; eassumption.
          -- assert (i = k). { assert (i < length (rs ++ [r])) by (apply nth_error_Some; congruence). rewrite app_length in *. cbn [length] in *. lia. }
             subst i. rewrite nth_error_app2 in Hr by lia. rewrite LR, Nat.sub_diag in Hr. injection Hr as <-. rewrite El in Hl. injection Hl as <-. exact R.
        * intros i Hi. destruct (Nat.eq_dec i k) as [->|NE].
          -- specialize (Hi r). rewrite nth_error_app2 in Hi by lia. rewrite LR, Nat.sub_diag in Hi. rewrite (Hi eq_refl). apply DL. rewrite NR. discriminate.
          -- assert (X : nth_error dl i = nth_error loops i).
             { apply DL. intros r' Hr. apply Hi. rewrite nth_error_app1; [exact Hr|]. apply nth_error_Some. congruence. }
             destruct (fst r); [|exact X]. rewrite list_set_nth. destruct (Nat.eqb_spec k i); [congruence|]. exact X. }
  destruct (G n (le_n _)) as (rs & dl & H). exists rs, dl. exact H.
Qed.

(** The slices are of loops with cuts, and fit them. *)
Lemma sliced_fits eps (p : pline T) test cuts ds d : 2 <= vertex_count p -> (forall c, In c cuts -> fst c < vertex_count p) -> sliced eps p test cuts ds -> In d ds -> view_fits p d.
Proof.
  intros L LT S I. assert (K : forall l m, SpecShape.kept test l m -> In d m -> In (Some d) l).
  { induction 1 as [|l' ds' K' IH'|d' l' ds' T' K' IH'|d' l' ds' T' K' IH']; intros H; [destruct H|right; auto|destruct H as [<-|H]; [left; reflexivity|right; auto]|right; auto]. }
  destruct S as [c d0 ds EC ED KE|order a b t vos ds P EO S1 S2 F KE].
  - apply (K _ _ KE) in I. destruct I as [I|[]]. injection I as <-. apply (entire_shape p d0 ED).
  - apply (K _ _ KE) in I. assert (FF : Forall (fun xy => fst (fst xy) < vertex_count p /\ fst (snd xy) < vertex_count p) (combine order (b :: t ++ [a]))).
    { apply Forall_forall. intros (x, y) H. cbn [fst snd]. split; apply LT; apply (Permutation_in _ P).
      - eapply in_combine_l; exact H.
      - apply in_combine_r in H. subst order. change (b :: t ++ [a]) with ((b :: t) ++ [a]) in H. apply in_app_or in H as [H|[<-|[]]]; [right; exact H|left; reflexivity]. }
    clear - I F FF. induction F as [|x vo l vos' E F IH]; [destruct I|]. inversion FF as [|? ? (L1 & L2) FF']; subst. destruct I as [->|I]; [|auto].
    apply (slice_points_shape p _ _ _ _ _ d L1 L2 E).
Qed.
End DissectAll.
