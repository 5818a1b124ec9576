(** Shapes (C37): cutting the offset loops into slices. *)
From Coq Require Import List Bool Arith Permutation Sorted Lia.
From Verif Require Import Num Res ModelMath ModelSeg ModelPline ModelView ModelIndex ModelIntersects ModelBoolean ModelOffset ModelShape.
From Verif Require Import Spec SpecPline SpecView SpecIndex SpecIntersects SpecChain SpecShape.
From Verif Require Import ProofBase ProofIter ProofView ProofIndex2 ProofFind ProofJoin ProofPrune ProofOffset2 ProofOffsetTotal ProofShape ProofShape2 ProofShape3.
Import ListNotations.

Lemma isort_sorted {A} (leb : A -> A -> bool) (R : A -> A -> Prop) l :
  (forall a b, In a l -> In b l -> leb a b = true -> R a b) -> (forall a b, In a l -> In b l -> leb a b = false -> R b a) -> Sorted R (isort leb l).
Proof.
  induction l as [|a l IH]; intros T F; [constructor|]. cbn [isort].
  assert (S : Sorted R (isort leb l)) by (apply IH; intros x y Hx Hy; [apply T|apply F]; right; assumption).
  assert (I : forall x, In x (isort leb l) -> In x l) by (intros x; apply Permutation_in, Permutation_sym, isort_perm).
  assert (T' : forall x, In x (isort leb l) -> leb a x = true -> R a x) by (intros x Hx; apply T; [left; reflexivity|right; apply I, Hx]).
  assert (F' : forall x, In x (isort leb l) -> leb a x = false -> R x a) by (intros x Hx; apply F; [left; reflexivity|right; apply I, Hx]).
  clear I IH. induction (isort leb l) as [|b m IHm]; [repeat constructor|]. cbn [insert_sorted]. destruct (leb a b) eqn:E.
  - constructor; [exact S|]. constructor. apply T'; [left; reflexivity|exact E].
  - inversion S as [|? ? S' H]; subst. constructor.
    + apply IHm; auto; intros x Hx; [apply T'|apply F']; right; assumption.
    + destruct m as [|c m]; cbn [insert_sorted]; [constructor; apply F'; [left; reflexivity|exact E]|].
      inversion H; subst. destruct (leb a c); constructor; [apply F'; [left; reflexivity|exact E]|assumption].
Qed.

Lemma windows_closed {A} (y : A) : forall l (x z : A), nth_error (x :: l) (length l) = Some z ->
  windows2 (x :: l) ++ [(z, y)] = combine (x :: l) (l ++ [y]).
Proof.
  induction l as [|w l IH]; intros x z H; [cbn in H; injection H as ->; reflexivity|].
  change (windows2 (x :: w :: l)) with ((x, w) :: windows2 (w :: l)). cbn [app combine]. f_equal. apply IH. exact H.
Qed.

Lemma sorted_map {A B} (f : A -> B) (R : B -> B -> Prop) l : Sorted (fun x y => R (f x) (f y)) l -> Sorted R (map f l).
Proof.
  induction 1 as [|a l S IH H]; [constructor|]. cbn [map]. constructor; [exact IH|]. destruct H; constructor. assumption.
Qed.

Lemma combine_map2 {A B} (f : A -> B) l m : combine (map f l) (map f m) = map (fun x => (f (fst x), f (snd x))) (combine l m).
Proof. revert m. induction l as [|a l IH]; intros [|b m]; [reflexivity..|]. cbn [map combine]. now rewrite IH. Qed.

Local Notation kept := SpecShape.kept.

Section Dissect.
Context {T : Type} {N : Num T} (mk : list (aabb T) -> sindex T) (s : shape T) (offset : T) (o : shape_options T).
Local Notation inputs := (sh_ccw s ++ sh_cw s).
Local Notation eps := (so_pos_equal_eps o).
Hypothesis SOK : Forall has_index inputs.

(** ** The test of a slice *)

Lemma far_spec pt : forall (ips : list (indexed_pline T)) i parent, Forall has_index ips ->
  exists b, far_from_inputs ips i parent offset o pt = Ret b
  /\ (b = true <-> forall k ip, nth_error ips k = Some ip -> i + k <> parent ->
        point_valid_for_offset (ip_pline ip) offset (ip_index ip) pt (so_pos_equal_eps o) (so_offset_dist_eps o) = Ret true).
Proof.
  intros ips. induction ips as [|ip ips IH]; intros i parent F.
  - exists true. split; [reflexivity|]. split; [|reflexivity]. intros _ [|k] x; discriminate.
  - inversion F as [|? ? Hip F']; subst. cbn [far_from_inputs]. destruct (IH (i + 1) parent F') as (b & E & EB).
    destruct (Nat.eqb_spec i parent) as [->|NE].
    + exists b. split; [exact E|]. rewrite EB. split; intros H k x Hk NP.
      * destruct k as [|k]; [lia|]. apply (H k); [exact Hk|lia].
      * apply (H (S k)); [exact Hk|lia].
    + destruct (point_valid_total (ip_pline ip) (ip_index ip) offset) with (pt := pt) (eps := so_pos_equal_eps o) (tol := so_offset_dist_eps o) as (v & EV).
      { intros q j. apply (idx_hits (ip_pline ip) (ip_index ip) _ Hip). apply map_length. }
      rewrite EV. unfold rand. cbn [rbind]. destruct v.
      * exists b. split; [exact E|]. rewrite EB. split; intros H k x Hk NP.
        -- destruct k as [|k]; [injection Hk as <-; exact EV|]. apply (H k); [exact Hk|lia].
        -- apply (H (S k)); [exact Hk|lia].
      * exists false. split; [reflexivity|]. split; [discriminate|]. intros H. specialize (H 0 ip eq_refl). rewrite Nat.add_0_r in H. specialize (H NE). congruence.
Qed.

Lemma valid_spec d p parent : slice_shape p d -> exists b, is_slice_valid s offset o d p parent = Ret b /\ passes inputs offset o p parent d b.
Proof.
  intros (H1 & H2 & H3). destruct (view_forward_spec d p H1 H2 H3) as (G & _ & L). unfold is_slice_valid. rewrite !G. cbn [rbind].
  change (fwd_list d p) with (view_path_of p d) in *. destruct (view_path_of p d) as [|v0 [|v1 t]] eqn:E; cbn in L; try lia. cbn [nth_error unwrap rbind].
  destruct (far_spec (seg_midpoint v0 v1) inputs 0 parent SOK) as (b & EF & EB). exists b. split; [exact EF|].
  exists v0, v1, t. split; [exact E|exact EB].
Qed.

(** ** One loop *)
Lemma entire_total (p : pline T) : 2 <= vertex_count p -> exists d, view_from_entire_pline p = Ret d.
Proof.
  intros H. unfold view_from_entire_pline. destruct (Nat.ltb_spec (vertex_count p) 2); [lia|].
  destruct (at_lt p 0) as (v0 & _ & ->); [lia|]. cbn [rbind]. destruct (is_closed p).
  - unfold last_. rewrite usub_ok by lia. cbn [rbind]. unfold get. destruct (nth_error (vtx p) (vertex_count p - 1)) as [w|] eqn:E; [cbn [unwrap rbind]; eauto|].
    apply nth_error_None in E. unfold vertex_count in *. lia.
  - destruct (at_lt p (vertex_count p - 2)) as (w & _ & ->); [lia|].
    destruct (at_lt p (vertex_count p - 1)) as (l & _ & ->); [lia|]. cbn [rbind]. eauto.
Qed.

Lemma kept_app (test : view_data T -> bool -> Prop) l1 ds1 l2 ds2 : kept test l1 ds1 -> kept test l2 ds2 -> kept test (l1 ++ l2) (ds1 ++ ds2).
Proof.
  intros K1 K2. induction K1; cbn [app]; [exact K2|apply kept_none; exact IHK1|apply kept_yes; assumption|apply kept_no; assumption].
Qed.

Section OneLoop.
Context (i : nat) (l : offset_loop T).
Local Notation p := (ip_pline (ol_pline l)).
Local Notation test := (passes inputs offset o p (ol_parent l)).

Lemma between_spec ab : dp_seg (fst ab) < vertex_count p -> dp_seg (snd ab) < vertex_count p ->
  exists vo ds, view_from_slice_points p (dp_pos (fst ab)) (dp_seg (fst ab)) (dp_pos (snd ab)) (dp_seg (snd ab)) eps = Ret vo
  /\ slice_between s offset o l i ab = Ret (map (DS i) ds) /\ kept test [vo] ds.
Proof.
  intros H1 H2. destruct (slice_points_total p (dp_pos (fst ab)) _ (dp_pos (snd ab)) _ eps H1 H2) as (vo & E & F).
  unfold slice_between. cbv zeta. rewrite E. cbn [rbind]. destruct vo as [d|].
  - destruct (F d eq_refl) as (SH & _). destruct (valid_spec d p (ol_parent l) SH) as (b & -> & P). cbn [rbind].
    exists (Some d), (if b then [d] else []). split; [reflexivity|]. split; [destruct b; reflexivity|].
    destruct b; [apply kept_yes|apply kept_no]; auto; constructor.
  - exists None, []. split; [reflexivity|]. split; [reflexivity|]. apply kept_none. constructor.
Qed.

Lemma betweens_spec abs : Forall (fun ab => dp_seg (fst ab) < vertex_count p /\ dp_seg (snd ab) < vertex_count p) abs ->
  exists vos ds rs, rmapM (slice_between s offset o l i) abs = Ret rs /\ concat rs = map (DS i) ds
  /\ Forall2 (fun ab vo => view_from_slice_points p (dp_pos (fst ab)) (dp_seg (fst ab)) (dp_pos (snd ab)) (dp_seg (snd ab)) eps = Ret vo) abs vos
  /\ kept test vos ds.
Proof.
  induction 1 as [|ab abs (H1 & H2) F IH].
  - exists [], [], []. split; [reflexivity|]. split; [reflexivity|]. split; constructor.
  - destruct IH as (vos & ds & rs & E & EC & F2 & K). destruct (between_spec ab H1 H2) as (vo & ds1 & EV & ES & K1).
    exists (vo :: vos), (ds1 ++ ds), (map (DS i) ds1 :: rs). cbn [rmapM]. rewrite ES. cbn [rbind]. rewrite E. cbn [rbind concat].
    split; [reflexivity|]. split; [rewrite map_app, EC; reflexivity|]. split; [constructor; assumption|]. apply (kept_app test [vo]); assumption.
Qed.

Lemma dissection_sorted (pts : list (dissection_point T)) : 
  Sorted (fun a b => dp_seg a <= dp_seg b) (isort (fun a b => cmp_leb (dissection_cmp p a b)) pts)
  /\ (@comparable T N -> Sorted (fun a b => not_before p (dp_seg a, dp_pos a) (dp_seg b, dp_pos b)) (isort (fun a b => cmp_leb (dissection_cmp p a b)) pts)).
Proof.
  split; [|intros C]; apply isort_sorted; intros a b _ _; unfold dissection_cmp, cmp_then; destruct (Nat.compare_spec (dp_seg a) (dp_seg b)) as [E|L|G]; cbn [cmp_leb]; try lia; try discriminate.
  - intros H. right. cbn [fst snd]. split; [exact E|]. unfold get in H. intros v Hv. rewrite Hv in H. destruct (ntotal_cmp _ _); [discriminate|discriminate|discriminate H].
  - intros _. left. exact L.
  - intros H. right. cbn [fst snd]. split; [symmetry; exact E|]. intros v Hv. unfold get in H. rewrite E, Hv in H. apply C.
    destruct (ntotal_cmp _ _); [discriminate H|discriminate H|reflexivity].
  - intros _. left. exact G.
Qed.

Context (ccw_count : nat) (sets : list (slice_point_set T)) (lookup : list (nat * list nat)) (pos : list nat) (cuts C : list (nat * vec2 T)).
Hypothesis POS : map_get i lookup = match pos with [] => None | m => Some m end.
Hypothesis NIL : pos = [] <-> C = [].
Hypothesis PTS : points_of_loop sets i pos = Ret (map dp_of cuts).
Hypothesis PERM : Permutation cuts C.
Hypothesis LT : forall c, In c C -> fst c < vertex_count p.
Hypothesis TWO : 2 <= vertex_count p.

Lemma dissect_spec st : nth_error (dst_loops st) i = Some l -> exists r, loop_result inputs offset o C (oview l) r
  /\ dissect_loop mk s offset o ccw_count sets lookup st i =
     Ret (DSt (if fst r then list_set (dst_loops st) i (OL 0 (IP empty_pline (mk []))) else dst_loops st)
              (dst_slices st ++ map (DS i) (snd r))
              (if fst r && (i <? ccw_count) then dst_ccw st ++ [ol_pline l] else dst_ccw st)
              (if fst r && negb (i <? ccw_count) then dst_cw st ++ [ol_pline l] else dst_cw st)).
Proof.
  intros EL. unfold dissect_loop. unfold index at 1. rewrite EL. cbn [rbind]. cbv zeta. rewrite POS.
  destruct (entire_total p TWO) as (d & ED). destruct (valid_spec d p (ol_parent l) (entire_shape p d ED)) as (b & EB & PB).
  destruct pos as [|x xs] eqn:EP.
  - rewrite ED. cbn [rbind]. rewrite EB. cbn [rbind]. exists (b, []). rewrite (proj1 NIL eq_refl). split.
    + split; [reflexivity|]. exists d. split; [exact ED|exact PB].
    + cbn [fst snd map]. rewrite app_nil_r. destruct b; cbn [andb]; [destruct (i <? ccw_count); reflexivity|destruct st; reflexivity].
  - rewrite PTS. cbn [rbind]. rewrite <- EP in *. set (srt := isort (fun a b0 => cmp_leb (dissection_cmp p a b0)) (map dp_of cuts)).
    assert (PS : Permutation (map dp_of cuts) srt) by apply isort_perm.
    destruct (dissection_sorted (map dp_of cuts)) as (S1 & S2). fold srt in S1, S2.
    set (un := fun q : dissection_point T => (dp_seg q, dp_pos q)).
    assert (PC : Permutation (map un srt) C).
    { eapply perm_trans; [|exact PERM]. eapply perm_trans; [apply Permutation_map, Permutation_sym; exact PS|]. rewrite map_map. unfold un, dp_of. cbn [dp_seg dp_pos].
      rewrite (map_ext _ (fun x => x)) by (intros (?, ?); reflexivity). rewrite map_id. reflexivity. }
    assert (CN : C <> []) by (intros X; apply NIL in X; rewrite X in EP; discriminate).
    assert (LS : forall q, In q srt -> dp_seg q < vertex_count p).
    { intros q Hq. apply (LT (un q)). eapply Permutation_in; [exact PC|]. apply in_map. exact Hq. }
    clearbody srt.
    assert (GO : exists ds, (if Nat.eqb (length srt) 1 then
        let! d := view_from_entire_pline p in let! ok := is_slice_valid s offset o d p (ol_parent l) in Ret (if ok then [DS i d] else [])
      else let! within := rmapM (slice_between s offset o l i) (windows2 srt) in
        let! pt1 := unwrap (nth_error srt (length srt - 1)) in
        let! pt2 := index srt 0 in
        let! closing := slice_between s offset o l i (pt1, pt2) in Ret (concat within ++ closing)) = Ret (map (DS i) ds)
      /\ sliced eps p test C ds).
    { destruct (Nat.eqb_spec (length srt) 1) as [L1|L1].
      - rewrite ED. cbn [rbind]. rewrite EB. cbn [rbind]. exists (if b then [d] else []). split; [destruct b; reflexivity|].
        destruct srt as [|q [|q' srt']]; try discriminate. cbn [map] in PC. apply Permutation_length_1_inv in PC.
        apply (sliced_whole _ _ _ _ (un q) d); [exact PC|exact ED|]. destruct b; [apply kept_yes|apply kept_no]; auto; constructor.
      - destruct srt as [|q0 [|q1 srt']]; [apply Permutation_nil in PC; congruence|cbn in L1; lia|].
        destruct (nth_error (q0 :: q1 :: srt') (length (q0 :: q1 :: srt') - 1)) as [z|] eqn:EZ; [|apply nth_error_None in EZ; cbn in EZ; lia].
        assert (EW : windows2 (q0 :: q1 :: srt') ++ [(z, q0)] = combine (q0 :: q1 :: srt') ((q1 :: srt') ++ [q0])).
        { apply windows_closed. cbn [length] in EZ |- *. rewrite Nat.sub_1_r in EZ. exact EZ. }
        assert (FA : Forall (fun ab => dp_seg (fst ab) < vertex_count p /\ dp_seg (snd ab) < vertex_count p) (windows2 (q0 :: q1 :: srt') ++ [(z, q0)])).
        { rewrite EW. apply Forall_forall. intros (a, c) H. cbn [fst snd]. split; apply LS.
          - eapply in_combine_l; exact H.
          - apply in_combine_r in H. apply in_app_or in H as [H|[<-|[]]]; [right; exact H|left; reflexivity]. }
        apply Forall_app in FA as (FA1 & FA2). destruct (betweens_spec _ FA1) as (vos1 & ds1 & rs1 & E1 & EC1 & F1 & K1).
        rewrite E1. cbn [rbind unwrap]. unfold index. cbn [nth_error rbind].
        inversion FA2 as [|? ? (Z1 & Z2) _]; subst. destruct (between_spec (z, q0) Z1 Z2) as (vo & ds2 & EV & E2 & K2). rewrite E2. cbn [rbind].
        exists (ds1 ++ ds2). rewrite EC1, map_app. split; [reflexivity|].
        apply (sliced_between _ _ _ _ (map un (q0 :: q1 :: srt')) (un q0) (un q1) (map un srt') (vos1 ++ [vo])); [exact PC|reflexivity| | | |apply kept_app; assumption].
        + apply sorted_map. exact S1.
        + intros CO. apply sorted_map. exact (S2 CO).
        + assert (EQ : un q1 :: map un srt' ++ [un q0] = map un ((q1 :: srt') ++ [q0])) by (rewrite map_app; reflexivity).
          rewrite EQ, combine_map2, <- EW, map_app. apply Forall2_app.
          * clear - F1. induction F1; cbn [map]; constructor; [assumption|exact IHF1].
          * cbn [map]. constructor; [exact EV|constructor]. }
    destruct GO as (ds & GO & SL). rewrite GO. cbn [rbind]. exists (false, ds). split.
    + unfold loop_result. destruct C; [congruence|]. split; [reflexivity|exact SL].
    + reflexivity.
Qed.
End OneLoop.
End Dissect.
