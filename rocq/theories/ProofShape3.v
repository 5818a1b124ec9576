(** Shapes (C37): where the offset loops meet. *)
From Coq Require Import List Bool Arith Permutation Sorted Lia.
From Verif Require Import Num Res ModelMath ModelSeg ModelPline ModelView ModelIndex ModelIntersects ModelBoolean ModelOffset ModelShape.
From Verif Require Import Spec SpecPline SpecView SpecIndex SpecIntersects SpecChain SpecShape.
From Verif Require Import ProofBase ProofIter ProofView ProofIndex2 ProofFind ProofPrune ProofOffsetTotal ProofShape.
Import ListNotations.

Lemma nodup_map_on {A B} (f : A -> B) l : NoDup l -> (forall x y, In x l -> In y l -> f x = f y -> x = y) -> NoDup (map f l).
Proof.
  intros ND. induction ND as [|a l NI ND IH]; intros I; [constructor|]. cbn [map]. constructor.
  - intros H. apply in_map_iff in H as (b & E & H). apply NI. rewrite (I a b); [exact H|left; reflexivity|right; exact H|congruence].
  - apply IH. intros x y Hx Hy. apply I; right; assumption.
Qed.

Lemma nodup_flat_map {A B} (f : A -> list B) l : NoDup l -> (forall a, In a l -> NoDup (f a)) ->
  (forall a b x, In a l -> In b l -> In x (f a) -> In x (f b) -> a = b) -> NoDup (flat_map f l).
Proof.
  intros ND. induction ND as [|a l NI ND IH]; intros F D; [constructor|]. cbn [flat_map].
  assert (ND2 : NoDup (flat_map f l)).
  { apply IH; [intros b Hb; apply F; right; exact Hb|]. intros b c x Hb Hc. apply D; right; assumption. }
  assert (DJ : forall x, In x (f a) -> ~ In x (flat_map f l)).
  { intros x Hx Hy. apply in_flat_map in Hy as (b & Hb & Hy). apply NI. rewrite (D a b x); [exact Hb|left; reflexivity|right; exact Hb|exact Hx|exact Hy]. }
  specialize (F a (or_introl eq_refl)). revert F DJ. generalize (f a) as m. induction m as [|y m IHm]; intros F DJ; [exact ND2|].
  inversion F; subst. cbn [app]. constructor.
  - intros H. apply in_app_or in H as [H|H]; [contradiction|]. apply (DJ y (or_introl eq_refl) H).
  - apply IHm; [assumption|]. intros x Hx. apply DJ. right. exact Hx.
Qed.

Lemma Permutation_flat_map' {A B} (f : A -> list B) l m : Permutation l m -> Permutation (flat_map f l) (flat_map f m).
Proof.
  intros P. induction P; cbn [flat_map]; [constructor|now apply Permutation_app_head| |eapply perm_trans; eassumption].
  rewrite !app_assoc. apply Permutation_app_tail. apply Permutation_app_comm.
Qed.

Lemma flat_map_filter_nonempty {A B} (f : A -> list B) (g : A -> bool) l : (forall a, In a l -> g a = false -> f a = []) ->
  flat_map f (filter g l) = flat_map f l.
Proof.
  induction l as [|a l IH]; intros H; [reflexivity|]. cbn [filter flat_map]. destruct (g a) eqn:E; cbn [flat_map]; rewrite IH by (intros; apply H; [right|]; assumption); [reflexivity|].
  rewrite (H a (or_introl eq_refl) E). reflexivity.
Qed.

Lemma forall2_len {A B} (R : A -> B -> Prop) l m : Forall2 R l m -> length l = length m.
Proof. induction 1; cbn [length]; congruence. Qed.

Section Meets.
Context {T : Type} {N : Num T} (loops : list (offset_loop T)) (idx : sindex T) (boxes : list (aabb T)) (o : shape_options T).
Local Notation n := (length loops).
Local Notation eps := (so_pos_equal_eps o).
Hypothesis BOX : Forall2 (fun ip b => index_bounds (ip_index ip) = Some b) (map ol_pline loops) boxes.
Hypothesis IDX : index_of boxes idx.
Hypothesis OK : Forall (fun l => has_index (ol_pline l)) loops.

Lemma box_at i l : nth_error loops i = Some l -> exists b, nth_error boxes i = Some b /\ index_bounds (ip_index (ol_pline l)) = Some b.
Proof.
  intros E. assert (E' : nth_error (map ol_pline loops) i = Some (ol_pline l)) by (rewrite nth_error_map, E; reflexivity).
  clear E OK IDX. revert i E'. induction BOX as [|ip b ls bs H F IH]; intros [|i] E; try discriminate.
  - injection E as ->. exists b. auto.
  - apply (IH F). exact E.
Qed.

Lemma overlaps_sym (a b : aabb T) : aabb_overlaps a b = aabb_overlaps b a.
Proof.
  unfold aabb_overlaps. destruct (nltb (bmax_x b) (bmin_x a)), (nltb (bmax_y b) (bmin_y a)), (nltb (bmax_x a) (bmin_x b)), (nltb (bmax_y a) (bmin_y b)); reflexivity.
Qed.

Definition meet (i j : nat) : list (basic_intr T) :=
  match nth_error loops i, nth_error loops j, nth_error boxes i, nth_error boxes j with
  | Some li, Some lj, Some bi, Some bj =>
    if aabb_overlaps bj bi
    then match find_intersects (ip_pline (ol_pline li)) (ip_pline (ol_pline lj)) (ip_index (ol_pline li)) eps with
         | Ret (bs, os) => bs ++ ends_of os
         | Panic _ => []
         end
    else []
  | _, _, _, _ => []
  end.

Lemma find_total li lj : In li loops -> exists bs os,
  find_intersects (ip_pline (ol_pline li)) (ip_pline (ol_pline lj)) (ip_index (ol_pline li)) eps = Ret (bs, os)
  /\ Forall (fun b => basic_ok (ip_pline (ol_pline li)) (ip_pline (ol_pline lj)) eps b) bs
  /\ Forall (overlap_ok (ip_pline (ol_pline li)) (ip_pline (ol_pline lj)) eps) os.
Proof.
  intros I. rewrite Forall_forall in OK. specialize (OK li I).
  destruct (find_intersects_each (ip_pline (ol_pline li)) (ip_pline (ol_pline lj)) eps _ _ OK (map_length _ _)) as (bs & os & E & F1 & F2).
  exists bs, os. split; [exact E|]. split; [|exact F2]. eapply Forall_impl; [|exact F1]. cbn. intros b (H & _). exact H.
Qed.

Lemma meet_meeting i j : i < n -> j < n -> meeting eps (map ol_pline loops) i j (meet i j).
Proof.
  intros Hi Hj. destruct (nth_error loops i) as [li|] eqn:Ei; [|apply nth_error_None in Ei; lia].
  destruct (nth_error loops j) as [lj|] eqn:Ej; [|apply nth_error_None in Ej; lia].
  destruct (box_at i li Ei) as (bi & Bi & Ci). destruct (box_at j lj Ej) as (bj & Bj & Cj).
  exists (ol_pline li), (ol_pline lj), bi, bj. rewrite !nth_error_map, Ei, Ej. split; [reflexivity|]. split; [reflexivity|]. split; [exact Ci|]. split; [exact Cj|].
  unfold meet. rewrite Ei, Ej, Bi, Bj. destruct (aabb_overlaps bj bi); [|reflexivity].
  destruct (find_total li lj (nth_error_In _ _ Ei)) as (bs & os & -> & _). exists bs, os. auto.
Qed.

(** The points are on segments of the two. *)
Lemma meet_indexes i j li lj b : nth_error loops i = Some li -> nth_error loops j = Some lj -> In b (meet i j) ->
  bi_index1 b < vertex_count (ip_pline (ol_pline li)) /\ bi_index2 b < vertex_count (ip_pline (ol_pline lj)).
Proof.
  intros Ei Ej I. unfold meet in I. rewrite Ei, Ej in I. destruct (nth_error boxes i); [|destruct I]. destruct (nth_error boxes j); [|destruct I].
  destruct (aabb_overlaps _ _); [|destruct I]. destruct (find_total li lj (nth_error_In _ _ Ei)) as (bs & os & E & F1 & F2). rewrite E in I.
  rewrite Forall_forall in F1, F2.
  assert (G : forall p k (x : vertex T * vertex T), nth_error (spec_segs (vtx p) (is_closed p)) k = Some x -> k < vertex_count p).
  { intros p k x H. pose proof (segs_le p). assert (k < length (spec_segs (vtx p) (is_closed p))) by (apply nth_error_Some; congruence). lia. }
  apply in_app_or in I as [I|I].
  - destruct (F1 b I) as (v1 & v2 & u1 & u2 & E1 & E2 & _). split; eapply G; eassumption.
  - unfold ends_of in I. apply in_flat_map in I as (ov & I & I'). destruct (F2 ov I) as (v1 & v2 & u1 & u2 & E1 & E2 & _).
    destruct I' as [<-|[<-|[]]]; cbn [bi_index1 bi_index2]; split; eapply G; eassumption.
Qed.

(** ** The sets found *)
Definition involves (k : nat) (s : slice_point_set T) : bool := Nat.eqb (sps_loop1 s) k || Nat.eqb (sps_loop2 s) k.
Definition positions (k : nat) (sets : list (slice_point_set T)) : list nat :=
  map fst (filter (fun x => involves k (snd x)) (combine (seq 0 (length sets)) sets)).
Definition lookup_of (sets : list (slice_point_set T)) (lk : list (nat * list nat)) : Prop :=
  StronglySorted lt (map fst lk) /\ forall k, map_get k lk = match positions k sets with [] => None | l => Some l end.

Lemma positions_snoc k sets s : positions k (sets ++ [s]) = positions k sets ++ if involves k s then [length sets] else [].
Proof.
  unfold positions. rewrite app_length. cbn [length]. rewrite seq_app. cbn [seq Nat.add].
  assert (C : combine (seq 0 (length sets) ++ [length sets]) (sets ++ [s]) = combine (seq 0 (length sets)) sets ++ [(length sets, s)]).
  { generalize (length sets) at 2 4 as x. intros x. assert (L : length (seq 0 (length sets)) = length sets) by apply seq_length.
    revert L. generalize (seq 0 (length sets)) as q. induction sets as [|y sets IH]; intros [|z q] L; try discriminate; [reflexivity|].
    cbn [app combine]. f_equal. apply IH. cbn in L. lia. }
  rewrite C, filter_app, map_app. cbn [filter snd]. destruct (involves k s); reflexivity.
Qed.

Lemma lookup_push sets lk i j ps : i <> j -> lookup_of sets lk ->
  lookup_of (sets ++ [SPS i j ps]) (map_push j (length sets) (map_push i (length sets) lk)).
Proof.
  intros NE (S & G). destruct (map_push_spec i (length sets) lk S) as (S1 & _ & G1). destruct (map_push_spec j (length sets) _ S1) as (S2 & _ & G2).
  split; [exact S2|]. intros k. rewrite G2, positions_snoc. unfold involves. cbn [sps_loop1 sps_loop2]. rewrite !G1, !G.
  destruct (Nat.eqb_spec k j) as [E1|N1].
  - subst k. rewrite Nat.eqb_refl, orb_true_r. destruct (Nat.eqb_spec j i) as [E|_]; [congruence|].
    destruct (positions j sets); reflexivity.
  - destruct (Nat.eqb_spec k i) as [E2|N2].
    + subst k. rewrite Nat.eqb_refl. cbn [orb]. destruct (positions i sets); reflexivity.
    + destruct (Nat.eqb_spec i k) as [E|_]; [congruence|]. destruct (Nat.eqb_spec j k) as [E|_]; [congruence|]. cbn [orb]. rewrite app_nil_r. reflexivity.
Qed.

Definition nonempty (i j : nat) : bool := match meet i j with [] => false | _ => true end.
Definition later (i : nat) (hits : list nat) : list (slice_point_set T) :=
  map (fun j => SPS i j (meet i j)) (filter (fun j => (i <? j) && nonempty i j) hits).

Definition hit (i j : nat) : Prop := exists bi bj, nth_error boxes i = Some bi /\ nth_error boxes j = Some bj /\ aabb_overlaps bj bi = true.

Lemma pairs_spec i l : nth_error loops i = Some l -> forall hits st,
  (forall j, In j hits -> hit i j) -> (forall j, In j hits -> j < i -> In (j, i) (sst_visited st)) ->
  (forall a b, In (a, b) (sst_visited st) -> a < b) -> lookup_of (sst_sets st) (sst_lookup st) ->
  exists st', rfold (slice_points_pair loops o i l) hits st = Ret st'
  /\ sst_sets st' = sst_sets st ++ later i hits /\ lookup_of (sst_sets st') (sst_lookup st')
  /\ (forall a b, In (a, b) (sst_visited st') -> a < b)
  /\ (forall a b, In (a, b) (sst_visited st) -> In (a, b) (sst_visited st'))
  /\ (forall j, In j hits -> i < j -> In (i, j) (sst_visited st')).
Proof.
  intros Ei. induction hits as [|j hits IH]; intros st HIT LOW VIS LK.
  - exists st. cbn. rewrite app_nil_r. split; [reflexivity|]. split; [reflexivity|]. split; [exact LK|]. split; [exact VIS|]. split; [auto|]. intros j [].
  - cbn [rfold]. unfold slice_points_pair at 1. destruct (HIT j (or_introl eq_refl)) as (bi & bj & Bi & Bj & OV).
    assert (SKIP : j <= i -> exists st', rfold (slice_points_pair loops o i l) hits st = Ret st'
      /\ sst_sets st' = sst_sets st ++ later i (j :: hits) /\ lookup_of (sst_sets st') (sst_lookup st')
      /\ (forall a b, In (a, b) (sst_visited st') -> a < b) /\ (forall a b, In (a, b) (sst_visited st) -> In (a, b) (sst_visited st'))
      /\ (forall j', In j' (j :: hits) -> i < j' -> In (i, j') (sst_visited st'))).
    { intros L. destruct (IH st) as (st' & E & E1 & E2 & E3 & E4 & E5); auto; [intros x Hx; apply HIT; right; exact Hx|intros x Hx; apply LOW; right; exact Hx|].
      exists st'. split; [exact E|]. split; [|split; [exact E2|split; [exact E3|split; [exact E4|]]]].
      - rewrite E1. unfold later. cbn [filter]. destruct (Nat.ltb_spec i j); [lia|]. reflexivity.
      - intros x [<-|Hx] Lx; [lia|auto]. }
    destruct (Nat.eqb_spec i j) as [->|NE]; [cbn [rbind]; apply SKIP; lia|].
    destruct (existsb (fun q => Nat.eqb (fst q) j && Nat.eqb (snd q) i) (sst_visited st)) eqn:EX.
    { cbn [rbind]. apply SKIP. apply existsb_exists in EX as ((a, b) & I & E). cbn in E. apply andb_prop in E as [A B]. apply Nat.eqb_eq in A, B. subst. apply VIS in I. lia. }
    assert (L : i < j).
    { destruct (Nat.lt_total i j) as [|[|L]]; [assumption|congruence|]. exfalso. specialize (LOW j (or_introl eq_refl) L).
      assert (X : existsb (fun q => Nat.eqb (fst q) j && Nat.eqb (snd q) i) (sst_visited st) = true).
      { apply existsb_exists. exists (j, i). split; [exact LOW|]. cbn. rewrite !Nat.eqb_refl. reflexivity. } congruence. }
    clear SKIP. assert (Lj : j < length loops).
    { assert (LB : length (map ol_pline loops) = length boxes) by exact (forall2_len _ _ _ BOX).
      rewrite map_length in LB. rewrite LB. apply nth_error_Some. congruence. }
    destruct (nth_error loops j) as [lj|] eqn:Ej; [|apply nth_error_None in Ej; lia].
    unfold index. rewrite Ej. cbn [rbind]. destruct (find_total l lj (nth_error_In _ _ Ei)) as (bs & os & E & _). rewrite E. cbn [rbind fst snd].
    assert (M : meet i j = bs ++ ends_of os) by (unfold meet; rewrite Ei, Ej, Bi, Bj, OV, E; reflexivity).
    set (sets' := sst_sets st ++ later i [j]).
    assert (G : exists lk, match bs, os with
        | [], [] => Ret (SPSt (sst_sets st) (sst_lookup st) ((i, j) :: sst_visited st))
        | basic, overlapping => Ret (SPSt (sst_sets st ++ [SPS i j (basic ++ ends_of overlapping)])
             (map_push j (length (sst_sets st)) (map_push i (length (sst_sets st)) (sst_lookup st))) ((i, j) :: sst_visited st))
        end = Ret (SPSt sets' lk ((i, j) :: sst_visited st)) /\ lookup_of sets' lk).
    { unfold sets', later. cbn [filter]. destruct (Nat.ltb_spec i j); [|lia]. cbn [andb]. unfold nonempty. rewrite M.
      destruct bs as [|b bs]; [destruct os as [|ov os]|].
      - eexists. split; [cbn; rewrite app_nil_r; reflexivity|]. cbn. rewrite app_nil_r. exact LK.
      - cbn [ends_of flat_map app map]. rewrite M. cbn [ends_of flat_map app]. eexists. split; [reflexivity|]. apply lookup_push; assumption.
      - cbn [app map]. rewrite M. cbn [app]. eexists. split; [reflexivity|]. apply lookup_push; assumption. }
    unfold ends_of in G. destruct G as (lk & G & LK'). 
    match goal with |- exists st', rbind ?X _ = _ /\ _ => replace X with (Ret (SPSt sets' lk ((i, j) :: sst_visited st))) by (symmetry; destruct bs; [destruct os|]; exact G) end. cbn [rbind].
    destruct (IH (SPSt sets' lk ((i, j) :: sst_visited st))) as (st' & E' & E1 & E2 & E3 & E4 & E5); cbn [sst_sets sst_lookup sst_visited].
    + intros x Hx. apply HIT. right. exact Hx.
    + intros x Hx Lx. right. apply LOW; [right; exact Hx|exact Lx].
    + intros a b [X|X]; [injection X as <- <-; exact L|apply VIS; exact X].
    + exact LK'.
    + exists st'. split; [exact E'|]. cbn [sst_sets sst_lookup sst_visited] in E1, E2, E3, E4, E5. split; [|split; [exact E2|split; [exact E3|split; [|]]]].
      * rewrite E1. unfold sets', later. rewrite <- app_assoc, <- map_app, <- filter_app. reflexivity.
      * intros a b X. apply E4. right. exact X.
      * intros x [<-|Hx] Lx; [apply E4; left; reflexivity|auto].
Qed.

Definition hits (i : nat) : list nat := match nth_error boxes i with Some b => ix_query idx b | None => [] end.

Lemma hits_hit i j : In j (hits i) <-> hit i j.
Proof.
  unfold hits, hit. destruct IDX as (_ & _ & Q). destruct (nth_error boxes i) as [b|].
  - rewrite (proj2 (Q b)). split.
    + intros (bj & E & O). exists b, bj. auto.
    + intros (bi & bj & X & E & O). injection X as <-. exists bj. auto.
  - split; [intros []|]. intros (bi & bj & X & _). discriminate.
Qed.

Lemma hits_nodup i : NoDup (hits i).
Proof. unfold hits. destruct (nth_error boxes i); [|constructor]. destruct IDX as (_ & _ & Q). apply Q. Qed.

Lemma hit_sym i j : hit i j -> hit j i.
Proof. intros (bi & bj & A & B & C). exists bj, bi. rewrite overlaps_sym. auto. Qed.

Lemma len_boxes : length boxes = n.
Proof. rewrite <- (forall2_len _ _ _ BOX), map_length. reflexivity. Qed.

Definition all_sets : list (slice_point_set T) := flat_map (fun i => later i (hits i)) (seq 0 n).

Lemma slice_points_spec : exists st, rfold (slice_points_loop loops idx o) (seq 0 n) (SPSt [] [] []) = Ret st
  /\ sst_sets st = all_sets /\ lookup_of all_sets (sst_lookup st).
Proof.
  assert (G : forall k, k <= n -> exists st, rfold (slice_points_loop loops idx o) (seq 0 k) (SPSt [] [] []) = Ret st
    /\ sst_sets st = flat_map (fun i => later i (hits i)) (seq 0 k) /\ lookup_of (sst_sets st) (sst_lookup st)
    /\ (forall a b, In (a, b) (sst_visited st) -> a < b) /\ (forall a b, a < k -> hit a b -> a < b -> In (a, b) (sst_visited st))).
  { induction k as [|k IH]; intros L.
    - exists (SPSt [] [] []). split; [reflexivity|]. split; [reflexivity|]. split; [split; [constructor|reflexivity]|]. split; [intros a b []|intros; lia].
    - destruct IH as (st & E & E1 & E2 & E3 & E4); [lia|]. rewrite seq_S, rfold_app, E. cbn [rbind rfold Nat.add].
      unfold slice_points_loop at 1. destruct (nth_error loops k) as [l|] eqn:El; [|apply nth_error_None in El; lia].
      unfold index. rewrite El. cbn [rbind]. destruct (box_at k l El) as (b & Eb & Cb). rewrite Cb. cbn [unwrap rbind].
      assert (H : ix_query idx b = hits k) by (unfold hits; rewrite Eb; reflexivity). rewrite H.
      destruct (pairs_spec k l El (hits k) st) as (st' & D & D1 & D2 & D3 & D4 & D5); auto.
      + intros j Hj. apply hits_hit. exact Hj.
      + intros j Hj Lj. apply E4; [exact Lj| |exact Lj]. apply hit_sym, hits_hit. exact Hj.
      + rewrite D. cbn [rbind]. exists st'. split; [reflexivity|]. split; [|split; [exact D2|split; [exact D3|]]].
        * rewrite D1, E1, flat_map_app. cbn [flat_map]. rewrite app_nil_r. reflexivity.
        * intros x y Lx Hxy Ly. destruct (Nat.eq_dec x k) as [->|NE]; [apply D5; [apply hits_hit; exact Hxy|exact Ly]|]. apply D4, E4; [lia|exact Hxy|exact Ly]. }
  destruct (G n (le_n _)) as (st & E & E1 & E2 & _). exists st. split; [exact E|]. unfold all_sets. rewrite <- E1. auto.
Qed.

(** ** The points of one loop *)

(** The pairs of numbers of the sets *)
Definition pairs : list (nat * nat) :=
  flat_map (fun i => map (pair i) (filter (fun j => (i <? j) && nonempty i j) (hits i))) (seq 0 n).

Lemma all_sets_pairs : all_sets = map (fun p => SPS (fst p) (snd p) (meet (fst p) (snd p))) pairs.
Proof.
  unfold all_sets, pairs. generalize (seq 0 n) as l. induction l as [|i l IH]; [reflexivity|].
  cbn [flat_map]. rewrite map_app, <- IH. f_equal. unfold later. rewrite map_map. reflexivity.
Qed.

Lemma meet_hit i j : meet i j <> [] -> hit i j.
Proof.
  unfold meet, hit. destruct (nth_error loops i); [|congruence]. destruct (nth_error loops j); [|congruence].
  destruct (nth_error boxes i) as [bi|]; [|congruence]. destruct (nth_error boxes j) as [bj|]; [|congruence].
  destruct (aabb_overlaps bj bi) eqn:E; [|congruence]. intros _. exists bi, bj. auto.
Qed.

Lemma pairs_In i j : In (i, j) pairs <-> i < j /\ meet i j <> [] /\ j < n.
Proof.
  unfold pairs. rewrite in_flat_map. split.
  - intros (x & _ & H). apply in_map_iff in H as (y & E & H). injection E as -> ->. apply filter_In in H as (H & C).
    apply andb_prop in C as (C & D). apply Nat.ltb_lt in C. split; [exact C|]. split; [unfold nonempty in D; destruct (meet i j); congruence|].
    apply hits_hit in H as (_ & bj & _ & B & _). rewrite <- len_boxes. apply nth_error_Some. congruence.
  - intros (L & M & Lj). exists i. split; [apply in_seq; lia|]. apply in_map_iff. exists j. split; [reflexivity|]. apply filter_In.
    split; [apply hits_hit, meet_hit, M|]. destruct (Nat.ltb_spec i j); [|lia]. unfold nonempty. destruct (meet i j); [congruence|reflexivity].
Qed.

Lemma pairs_nodup : NoDup pairs.
Proof.
  unfold pairs. apply nodup_flat_map; [apply seq_NoDup| |].
  - intros i _. apply nodup_map_on; [apply NoDup_filter, hits_nodup|]. intros x y _ _ E. congruence.
  - intros i j x _ _ Hi Hj. apply in_map_iff in Hi as (? & <- & _). apply in_map_iff in Hj as (? & E & _). congruence.
Qed.

Definition set_cuts (i : nat) (p : nat * nat) : list (nat * vec2 T) :=
  map (fun b => (if Nat.eqb (fst p) i then bi_index1 b else bi_index2 b, bi_point b)) (meet (fst p) (snd p)).
Definition pair_with (i : nat) (p : nat * nat) : bool := Nat.eqb (fst p) i || Nat.eqb (snd p) i.

Lemma cuts_perm i : i < n -> Permutation (flat_map (set_cuts i) (filter (pair_with i) pairs)) (cuts_of meet n i).
Proof.
  intros Hi. set (other := fun p : nat * nat => if Nat.eqb (fst p) i then snd p else fst p).
  set (g := fun j => if (j <? i) then map (fun b => (bi_index2 b, bi_point b)) (meet j i)
                     else if (i <? j) then map (fun b => (bi_index1 b, bi_point b)) (meet i j) else []).
  assert (E : flat_map (set_cuts i) (filter (pair_with i) pairs) = flat_map g (map other (filter (pair_with i) pairs))).
  { rewrite flat_map_concat_map, flat_map_concat_map, map_map. f_equal. apply map_ext_in. intros (a, b) H. apply filter_In in H as (H & W).
    apply pairs_In in H as (L & _). unfold pair_with in W. cbn [fst snd] in W. unfold set_cuts, other, g. cbn [fst snd].
    destruct (Nat.eqb_spec a i) as [->|Ha].
    - destruct (Nat.ltb_spec b i); [lia|]. destruct (Nat.ltb_spec i b); [|lia]. reflexivity.
    - destruct (Nat.eqb_spec b i) as [->|Hb]; [|discriminate]. destruct (Nat.ltb_spec a i); [|lia]. reflexivity. }
  rewrite E. unfold cuts_of. fold g. set (ne := fun j => match g j with [] => false | _ => true end).
  rewrite <- (flat_map_filter_nonempty g ne (seq 0 n)) by (intros a _; unfold ne; destruct (g a); congruence).
  apply Permutation_flat_map', NoDup_Permutation.
  - apply nodup_map_on; [apply NoDup_filter, pairs_nodup|]. intros (a, b) (c, d) H1 H2. apply filter_In in H1 as (H1 & W1). apply filter_In in H2 as (H2 & W2).
    apply pairs_In in H1 as (L1 & _). apply pairs_In in H2 as (L2 & _). unfold pair_with in W1, W2. unfold other. cbn [fst snd] in *.
    destruct (Nat.eqb_spec a i), (Nat.eqb_spec b i), (Nat.eqb_spec c i), (Nat.eqb_spec d i); try discriminate; intros; subst; try lia; reflexivity.
  - apply NoDup_filter, seq_NoDup.
  - intros j. rewrite in_map_iff, filter_In. split.
    + intros ((a, b) & <- & H). apply filter_In in H as (H & W). apply pairs_In in H as (L & M & Lb). unfold pair_with in W. unfold other. cbn [fst snd] in *.
      destruct (Nat.eqb_spec a i) as [->|Ha].
      * split; [apply in_seq; lia|]. unfold ne, g. destruct (Nat.ltb_spec b i); [lia|]. destruct (Nat.ltb_spec i b); [|lia]. destruct (meet i b); [congruence|reflexivity].
      * destruct (Nat.eqb_spec b i) as [->|Hb]; [|discriminate]. split; [apply in_seq; lia|]. unfold ne, g. destruct (Nat.ltb_spec a i); [|lia]. destruct (meet a i); [congruence|reflexivity].
    + intros (Hj & C). apply in_seq in Hj. unfold ne, g in C. destruct (Nat.ltb_spec j i) as [L|L].
      * exists (j, i). unfold other. cbn [fst snd]. destruct (Nat.eqb_spec j i); [lia|]. split; [reflexivity|]. apply filter_In. split.
        -- apply pairs_In. split; [exact L|]. split; [destruct (meet j i); [discriminate|congruence]|exact Hi].
        -- unfold pair_with. cbn [fst snd]. rewrite Nat.eqb_refl. apply orb_true_r.
      * destruct (Nat.ltb_spec i j) as [L'|L']; [|discriminate]. exists (i, j). unfold other. cbn [fst snd]. rewrite Nat.eqb_refl. split; [reflexivity|]. apply filter_In. split.
        -- apply pairs_In. split; [exact L'|]. split; [destruct (meet i j); [discriminate|congruence]|lia].
        -- unfold pair_with. cbn [fst snd]. rewrite Nat.eqb_refl. reflexivity.
Qed.

(** What [points_of_loop] gives *)
Lemma positions_sets {A} (f : slice_point_set T -> list A) k sets :
  exists ls, Forall2 (fun x l => exists s, nth_error sets x = Some s /\ l = f s) (positions k sets) ls
  /\ concat ls = flat_map f (filter (involves k) sets).
Proof.
  induction sets as [|s sets IH] using rev_ind; [exists []; split; [constructor|reflexivity]|].
  destruct IH as (ls & F & E). rewrite positions_snoc, filter_app, flat_map_app. cbn [filter].
  assert (F' : Forall2 (fun x l => exists s0, nth_error (sets ++ [s]) x = Some s0 /\ l = f s0) (positions k sets) ls).
  { clear E. induction F as [|x l xs ls' (s0 & H & ->) F IH]; constructor; [|exact IH]. exists s0. split; [|reflexivity].
    rewrite nth_error_app1; [exact H|]. apply nth_error_Some. congruence. }
  destruct (involves k s).
  - exists (ls ++ [f s]). split.
    + apply Forall2_app; [exact F'|]. constructor; [|constructor]. exists s. split; [|reflexivity]. rewrite nth_error_app2, Nat.sub_diag by lia. reflexivity.
    + rewrite concat_app, E. cbn. rewrite app_nil_r. reflexivity.
  - exists ls. rewrite app_nil_r. cbn. rewrite app_nil_r. auto.
Qed.

Definition dp_of (c : nat * vec2 T) : dissection_point T := DP (fst c) (snd c).

Lemma points_spec i : i < n -> exists cuts, Permutation cuts (cuts_of meet n i)
  /\ points_of_loop all_sets i (positions i all_sets) = Ret (map dp_of cuts).
Proof.
  intros Hi. exists (flat_map (set_cuts i) (filter (pair_with i) pairs)). split; [apply cuts_perm, Hi|].
  set (f := fun s : slice_point_set T => map (fun b => DP (if Nat.eqb (sps_loop1 s) i then bi_index1 b else bi_index2 b) (bi_point b)) (sps_points s)).
  destruct (positions_sets f i all_sets) as (ls & F & E). unfold points_of_loop.
  assert (R : rmapM (fun k => let! set := index all_sets k in Ret (f set)) (positions i all_sets) = Ret ls).
  { clear E. induction F as [|x l xs ls' (s & H & ->) F IH]; [reflexivity|]. cbn [rmapM]. unfold index at 1. rewrite H. cbn [rbind]. rewrite IH. reflexivity. }
  unfold f in R. rewrite R. cbn [rbind]. rewrite E. f_equal. rewrite all_sets_pairs.
  generalize pairs as l. induction l as [|p l IH]; [reflexivity|]. cbn [map filter].
  assert (W : involves i (SPS (fst p) (snd p) (meet (fst p) (snd p))) = pair_with i p) by reflexivity. rewrite W.
  destruct (pair_with i p); [|exact IH]. cbn [flat_map]. rewrite map_app, <- IH. f_equal. unfold f, set_cuts. cbn [sps_loop1 sps_points]. rewrite map_map. reflexivity.
Qed.

Lemma positions_nil i : i < n -> positions i all_sets = [] <-> cuts_of meet n i = [].
Proof.
  intros Hi. assert (A : positions i all_sets = [] <-> filter (pair_with i) pairs = []).
  { assert (X : map snd (filter (fun x => involves i (snd x)) (combine (seq 0 (length all_sets)) all_sets)) = filter (involves i) all_sets).
    { assert (L : length (seq 0 (length all_sets)) = length all_sets) by apply seq_length. revert L. generalize (seq 0 (length all_sets)) as q. generalize all_sets as m.
      induction m as [|s m IH]; intros [|x q] L; try discriminate; [reflexivity|]. cbn [combine filter snd]. destruct (involves i s); cbn [map snd]; rewrite IH by (cbn in L; lia); reflexivity. }
    rewrite all_sets_pairs in X at 3. assert (Y : length (positions i all_sets) = length (filter (pair_with i) pairs)).
    { unfold positions. rewrite map_length, <- (map_length snd), X. generalize pairs as l. induction l as [|p l IH]; [reflexivity|]. cbn [map filter].
      change (involves i (SPS (fst p) (snd p) (meet (fst p) (snd p)))) with (pair_with i p). destruct (pair_with i p); cbn [length]; rewrite IH; reflexivity. }
    split; intros E; rewrite E in Y; [symmetry in Y|]; now apply length_zero_iff_nil in Y. }
  rewrite A. clear A. split; intros E.
  - pose proof (cuts_perm i Hi) as P. rewrite E in P. cbn in P. now apply Permutation_nil.
  - destruct (filter (pair_with i) pairs) as [|p l] eqn:F; [reflexivity|]. exfalso. pose proof (cuts_perm i Hi) as P. rewrite E, F in P. apply Permutation_sym, Permutation_nil in P.
    cbn [flat_map] in P. apply app_eq_nil in P as (P & _). assert (I : In p pairs) by (apply (proj1 (filter_In (pair_with i) p pairs)); rewrite F; left; reflexivity).
    destruct p as (a, b). apply pairs_In in I as (_ & M & _). unfold set_cuts in P. cbn [fst snd] in P. destruct (meet a b); [congruence|discriminate].
Qed.

(** The points are on segments of the loop. *)
Lemma cuts_indexes i l c : nth_error loops i = Some l -> In c (cuts_of meet n i) -> fst c < vertex_count (ip_pline (ol_pline l)).
Proof.
  intros E I. unfold cuts_of in I. apply in_flat_map in I as (j & Hj & I). apply in_seq in Hj.
  destruct (nth_error loops j) as [lj|] eqn:Ej; [|apply nth_error_None in Ej; lia].
  destruct (j <? i); [|destruct (i <? j); [|destruct I]]; apply in_map_iff in I as (b & <- & I); cbn [fst].
  - destruct (meet_indexes j i lj l b Ej E I). assumption.
  - destruct (meet_indexes i j l lj b E Ej I). assumption.
Qed.
End Meets.
