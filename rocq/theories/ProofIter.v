(** Lemmas about index navigation and iterators (C04, C05). *)
From Coq Require Import List Arith Bool ZArith Lia.
From Verif Require Import Num Res ModelMath ModelSeg ModelPline Spec ProofBase.
Import ListNotations.

Section Iter.
Context {T : Type}.
Implicit Types p : pline T.

Lemma spec_segs_length {A} (l : list A) c :
  length (spec_segs l c) =
  if length l <? 2 then 0 else if c then length l else length l - 1.
Proof.
  destruct l as [|a [|b t]]; [reflexivity|reflexivity|].
  cbn [spec_segs]. rewrite combine_length, app_length. destruct c; cbn [length tl]; destruct (Nat.ltb_spec (S (S (length t))) 2); lia.
Qed.

Lemma segment_count_spec p : segment_count p = length (spec_segs (vtx p) (is_closed p)).
Proof. rewrite spec_segs_length. reflexivity. Qed.

Lemma combine_nth_error {A B} (l : list A) (m : list B) i :
  nth_error (combine l m) i =
  match nth_error l i, nth_error m i with Some a, Some b => Some (a, b) | _, _ => None end.
Proof.
  revert m i. induction l as [|a t IH]; intros [|b u] [|i]; simpl; try reflexivity.
  - destruct (nth_error t i); reflexivity.
  - apply IH.
Qed.

(** [spec_segs] is what it says: position i holds (element i, element i+1 mod n). *)
Lemma spec_segs_nth {A} (l : list A) c i :
  i < length (spec_segs l c) ->
  exists a b, nth_error (spec_segs l c) i = Some (a, b) /\ nth_error l i = Some a /\
              nth_error l ((i + 1) mod length l) = Some b.
Proof.
  rewrite spec_segs_length. intros H.
  destruct (Nat.ltb_spec (length l) 2) as [H2|H2]; [lia|].
  destruct l as [|x [|y t]]; [simpl in H2; lia|simpl in H2; lia|].
  cbn [spec_segs]. set (l := x :: y :: t) in *.
  assert (Hi : i < length l) by (destruct c; lia).
  destruct (nth_error l i) as [a|] eqn:Ea; [|apply nth_error_None in Ea; lia].
  rewrite combine_nth_error, Ea.
  destruct (Nat.eq_dec (i + 1) (length l)) as [He|He].
  - destruct c; [|lia].
    exists a, x. rewrite He, Nat.mod_same by lia.
    split; [|split; reflexivity].
    rewrite nth_error_app2 by (simpl in *; lia).
    replace (i - length (tl l)) with 0 by (simpl in *; lia). reflexivity.
  - rewrite Nat.mod_small by (destruct c; lia).
    destruct (nth_error l (i + 1)) as [b|] eqn:Eb; [|apply nth_error_None in Eb; lia].
    exists a, b. repeat split; auto.
    rewrite nth_error_app1 by (simpl in *; lia).
    replace (nth_error (tl l) i) with (nth_error l (i + 1)); [now rewrite Eb|].
    rewrite Nat.add_1_r. reflexivity.
Qed.

(** ** Navigation *)
Lemma next_wrapping_index_mod p i :
  i < vertex_count p -> next_wrapping_index p i = (i + 1) mod vertex_count p.
Proof.
  intros H. unfold next_wrapping_index.
  destruct (Nat.leb_spec (vertex_count p) (i + 1)) as [H1|H1].
  - replace (i + 1) with (vertex_count p) by lia. rewrite Nat.mod_same; lia.
  - rewrite Nat.mod_small; lia.
Qed.

Lemma prev_wrapping_index_mod p i :
  i < vertex_count p ->
  prev_wrapping_index p i = Ret ((i + (vertex_count p - 1)) mod vertex_count p).
Proof.
  intros H. unfold prev_wrapping_index.
  destruct (Nat.eqb_spec i 0) as [->|Hi].
  - rewrite usub_ok by lia. rewrite Nat.mod_small by lia. f_equal.
  - f_equal. replace (i + (vertex_count p - 1)) with (i - 1 + 1 * vertex_count p) by lia.
    rewrite Nat.mod_add by lia. rewrite Nat.mod_small by lia. reflexivity.
Qed.

Lemma fwd_wrapping_index_mod p i k :
  i < vertex_count p -> k <= vertex_count p ->
  fwd_wrapping_index p i k = (i + k) mod vertex_count p.
Proof.
  intros Hi Hk. unfold fwd_wrapping_index.
  destruct (Nat.ltb_spec (i + k) (vertex_count p)) as [H|H].
  - rewrite Nat.mod_small; lia.
  - replace (i + k) with (i + k - vertex_count p + 1 * vertex_count p) at 2 by lia.
    rewrite Nat.mod_add by lia. rewrite Nat.mod_small by lia. reflexivity.
Qed.

Lemma fwd_wrapping_dist_mod p i j :
  i < vertex_count p -> j < vertex_count p ->
  exists k, fwd_wrapping_dist p i j = Ret k /\ k < vertex_count p /\
            (i + k) mod vertex_count p = j.
Proof.
  intros Hi Hj. unfold fwd_wrapping_dist.
  destruct (Nat.leb_spec i j) as [H|H].
  - exists (j - i). repeat split; [lia|]. replace (i + (j - i)) with j by lia.
    now apply Nat.mod_small.
  - rewrite usub_ok by lia. exists (vertex_count p - i + j). simpl.
    repeat split; [lia|].
    replace (i + (vertex_count p - i + j)) with (j + 1 * vertex_count p) by lia.
    rewrite Nat.mod_add by lia. now apply Nat.mod_small.
Qed.

Lemma mod_unique_offset n i k k' :
  i < n -> k < n -> k' < n -> (i + k) mod n = (i + k') mod n -> k = k'.
Proof.
  intros Hi Hk Hk' H.
  assert (E : forall a b, a < n -> b < n -> (a + b) mod n = if a + b <? n then a + b else a + b - n).
  { intros a b Ha Hb. destruct (Nat.ltb_spec (a + b) n) as [L|L].
    - apply Nat.mod_small; lia.
    - replace (a + b) with (a + b - n + 1 * n) at 1 by lia. rewrite Nat.mod_add by lia.
      apply Nat.mod_small. lia. }
  rewrite !E in H by lia.
  destruct (Nat.ltb_spec (i + k) n), (Nat.ltb_spec (i + k') n); lia.
Qed.

(** ** Segment iterator *)
Definition seg_iter_ok p k (it : segment_iter T) : Prop :=
  si_pline it = p /\
  if vertex_count p <? 2 then si_exhausted it = true
  else if is_closed p then
    if k <? vertex_count p then si_exhausted it = false /\ si_pos it = k
    else si_exhausted it = true
  else si_exhausted it = false /\ si_pos it = Nat.min k (vertex_count p - 1).

Lemma seg_iter_new_ok p : seg_iter_ok p 0 (segment_iter_new p).
Proof.
  unfold seg_iter_ok, segment_iter_new. cbn [si_pline si_exhausted si_pos].
  split; [reflexivity|].
  destruct (Nat.ltb_spec (vertex_count p) 2); [reflexivity|].
  destruct (is_closed p); [|split; [reflexivity|lia]].
  destruct (Nat.ltb_spec 0 (vertex_count p)); [auto|lia].
Qed.

Lemma seg_iter_hint_ok p k it :
  seg_iter_ok p k it -> segment_iter_size_hint it = Ret (segment_count p - k).
Proof.
  unfold seg_iter_ok, segment_iter_size_hint, segment_count. intros [-> H].
  destruct (Nat.ltb_spec (vertex_count p) 2) as [H2|H2].
  - rewrite H. reflexivity.
  - destruct (is_closed p) eqn:C.
    + destruct (Nat.ltb_spec k (vertex_count p)) as [Hk|Hk].
      * destruct H as [-> ->]. rewrite usub_ok by lia. reflexivity.
      * rewrite H. f_equal. lia.
    + destruct H as [-> ->]. rewrite usub_ok by lia. cbn [rbind]. rewrite usub_ok by lia.
      f_equal. lia.
Qed.

Lemma seg_iter_next_ok p k it :
  seg_iter_ok p k it ->
  exists it', segment_iter_next it =
              Ret (nth_error (spec_segs (vtx p) (is_closed p)) k, it')
              /\ seg_iter_ok p (S k) it'.
Proof.
  intros Hok. pose proof Hok as [Hp H].
  pose proof (segment_count_spec p) as Hsc. unfold segment_count in Hsc.
  destruct it as [q pos_ ex]. cbn [si_pline si_pos si_exhausted] in *. subst q.
  unfold segment_iter_next. cbn [si_pline si_pos si_exhausted].
  destruct (Nat.ltb_spec (vertex_count p) 2) as [H2|H2].
  - rewrite H. rewrite (proj2 (nth_error_None _ k)) by lia.
    eexists; split; [reflexivity|]. unfold seg_iter_ok. cbn [si_pline si_pos si_exhausted].
    destruct (Nat.ltb_spec (vertex_count p) 2); [auto|lia].
  - destruct (is_closed p) eqn:C.
    + destruct (Nat.ltb_spec k (vertex_count p)) as [Hk|Hk].
      * destruct H as [-> ->]. rewrite usub_ok by lia. cbn [rbind].
        destruct (spec_segs_nth (vtx p) true k) as (a & b & Hn & Ha & Hb); [lia|].
        rewrite Hn. fold (vertex_count p) in Hb.
        destruct (Nat.eqb_spec k (vertex_count p - 1)) as [E|E].
        -- unfold at_. rewrite <- E. rewrite (index_ok _ _ _ Ha). cbn [rbind].
           replace (k + 1) with (vertex_count p) in Hb by lia.
           rewrite Nat.mod_same in Hb by lia. rewrite (index_ok _ _ _ Hb). cbn [rbind].
           eexists; split; [reflexivity|]. unfold seg_iter_ok. cbn [si_pline si_pos si_exhausted].
           rewrite C. split; [reflexivity|].
           destruct (Nat.ltb_spec (vertex_count p) 2); [auto|].
           destruct (Nat.ltb_spec (S k) (vertex_count p)); [lia|reflexivity].
        -- unfold at_. rewrite (index_ok _ _ _ Ha). cbn [rbind].
           rewrite Nat.mod_small in Hb by lia. rewrite (index_ok _ _ _ Hb). cbn [rbind].
           eexists; split; [reflexivity|]. unfold seg_iter_ok. cbn [si_pline si_pos si_exhausted].
           rewrite C. split; [reflexivity|].
           destruct (Nat.ltb_spec (vertex_count p) 2); [lia|].
           destruct (Nat.ltb_spec (S k) (vertex_count p)); [|lia]. split; [reflexivity|lia].
      * rewrite H. rewrite (proj2 (nth_error_None _ k)) by lia.
        eexists; split; [reflexivity|]. unfold seg_iter_ok. cbn [si_pline si_pos si_exhausted].
        rewrite C. split; [reflexivity|].
        destruct (Nat.ltb_spec (vertex_count p) 2); [auto|].
        destruct (Nat.ltb_spec (S k) (vertex_count p)); [lia|reflexivity].
    + destruct H as [-> ->]. rewrite usub_ok by lia. cbn [rbind].
      destruct (Nat.eqb_spec (Nat.min k (vertex_count p - 1)) (vertex_count p - 1)) as [E|E].
      * rewrite (proj2 (nth_error_None _ k)) by lia.
        eexists; split; [reflexivity|]. unfold seg_iter_ok. cbn [si_pline si_pos si_exhausted].
        rewrite C. split; [reflexivity|].
        destruct (Nat.ltb_spec (vertex_count p) 2); [lia|]. split; [reflexivity|lia].
      * replace (Nat.min k (vertex_count p - 1)) with k by lia.
        destruct (spec_segs_nth (vtx p) false k) as (a & b & Hn & Ha & Hb); [lia|].
        rewrite Hn. fold (vertex_count p) in Hb. rewrite Nat.mod_small in Hb by lia.
        unfold at_. rewrite (index_ok _ _ _ Ha). cbn [rbind]. rewrite (index_ok _ _ _ Hb). cbn [rbind].
        eexists; split; [reflexivity|]. unfold seg_iter_ok. cbn [si_pline si_pos si_exhausted].
        rewrite C. split; [reflexivity|].
        destruct (Nat.ltb_spec (vertex_count p) 2); [lia|]. split; [reflexivity|lia].
Qed.

Lemma collect_segments_ok p fuel k it :
  seg_iter_ok p k it -> length (spec_segs (vtx p) (is_closed p)) - k < fuel ->
  collect_segments fuel it = Ret (skipn k (spec_segs (vtx p) (is_closed p))).
Proof.
  revert k it. induction fuel as [|f IH]; intros k it Hok Hf; [lia|].
  cbn [collect_segments]. destruct (seg_iter_next_ok _ _ _ Hok) as (it' & -> & Hok').
  cbn [rbind]. destruct (nth_error (spec_segs (vtx p) (is_closed p)) k) as [s|] eqn:E.
  - rewrite (IH (S k) it' Hok').
    + cbn [rbind]. now rewrite (skipn_nth_cons _ _ _ E).
    + assert (k < length (spec_segs (vtx p) (is_closed p))) by (apply nth_error_Some; congruence).
      lia.
  - apply nth_error_None in E. rewrite skipn_all2 by lia. reflexivity.
Qed.

Lemma iter_segments_spec p : iter_segments p = Ret (spec_segs (vtx p) (is_closed p)).
Proof.
  unfold iter_segments. rewrite (collect_segments_ok p _ 0 _ (seg_iter_new_ok p)).
  - reflexivity.
  - rewrite spec_segs_length. fold (vertex_count p).
    destruct (vertex_count p <? 2); [lia|]. destruct (is_closed p); lia.
Qed.

(** k calls of [next] *)
Fixpoint segment_iter_nth (k : nat) (it : segment_iter T) : res (segment_iter T) :=
  match k with
  | O => Ret it
  | S k => let! r := segment_iter_next it in segment_iter_nth k (snd r)
  end.

Lemma segment_iter_nth_ok p k j it :
  seg_iter_ok p j it ->
  exists it', segment_iter_nth k it = Ret it' /\ seg_iter_ok p (j + k) it'.
Proof.
  revert j it. induction k as [|k IH]; intros j it H.
  - exists it. rewrite Nat.add_0_r. auto.
  - cbn [segment_iter_nth]. destruct (seg_iter_next_ok _ _ _ H) as (it' & -> & H').
    cbn [rbind snd]. destruct (IH _ _ H') as (it'' & -> & H''). exists it''.
    split; [reflexivity|]. replace (j + S k) with (S j + k) by lia. exact H''.
Qed.

Lemma segment_iter_history p k :
  exists it it', segment_iter_nth k (segment_iter_new p) = Ret it /\
    segment_iter_size_hint it = Ret (length (spec_segs (vtx p) (is_closed p)) - k) /\
    segment_iter_next it = Ret (nth_error (spec_segs (vtx p) (is_closed p)) k, it').
Proof.
  destruct (segment_iter_nth_ok p k 0 _ (seg_iter_new_ok p)) as (it & H1 & H2).
  destruct (seg_iter_next_ok _ _ _ H2) as (it' & H3 & _).
  exists it, it'. rewrite <- segment_count_spec. repeat split; auto.
  now apply seg_iter_hint_ok.
Qed.

(** ** Index iterator *)
Lemma collect_seg_indexes_ok fuel pos_ r c :
  r < fuel ->
  collect_seg_indexes fuel (SIIter pos_ r c) =
  Ret (map (fun i => (i, if c && Nat.eqb (i + 1) (pos_ + r) then 0 else i + 1)) (seq pos_ r)).
Proof.
  revert pos_ r. induction fuel as [|f IH]; intros pos_ r Hf; [lia|].
  cbn [collect_seg_indexes]. unfold seg_index_iter_next. cbn [sii_pos sii_remaining sii_closed].
  destruct r as [|r]; [reflexivity|].
  destruct (Nat.eqb_spec r 0) as [->|Hr]; cbn [andb].
  - destruct c; cbn [andb].
    + rewrite IH by lia. cbn [rbind map seq]. rewrite Nat.eqb_refl. reflexivity.
    + rewrite IH by lia. reflexivity.
  - rewrite IH by lia. cbn [rbind seq map].
    destruct (Nat.eqb_spec (pos_ + 1) (pos_ + S r)) as [E|E]; [lia|].
    rewrite andb_false_r. do 2 f_equal. rewrite Nat.add_1_r.
    apply map_ext_in. intros i Hi.
    replace (S pos_ + r) with (pos_ + S r) by lia. reflexivity.
Qed.

Definition spec_seg_indexes (n : nat) (closed : bool) : list (nat * nat) :=
  map (fun i => (i, (i + 1) mod n))
      (seq 0 (if n <? 2 then 0 else if closed then n else n - 1)).

Lemma iter_segment_indexes_spec p :
  iter_segment_indexes p = Ret (spec_seg_indexes (vertex_count p) (is_closed p)).
Proof.
  unfold iter_segment_indexes, seg_index_iter_new. rewrite collect_seg_indexes_ok.
  - f_equal. unfold spec_seg_indexes. apply map_ext_in. intros i Hi. apply in_seq in Hi.
    destruct (Nat.ltb_spec (vertex_count p) 2) as [H2|H2]; [lia|].
    destruct (is_closed p); cbn [andb].
    + destruct (Nat.eqb_spec (i + 1) (0 + vertex_count p)) as [E|E].
      * rewrite E, Nat.add_0_l, Nat.mod_same; [reflexivity|lia].
      * rewrite Nat.mod_small by lia. reflexivity.
    + rewrite Nat.mod_small by lia. reflexivity.
  - destruct (vertex_count p <? 2); [lia|]. destruct (is_closed p); lia.
Qed.

Fixpoint seg_index_iter_nth (k : nat) (it : seg_index_iter) : seg_index_iter :=
  match k with O => it | S k => seg_index_iter_nth k (snd (seg_index_iter_next it)) end.

(** ** Vertex iterator: any interleaving *)
Fixpoint vertex_iter_run (ops : list deque_op) (it : vertex_iter T)
  : res (list (deque_out (vertex T))) :=
  match ops with
  | [] => Ret []
  | PopFront :: t =>
    let '(o, it') := vertex_iter_next it in
    let! rest := vertex_iter_run t it' in Ret (Item o :: rest)
  | PopBack :: t =>
    let! r := vertex_iter_next_back it in
    let '(o, it') := r in
    let! rest := vertex_iter_run t it' in Ret (Item o :: rest)
  | SizeHint :: t =>
    let! n := vertex_iter_size_hint it in
    let! rest := vertex_iter_run t it in Ret (Size n :: rest)
  end.

Lemma hd_error_nth {A} (l : list A) : hd_error l = nth_error l 0.
Proof. destruct l; reflexivity. Qed.

Lemma removelast_app1 {A} (l : list A) x : removelast (l ++ [x]) = l.
Proof. rewrite removelast_app by discriminate. simpl. apply app_nil_r. Qed.

Lemma vertex_iter_run_ok ops p s e :
  s <= e -> e <= vertex_count p ->
  vertex_iter_run ops (VIter p s e) = Ret (spec_deque ops (firstn (e - s) (skipn s (vtx p)))).
Proof.
  unfold vertex_count.
  revert s e. induction ops as [|o ops IH]; intros s e Hse He; [reflexivity|].
  destruct o; cbn [vertex_iter_run spec_deque].
  - unfold vertex_iter_next. cbn [vi_pos vi_end vi_pline].
    destruct (Nat.eqb_spec s e) as [->|Hne].
    + rewrite IH by lia. rewrite Nat.sub_diag. reflexivity.
    + rewrite IH by lia. cbn [rbind]. unfold get.
      destruct (index_lt (vtx p) s) as (a & Ha & _); [lia|].
      rewrite (skipn_nth_cons _ _ _ Ha), Ha.
      replace (e - s) with (S (e - (s + 1))) by lia. cbn [firstn hd_error tl].
      rewrite Nat.add_1_r. reflexivity.
  - unfold vertex_iter_next_back. cbn [vi_pos vi_end vi_pline].
    destruct (Nat.eqb_spec s e) as [->|Hne].
    + cbn [rbind]. rewrite IH by lia. rewrite Nat.sub_diag. reflexivity.
    + rewrite usub_ok by lia. cbn [rbind]. rewrite IH by lia. cbn [rbind]. unfold get.
      destruct (index_lt (vtx p) (e - 1)) as (a & Ha & _); [lia|].
      assert (Hs : nth_error (skipn s (vtx p)) (e - 1 - s) = Some a).
      { rewrite <- Ha. rewrite <- (firstn_skipn s (vtx p)) at 2.
        rewrite nth_error_app2; rewrite firstn_length; [f_equal|]; lia. }
      replace (e - s) with (S (e - 1 - s)) by lia.
      rewrite (firstn_nth_snoc _ _ _ Hs), rev_app_distr, removelast_app1, Ha.
      reflexivity.
  - unfold vertex_iter_size_hint. cbn [vi_pos vi_end vi_pline].
    rewrite usub_ok by lia. cbn [rbind]. rewrite IH by lia. cbn [rbind].
    rewrite firstn_length, skipn_length. do 3 f_equal. lia.
Qed.

Lemma vertex_iter_history ops p :
  vertex_iter_run ops (vertex_iter_new p) = Ret (spec_deque ops (vtx p)).
Proof.
  unfold vertex_iter_new. rewrite vertex_iter_run_ok by lia.
  rewrite Nat.sub_0_r. unfold vertex_count. now rewrite firstn_all.
Qed.

End Iter.

Section Nav.
Context {T : Type}.
Implicit Types p : pline T.

Lemma next_prev_permutation p i :
  i < vertex_count p ->
  next_wrapping_index p i < vertex_count p
  /\ prev_wrapping_index p (next_wrapping_index p i) = Ret i
  /\ exists j, prev_wrapping_index p i = Ret j /\ j < vertex_count p
               /\ next_wrapping_index p j = i.
Proof.
  intros H. unfold next_wrapping_index, prev_wrapping_index.
  destruct (Nat.leb_spec (vertex_count p) (i + 1)) as [H1|H1].
  - repeat split; [lia| |].
    + cbn [Nat.eqb]. rewrite usub_ok by lia. f_equal. lia.
    + destruct (Nat.eqb_spec i 0) as [->|Hi].
      * rewrite usub_ok by lia. exists (vertex_count p - 1). repeat split; [lia|].
        destruct (Nat.leb_spec (vertex_count p) (vertex_count p - 1 + 1)); lia.
      * exists (i - 1). repeat split; [lia|].
        destruct (Nat.leb_spec (vertex_count p) (i - 1 + 1)); lia.
  - repeat split; [lia| |].
    + destruct (Nat.eqb_spec (i + 1) 0); [lia|]. f_equal. lia.
    + destruct (Nat.eqb_spec i 0) as [->|Hi].
      * rewrite usub_ok by lia. exists (vertex_count p - 1). repeat split; [lia|].
        destruct (Nat.leb_spec (vertex_count p) (vertex_count p - 1 + 1)); lia.
      * exists (i - 1). repeat split; [lia|].
        destruct (Nat.leb_spec (vertex_count p) (i - 1 + 1)); lia.
Qed.

Lemma fwd_dist_unique p i j :
  i < vertex_count p -> j < vertex_count p ->
  exists k, fwd_wrapping_dist p i j = Ret k /\ k < vertex_count p
            /\ fwd_wrapping_index p i k = j
            /\ forall k', k' < vertex_count p -> fwd_wrapping_index p i k' = j -> k' = k.
Proof.
  intros Hi Hj. destruct (fwd_wrapping_dist_mod p i j Hi Hj) as (k & H1 & H2 & H3).
  exists k. repeat split; auto.
  - rewrite fwd_wrapping_index_mod by lia. exact H3.
  - intros k' Hk'. rewrite fwd_wrapping_index_mod by lia. intros E.
    apply (mod_unique_offset (vertex_count p) i); lia.
Qed.

Lemma seg_index_history n c k :
  let it := seg_index_iter_nth k (seg_index_iter_new n c) in
  let l := spec_seg_indexes n c in
  sii_remaining it = length l - k
  /\ fst (seg_index_iter_next it) = nth_error l k.
Proof.
  intros it l.
  set (r := if n <? 2 then 0 else if c then n else n - 1).
  assert (Hl : length l = r) by (unfold l, spec_seg_indexes; now rewrite map_length, seq_length).
  assert (Hinv : sii_closed it = c /\ sii_remaining it = r - k
                 /\ (k < r -> sii_pos it = k)).
  { unfold it. clear it l Hl.
    assert (G : forall k j it0, sii_closed it0 = c -> sii_remaining it0 = r - j ->
              (j < r -> sii_pos it0 = j) ->
              sii_closed (seg_index_iter_nth k it0) = c
              /\ sii_remaining (seg_index_iter_nth k it0) = r - (j + k)
              /\ (j + k < r -> sii_pos (seg_index_iter_nth k it0) = j + k)).
    { clear k. induction k as [|k IH]; intros j it0 H1 H2 H3.
      - rewrite Nat.add_0_r. auto.
      - cbn [seg_index_iter_nth]. replace (j + S k) with (S j + k) by lia. apply IH;
          destruct it0 as [po re cl]; cbn [sii_pos sii_remaining sii_closed] in *; subst;
          unfold seg_index_iter_next; cbn [sii_pos sii_remaining sii_closed];
          (destruct (r - j) as [|m] eqn:E; cbn [snd sii_pos sii_remaining sii_closed];
           [|destruct ((m =? 0) && c) eqn:E2; cbn [snd sii_pos sii_remaining sii_closed]]); try lia; auto. }
    apply (G k 0 (seg_index_iter_new n c)).
    - reflexivity.
    - unfold seg_index_iter_new. cbn [sii_remaining]. fold r. lia.
    - reflexivity. }
  destruct Hinv as (H1 & H2 & H3). split; [lia|].
  destruct it as [po re cl]; cbn [sii_pos sii_remaining sii_closed] in *. subst cl re.
  unfold seg_index_iter_next; cbn [sii_pos sii_remaining sii_closed].
  destruct (r - k) as [|m] eqn:E.
  - cbn [fst]. symmetry. apply nth_error_None. lia.
  - rewrite H3 by lia.
    assert (Hn : nth_error l k = Some (k, (k + 1) mod n)).
    { unfold l, spec_seg_indexes. fold r.
      rewrite (map_nth_error _ k _ (d := k)); [reflexivity|].
      rewrite (nth_error_nth' _ 0) by (rewrite seq_length; lia).
      rewrite seq_nth by lia. reflexivity. }
    rewrite Hn. unfold r in *. clear Hn.
    destruct (Nat.ltb_spec n 2) as [L|L]; [lia|].
    destruct c.
    + destruct (Nat.eqb_spec m 0) as [->|Hm]; cbn [andb fst].
      * replace (k + 1) with n by lia. rewrite Nat.mod_same by lia. reflexivity.
      * rewrite Nat.mod_small by lia. reflexivity.
    + rewrite andb_false_r. cbn [fst]. rewrite Nat.mod_small by lia. reflexivity.
Qed.

End Nav.
