(** Lemmas about views (C26, C27). *)
From Coq Require Import List Arith Bool Lia.
From Verif Require Import Num Res ModelMath ModelSeg ModelPline ModelView Spec SpecPline SpecView
  ProofBase ProofIter ProofInvert.
Import ListNotations.

Section View.
Context {T : Type} {N : Num T}.
Implicit Types p : pline T.

Lemma rotate_length {A} k (l : list A) : length (spec_rotate k l) = length l.
Proof.
  unfold spec_rotate. rewrite app_length, skipn_length, firstn_length. lia.
Qed.

Lemma nth_error_skipn' {A} (l : list A) k i : nth_error (skipn k l) i = nth_error l (k + i).
Proof. revert l. induction k as [|k IH]; intros [|a l]; simpl; auto; now destruct i. Qed.

Lemma nth_error_firstn' {A} (l : list A) k i : i < k -> nth_error (firstn k l) i = nth_error l i.
Proof.
  revert l i. induction k as [|k IH]; intros [|a l] [|i] H; simpl; auto; try lia. apply IH. lia.
Qed.

Lemma rotate_nth {A} k (l : list A) i : k <= length l -> i < length l ->
  nth_error (spec_rotate k l) i = nth_error l ((k + i) mod length l).
Proof.
  intros Hk Hi. unfold spec_rotate.
  destruct (Nat.ltb_spec (k + i) (length l)) as [L|L].
  - rewrite nth_error_app1 by (rewrite skipn_length; lia).
    rewrite nth_error_skipn', Nat.mod_small by lia. reflexivity.
  - rewrite nth_error_app2 by (rewrite skipn_length; lia). rewrite skipn_length.
    rewrite nth_error_firstn' by lia.
    replace (k + i) with (k + i - length l + 1 * length l) by lia.
    rewrite Nat.mod_add by lia. rewrite Nat.mod_small by lia. f_equal. lia.
Qed.

Lemma following_length {A} (l : list A) i k : k <= length l -> length (spec_following l i k) = k.
Proof. intros H. unfold spec_following. rewrite firstn_length, rotate_length. lia. Qed.

Lemma following_nth {A} (l : list A) i k j : i < length l -> k <= length l -> j < k ->
  nth_error (spec_following l i k) j = nth_error l ((i + 1 + j) mod length l).
Proof.
  intros H1 H2 H3. unfold spec_following. rewrite nth_error_firstn' by lia.
  apply rotate_nth; lia.
Qed.

Lemma rebulge_length (l : list (vertex T)) b : length (rebulge_last l b) = length l.
Proof. induction l as [|v [|w t] IH]; simpl in *; auto. Qed.

Lemma rebulge_nth (l : list (vertex T)) b i : 
  nth_error (rebulge_last l b) i =
  match nth_error l i with
  | None => None
  | Some v => Some (if Nat.eqb (i + 1) (length l) then with_bulge v b else v)
  end.
Proof.
  revert i. induction l as [|v [|w t] IH]; intros i.
  - now destruct i.
  - destruct i as [|i]; [reflexivity|now destruct i].
  - destruct i as [|i]; [reflexivity|].
    change (nth_error (rebulge_last (w :: t) b) i = match nth_error (w :: t) i with
      | None => None | Some v0 => Some (if (S i + 1) =? S (length (w :: t)) then with_bulge v0 b else v0) end).
    rewrite IH. reflexivity.
Qed.

(** The forward vertexes of view data. *)
Definition fwd_list (d : view_data T) p : list (vertex T) :=
  spec_view (vd_updated_start d) (spec_following (vtx p) (vd_start_index d) (vd_end_index_offset d))
            (vd_updated_end_bulge d) (vd_end_point d).

Lemma fwd_list_length d p : vd_end_index_offset d <= vertex_count p ->
  length (fwd_list d p) = vd_end_index_offset d + 2.
Proof.
  intros H. unfold fwd_list, spec_view. cbn [length].
  rewrite app_length, rebulge_length, following_length by exact H. simpl. lia.
Qed.

(** Vertexes of the forward list by position. *)
Lemma fwd_list_nth d p i : vd_start_index d < vertex_count p ->
  vd_end_index_offset d <= vertex_count p ->
  nth_error (fwd_list d p) i =
  if i =? 0 then Some (vd_updated_start d)
  else if i <=? vd_end_index_offset d then
    match nth_error (vtx p) ((vd_start_index d + i) mod vertex_count p) with
    | Some v => Some (if i =? vd_end_index_offset d then with_bulge v (vd_updated_end_bulge d) else v)
    | None => None
    end
  else if i =? vd_end_index_offset d + 1 then Some (Vtx (vx (vd_end_point d)) (vy (vd_end_point d)) nzero)
  else None.
Proof.
  intros H1 H2. unfold fwd_list, spec_view.
  destruct i as [|i]; [reflexivity|]. cbn [nth_error].
  set (off := vd_end_index_offset d) in *.
  set (m := spec_following (vtx p) (vd_start_index d) off).
  assert (Hm : length m = off) by (apply following_length; exact H2).
  replace (S i =? 0) with false by reflexivity.
  destruct (Nat.leb_spec (S i) off) as [L|L].
  - rewrite nth_error_app1 by (rewrite rebulge_length; lia).
    rewrite rebulge_nth. unfold m. rewrite following_nth by (fold (vertex_count p); lia).
    fold (vertex_count p). fold m. rewrite Hm.
    replace (vd_start_index d + 1 + i) with (vd_start_index d + S i) by lia.
    replace (i + 1) with (S i) by lia. reflexivity.
  - rewrite nth_error_app2 by (rewrite rebulge_length; lia). rewrite rebulge_length, Hm.
    destruct (Nat.eqb_spec (S i) (off + 1)) as [E|E].
    + replace (i - off) with 0 by lia. reflexivity.
    + replace (i - off) with (S (i - off - 1)) by lia. now destruct (i - off - 1).
Qed.

Lemma nth_error_some {A} (l : list A) i : i < length l -> exists a, nth_error l i = Some a.
Proof. intros H. destruct (nth_error l i) eqn:E; eauto. apply nth_error_None in E. lia. Qed.

Lemma view_forward_get d p i : vd_start_index d < vertex_count p ->
  vd_end_index_offset d <= vertex_count p -> vd_inverted d = false ->
  view_get_vertex d p i = Ret (nth_error (fwd_list d p) i).
Proof.
  intros H1 H2 H3. rewrite fwd_list_nth by assumption.
  unfold view_get_vertex, view_vertex_count. rewrite H3.
  set (off := vd_end_index_offset d) in *. set (n := vertex_count p) in *.
  assert (Hn : n <> 0) by lia.
  destruct (Nat.leb_spec (off + 2) i) as [L|L].
  - destruct (Nat.eqb_spec i 0); [lia|]. destruct (Nat.leb_spec i off); [lia|].
    destruct (Nat.eqb_spec i (off + 1)); [lia|reflexivity].
  - destruct (Nat.eqb_spec i 0) as [->|E0]; [reflexivity|].
    assert (HV : i <= off -> exists v, nth_error (vtx p) ((vd_start_index d + i) mod n) = Some v
                 /\ at_ p (fwd_wrapping_index p (vd_start_index d) i) = Ret v).
    { intros Hi. destruct (nth_error_some (vtx p) ((vd_start_index d + i) mod n)) as [v Hv].
      { fold (vertex_count p). apply Nat.mod_upper_bound. exact Hn. }
      exists v. split; [exact Hv|]. rewrite fwd_wrapping_index_mod by (fold n; lia). apply at_ok. exact Hv. }
    destruct (Nat.ltb_spec i off) as [L1|L1].
    + destruct HV as (v & Hv & Ha); [lia|].
      destruct (Nat.leb_spec i off); [|lia]. rewrite Hv, Ha. cbn [rbind].
      destruct (Nat.eqb_spec i off); [lia|reflexivity].
    + destruct (Nat.eqb_spec i off) as [E|E].
      * destruct HV as (v & Hv & Ha); [lia|]. destruct (Nat.leb_spec i off); [|lia].
        rewrite Hv. rewrite <- E, Ha. reflexivity.
      * destruct (Nat.leb_spec i off); [lia|]. destruct (Nat.eqb_spec i (off + 1)); [reflexivity|lia].
Qed.

Lemma rmapM_ok {A B} (f : A -> res B) (l : list A) (m : list B) :
  length m = length l ->
  (forall i a, nth_error l i = Some a -> exists b, nth_error m i = Some b /\ f a = Ret b) ->
  rmapM f l = Ret m.
Proof.
  revert m. induction l as [|a t IH]; intros [|b m] HL H; try discriminate; [reflexivity|].
  cbn [rmapM]. destruct (H 0 a eq_refl) as (b' & E & F). simpl in E. injection E as <-.
  rewrite F. cbn [rbind]. rewrite (IH m); [reflexivity|simpl in HL; lia|].
  intros i a' Ha. apply (H (S i) a' Ha).
Qed.

Lemma view_vertexes_ok d p l : 
  (forall i, view_get_vertex d p i = Ret (nth_error l i)) -> length l = vd_end_index_offset d + 2 ->
  view_vertexes d p = Ret l.
Proof.
  intros H HL. unfold view_vertexes, view_vertex_count. apply rmapM_ok; [rewrite seq_length; exact HL|].
  intros i a Ha. 
  assert (Hi : i < vd_end_index_offset d + 2).
  { assert (Hs : nth_error (seq 0 (vd_end_index_offset d + 2)) i <> None) by congruence.
    apply nth_error_Some in Hs. now rewrite seq_length in Hs. }
  assert (a = i). 
  { apply (nth_error_nth _ _ 0) in Ha. rewrite seq_nth in Ha by exact Hi. lia. }
  subst a. rewrite H. destruct (nth_error_some l i) as [v Hv]; [lia|]. exists v. rewrite Hv. split; reflexivity.
Qed.

(** ** The path travelled backwards *)
Definition backwards (l : list (vertex T)) : list (vertex T) :=
  map (fun i => match nth_error l (length l - 1 - i) with
                | Some v => with_bulge v (match i + 1 <? length l, nth_error l (length l - 2 - i) with
                                          | true, Some w => nneg (pbulge w)
                                          | _, _ => nzero end)
                | None => Vtx nzero nzero nzero end) (seq 0 (length l)).

Lemma backwards_length l : length (backwards l) = length l.
Proof. unfold backwards. now rewrite map_length, seq_length. Qed.

Lemma nth_error_seq' k n i : i < n -> nth_error (seq k n) i = Some (k + i).
Proof.
  revert k i. induction n as [|n IH]; intros k [|i] H; simpl; try lia; [f_equal; lia|].
  rewrite IH by lia. f_equal. lia.
Qed.

Lemma backwards_nth l i v w : i + 1 < length l ->
  nth_error l (length l - 1 - i) = Some v -> nth_error l (length l - 2 - i) = Some w ->
  nth_error (backwards l) i = Some (with_bulge v (nneg (pbulge w))).
Proof.
  intros Hi Hv Hw. unfold backwards.
  erewrite map_nth_error by (apply nth_error_seq'; lia). simpl Nat.add. rewrite Hv, Hw.
  rewrite (proj2 (Nat.ltb_lt _ _) Hi). reflexivity.
Qed.

Lemma backwards_last l v t : l = v :: t ->
  nth_error (backwards l) (length l - 1) = Some (with_bulge v nzero).
Proof.
  intros ->. unfold backwards.
  erewrite map_nth_error by (apply nth_error_seq'; simpl; lia).
  replace (length (v :: t) - 1 - (0 + (length (v :: t) - 1))) with 0 by lia. cbn [nth_error].
  destruct (Nat.ltb_spec (0 + (length (v :: t) - 1) + 1) (length (v :: t))); [simpl in *; lia|reflexivity].
Qed.

Lemma backwards_segments l :
  map seg_data (spec_segs (backwards l) false)
  = rev (map (fun s => seg_reverse (seg_data s)) (spec_segs l false)).
Proof.
  set (n := length l).
  assert (HB : length (spec_segs (backwards l) false) = n - 1).
  { rewrite spec_segs_length, backwards_length. fold n. destruct (Nat.ltb_spec n 2); lia. }
  assert (HL : length (spec_segs l false) = n - 1).
  { rewrite spec_segs_length. fold n. destruct (Nat.ltb_spec n 2); lia. }
  apply nth_error_ext. intros i.
  destruct (Nat.ltb_spec i (n - 1)) as [Hi|Hi].
  2:{ rewrite (proj2 (nth_error_None _ i)) by (rewrite map_length; lia).
      rewrite (proj2 (nth_error_None _ i)) by (rewrite rev_length, map_length; lia). reflexivity. }
  rewrite rev_nth_error by (rewrite map_length; lia). rewrite map_length, HL.
  destruct (spec_segs_nth (backwards l) false i) as (a & b & S1 & S2 & S3); [lia|].
  destruct (spec_segs_nth l false (n - 1 - 1 - i)) as (a' & b' & R1 & R2 & R3); [lia|].
  rewrite (map_nth_error _ _ _ S1), (map_nth_error _ _ _ R1). f_equal.
  fold n in R3. rewrite Nat.mod_small in R3 by lia.
  rewrite backwards_length in S3. fold n in S3. rewrite Nat.mod_small in S3 by lia.
  rewrite (backwards_nth l i b' a') in S2; [| | |].
  2:{ fold n; lia. }
  2:{ fold n. rewrite <- R3. f_equal. lia. }
  2:{ fold n. rewrite <- R2. f_equal. lia. }
  injection S2 as <-.
  assert (Pb : position b = position a').
  { destruct (Nat.eq_dec (i + 1) (n - 1)) as [E|E].
    - destruct l as [|v t] eqn:El; [simpl in n; lia|].
      rewrite E in S3. unfold n in S3. rewrite (backwards_last (v :: t) v t eq_refl) in S3.
      injection S3 as <-. replace (n - 1 - 1 - i) with 0 in R2 by lia. simpl in R2. injection R2 as <-.
      reflexivity.
    - destruct (nth_error_some l (n - 2 - (i + 1))) as [w Hw]; [fold n; lia|].
      rewrite (backwards_nth l (i + 1) a' w) in S3; [| | |].
      + injection S3 as <-. reflexivity.
      + fold n; lia.
      + fold n. rewrite <- R2. f_equal. lia.
      + exact Hw. }
  unfold seg_data, seg_reverse. cbn [fst snd px py pbulge with_bulge].
  fold (position b) (position a'). rewrite Pb. reflexivity.
Qed.

Lemma view_inverted_get d p i : vd_start_index d < vertex_count p ->
  vd_end_index_offset d <= vertex_count p -> vd_inverted d = true ->
  (vd_end_index_offset d = 0 -> vd_updated_end_bulge d = pbulge (vd_updated_start d)) ->
  view_get_vertex d p i = Ret (nth_error (backwards (fwd_list d p)) i).
Proof.
  intros H1 H2 H3 H4.
  pose proof (fwd_list_length d p H2) as HL.
  pose proof (fun j => fwd_list_nth d p j H1 H2) as HN.
  unfold view_get_vertex, view_vertex_count. rewrite H3.
  set (off := vd_end_index_offset d) in *. set (n := vertex_count p) in *. set (l := fwd_list d p) in *.
  assert (Hn : n <> 0) by lia.
  assert (HV : forall i, i <= off -> exists v, nth_error (vtx p) ((vd_start_index d + i) mod n) = Some v
                 /\ at_ p (fwd_wrapping_index p (vd_start_index d) i) = Ret v).
  { intros j Hi. destruct (nth_error_some (vtx p) ((vd_start_index d + j) mod n)) as [v Hv].
    { fold (vertex_count p). apply Nat.mod_upper_bound. exact Hn. }
    exists v. split; [exact Hv|]. rewrite fwd_wrapping_index_mod by (fold n; lia). apply at_ok. exact Hv. }
  destruct (Nat.leb_spec (off + 2) i) as [L|L].
  { rewrite (proj2 (nth_error_None _ i)); [reflexivity|]. rewrite backwards_length. lia. }
  destruct (Nat.eqb_spec i 0) as [->|E0].
  - assert (Hend : nth_error l (length l - 1 - 0) = Some (Vtx (vx (vd_end_point d)) (vy (vd_end_point d)) nzero)).
    { rewrite HN, HL. destruct (Nat.eqb_spec (off + 2 - 1 - 0) 0); [lia|].
      destruct (Nat.leb_spec (off + 2 - 1 - 0) off); [lia|].
      destruct (Nat.eqb_spec (off + 2 - 1 - 0) (off + 1)); [reflexivity|lia]. }
    assert (Hb : exists w, nth_error l (length l - 2 - 0) = Some w /\ pbulge w = vd_updated_end_bulge d).
    { rewrite HN, HL. destruct (Nat.eqb_spec (off + 2 - 2 - 0) 0) as [Z|Z].
      - eexists. split; [reflexivity|]. symmetry. apply H4. lia.
      - destruct (Nat.leb_spec (off + 2 - 2 - 0) off); [|lia].
        destruct (HV (off + 2 - 2 - 0)) as (v & Hv & _); [lia|]. rewrite Hv.
        destruct (Nat.eqb_spec (off + 2 - 2 - 0) off); [|lia]. eexists. split; reflexivity. }
    destruct Hb as (w & Hw & Hwb).
    rewrite (backwards_nth l 0 _ w) by (try lia; eassumption). rewrite Hwb. reflexivity.
  - destruct (Nat.ltb_spec i off) as [L1|L1].
    + destruct (HV (off - i)) as (w & Hw & Wa); [lia|].
      destruct (HV (off + 1 - i)) as (v & Hv & Va); [lia|].
      rewrite Wa.
      assert (Hidx : next_wrapping_index p (fwd_wrapping_index p (vd_start_index d) (off - i))
              = (vd_start_index d + (off + 1 - i)) mod n).
      { rewrite fwd_wrapping_index_mod by (fold n; lia). fold n.
        rewrite next_wrapping_index_mod by (fold n; apply Nat.mod_upper_bound; exact Hn). fold n.
        rewrite Nat.add_mod_idemp_l by exact Hn. f_equal. lia. }
      rewrite Hidx, (at_ok p _ v Hv). cbn [rbind].
      rewrite (backwards_nth l i (if off + 1 - i =? off then with_bulge v (vd_updated_end_bulge d) else v) w).
      * destruct (off + 1 - i =? off); reflexivity.
      * lia.
      * rewrite HN, HL. destruct (Nat.eqb_spec (off + 2 - 1 - i) 0); [lia|].
        destruct (Nat.leb_spec (off + 2 - 1 - i) off); [|lia].
        replace (off + 2 - 1 - i) with (off + 1 - i) by lia. rewrite Hv. reflexivity.
      * rewrite HN, HL. destruct (Nat.eqb_spec (off + 2 - 2 - i) 0); [lia|].
        destruct (Nat.leb_spec (off + 2 - 2 - i) off); [|lia].
        replace (off + 2 - 2 - i) with (off - i) by lia. rewrite Hw.
        destruct (Nat.eqb_spec (off - i) off); [lia|]. reflexivity.
    + destruct (Nat.eqb_spec i off) as [E|E].
      * subst i. rewrite usub_ok by lia. cbn [rbind]. replace (off - off + 1) with 1 by lia.
        destruct (HV 1) as (v & Hv & Va); [lia|]. rewrite Va. cbn [rbind].
        rewrite (backwards_nth l off (if 1 =? off then with_bulge v (vd_updated_end_bulge d) else v) (vd_updated_start d)).
        { destruct (1 =? off); reflexivity. }
        { lia. }
        { rewrite HN, HL. destruct (Nat.eqb_spec (off + 2 - 1 - off) 0); [lia|].
          destruct (Nat.leb_spec (off + 2 - 1 - off) off); [|lia].
          replace (off + 2 - 1 - off) with 1 by lia. rewrite Hv. reflexivity. }
        { rewrite HN, HL. destruct (Nat.eqb_spec (off + 2 - 2 - off) 0); [reflexivity|lia]. }
      * destruct (Nat.eqb_spec i (off + 1)) as [E'|E']; [|lia].
        subst i. replace (off + 1) with (length l - 1) by lia.
        rewrite (backwards_last l (vd_updated_start d) (tl l)); reflexivity.
Qed.

Lemma view_inverted_spec d p : vd_start_index d < vertex_count p ->
  vd_end_index_offset d <= vertex_count p -> vd_inverted d = true ->
  (vd_end_index_offset d = 0 -> vd_updated_end_bulge d = pbulge (vd_updated_start d)) ->
  exists l, (forall i, view_get_vertex d p i = Ret (nth_error l i))
    /\ view_vertexes d p = Ret l
    /\ length l = vd_end_index_offset d + 2
    /\ map seg_data (spec_segs l false)
       = rev (map (fun s => seg_reverse (seg_data s)) (spec_segs (fwd_list d p) false))
    /\ nth_error l (vd_end_index_offset d + 1)
       = Some (Vtx (px (vd_updated_start d)) (py (vd_updated_start d)) nzero).
Proof.
  intros H1 H2 H3 H4. exists (backwards (fwd_list d p)).
  assert (HG := fun i => view_inverted_get d p i H1 H2 H3 H4).
  assert (HL : length (backwards (fwd_list d p)) = vd_end_index_offset d + 2)
    by (rewrite backwards_length; apply fwd_list_length; exact H2).
  split; [exact HG|]. split; [apply view_vertexes_ok; assumption|].
  split; [exact HL|]. split; [apply backwards_segments|].
  replace (vd_end_index_offset d + 1) with (length (fwd_list d p) - 1)
    by (rewrite fwd_list_length by exact H2; lia).
  rewrite (backwards_last (fwd_list d p) (vd_updated_start d) (tl (fwd_list d p))); reflexivity.
Qed.

Lemma view_forward_spec d p : vd_start_index d < vertex_count p ->
  vd_end_index_offset d <= vertex_count p -> vd_inverted d = false ->
  (forall i, view_get_vertex d p i = Ret (nth_error (fwd_list d p) i))
  /\ view_vertexes d p = Ret (fwd_list d p)
  /\ length (fwd_list d p) = vd_end_index_offset d + 2.
Proof.
  intros H1 H2 H3. split; [intros i; apply view_forward_get; assumption|].
  split; [|apply fwd_list_length; exact H2].
  apply view_vertexes_ok; [intros i; apply view_forward_get; assumption|apply fwd_list_length; exact H2].
Qed.

End View.
