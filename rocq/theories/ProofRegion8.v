(** The path of a slice, forwards or backwards (C51). *)
From Coq Require Import Reals ZArith Bool List Arith Lra Lia Psatz Permutation Sorted.
From Verif Require Import Num RNum Res ModelMath ModelSeg ModelPline ModelView ModelIntersects ModelBoolean.
From Verif Require Import Spec SpecPline SpecGeom SpecBox SpecWinding SpecView SpecStitch SpecPrune.
From Verif Require Import ProofR ProofBase ProofIter ProofRepeat ProofSlice ProofView ProofWinding4 ProofWinding7 ProofRegion ProofRegion2 ProofRegion5 ProofRegion7.
Import ListNotations.
Local Open Scope R_scope.

Lemma nw_data x (s s' : seg) : seg_data s = seg_data s' -> nw x s = nw x s'.
Proof.
  destruct s as [[x1 y1 b1] [x2 y2 b2]], s' as [[x1' y1' b1'] [x2' y2' b2']]. unfold seg_data. cbn [fst snd px py pbulge].
  intros E. injection E as -> -> -> -> ->. reflexivity.
Qed.

Lemma fuzzy_sym (eps : R) a b : v2fuzzy_eq_eps a b eps = v2fuzzy_eq_eps b a eps.
Proof.
  unfold v2fuzzy_eq_eps, fuzzy_eq_eps. cbn. rewrite (Rabs_minus_sym (vx a)), (Rabs_minus_sym (vy a)). reflexivity.
Qed.

(** A segment with the data of another travelled backwards. *)
Lemma reverse_facts (s s' : seg) : seg_data s' = seg_reverse (seg_data s) ->
  pos (fst s') = pos (snd s) /\ pos (snd s') = pos (fst s) /\ pbulge (fst s') = - pbulge (fst s).
Proof.
  destruct s as [a b], s' as [a' b']. unfold seg_data, seg_reverse. cbn [fst snd]. rnum. intros E. injection E as E1 E2 E3 E4 E5.
  repeat split; auto; unfold pos; congruence.
Qed.

Lemma reverse_ok (s s' : seg) : seg_data s' = seg_reverse (seg_data s) -> okseg s -> okseg s'.
Proof.
  intros E (HB & HD). apply reverse_facts in E as (E1 & E2 & E3). split.
  - rewrite E3. destruct HB as [HB|HB]; [left; rewrite HB; ring|right; now rewrite Rabs_Ropp].
  - rewrite E3, E1, E2. intros N Q. apply HD; [intros Z; apply N; rewrite Z; ring|now symmetry].
Qed.

Lemma reverse_on (s s' : seg) q : seg_data s' = seg_reverse (seg_data s) -> on s' q -> on s q.
Proof.
  intros E (t & Ht & Hq). apply reverse_facts in E as (E1 & E2 & E3). exists (1 - t). split; [lra|].
  apply (seg_at_reverse (fst s') (snd s') (fst s) (snd s) t q); auto. lra.
Qed.

Lemma reverse_nw x (s s' : seg) : seg_data s' = seg_reverse (seg_data s) -> okseg s -> ~ on s x -> nw x s' = (- nw x s)%Z.
Proof.
  intros E Ok Ho. pose proof (reverse_facts s s' E) as (E1 & E2 & E3).
  apply nw_reverse; auto; [now apply (reverse_ok s)|]. intros N. apply Ho. now apply (reverse_on s s').
Qed.

Lemma reverse_list (eps : R) (P : vec2 R -> Prop) (L M : list seg) : map seg_data L = map (fun s => seg_reverse (seg_data s)) M ->
  (forall w, In w M -> okseg w /\ close_by eps (fst w) (snd w) = false /\ forall q, on w q -> P q) ->
  (forall x, (forall w, In w M -> ~ on w x) -> zsum (map (nw x) L) = (- zsum (map (nw x) M))%Z)
  /\ forall w, In w L -> close_by eps (fst w) (snd w) = false /\ okseg w /\ forall q, on w q -> P q.
Proof.
  revert M. induction L as [|s L IH]; intros [|m M] E H; try discriminate.
  - split; [reflexivity|intros w []].
  - cbn [map] in E.
    assert (E1 : seg_data s = seg_reverse (seg_data m)) by exact (f_equal (hd (seg_data s)) E).
    destruct (IH M (f_equal (@tl _) E)) as (I1 & I2); [intros w I; apply H; now right|].
    destruct (H m (or_introl eq_refl)) as (Okm & Cm & Pm). split.
    + intros x Hx. cbn [map zsum fold_right]. fold (zsum (map (nw x) L)) (zsum (map (nw x) M)).
      rewrite I1 by (intros w I; apply Hx; now right). rewrite (reverse_nw x m s E1 Okm); [lia|]. apply Hx. now left.
    + intros w [<-|I]; [|now apply I2]. pose proof (reverse_facts m s E1) as (F1 & F2 & _). split; [|split].
      * unfold close_by in *. rewrite F1, F2, fuzzy_sym. exact Cm.
      * now apply (reverse_ok m).
      * intros q Hq. apply Pm. now apply (reverse_on m s).
Qed.

Lemma turned_path (p1 p2 : pline R) eps (P : vec2 R -> Prop) (b : bool) s0 l :
  let p := slice_source p1 p2 s0 in let d := bs_view s0 in
  (vd_start_index d < vertex_count p)%nat -> (vd_end_index_offset d <= vertex_count p)%nat -> vd_inverted d = false ->
  (vd_end_index_offset d = 0%nat -> vd_updated_end_bulge d = pbulge (vd_updated_start d)) ->
  (forall w, In w (vsegs p d) -> okseg w /\ close_by eps (fst w) (snd w) = false /\ forall q, on w q -> P q) ->
  slice_path_is p1 p2 (turned b s0) l ->
  exists a m z, l = a :: m ++ [z] /\ pos a = slice_begin (turned b s0) /\ pos z = slice_end (turned b s0)
  /\ (forall pr, In pr (pairs l) -> close_by eps (fst pr) (snd pr) = false /\ okseg pr /\ forall q, on pr q -> P q)
  /\ forall x, (forall w, In w (vsegs p d) -> ~ on w x) -> zsum (map (nw x) (pairs l)) = ((if b then -1 else 1) * zsum (map (nw x) (vsegs p d)))%Z.
Proof.
  intros p d H1 H2 HI HE HW HP.
  destruct (view_forward_spec d p H1 H2 HI) as (_ & EV & EL).
  assert (VS : vsegs p d = pairs (fwd_list d p)) by (unfold vsegs; rewrite EV; apply spec_segs_pairs).
  assert (EP : forall e : vec2 R, pos (Vtx (vx e) (vy e) 0) = e) by (intros [? ?]; reflexivity).
  destruct b.
  - unfold slice_path_is in HP. unfold turned in HP. cbn [bs_view vd_inverted orb] in HP.
    cbn [vd_start_index vd_end_index_offset vd_updated_start vd_updated_end_bulge vd_end_point bs_source_is_pline1] in HP.
    fold d in HP. change (slice_source p1 p2 {| bs_view := _; bs_source_is_pline1 := bs_source_is_pline1 s0; bs_overlapping := bs_overlapping s0 |}) with p in HP.
    fold (fwd_list d p) in HP. destruct HP as (LL & HS & HN).
    assert (HS' : map seg_data (pairs l) = rev (map (fun s => seg_reverse (seg_data s)) (pairs (fwd_list d p)))).
    { rewrite !spec_segs_pairs in HS. apply HS. destruct (Nat.eq_dec (vd_end_index_offset d) 0); [right; auto|now left]. }
    rewrite <- map_rev in HS'. rewrite <- VS in HS'.
    destruct (reverse_list eps P (pairs l) (rev (vsegs p d)) HS') as (R1 & R2).
    { intros w I. apply HW. now apply in_rev. }
    assert (Sp : exists a m z, l = a :: m ++ [z]).
    { destruct l as [|a l]; [cbn in LL; lia|]. destruct l as [|z m] using rev_ind; [cbn in LL; lia|]. eauto. }
    destruct Sp as (a & m & z & ->). exists a, m, z. split; [reflexivity|].
    assert (Ez : pos z = pos (vd_updated_start d)).
    { cbn [length] in LL. rewrite app_length in LL. cbn [length] in LL. change (a :: m ++ [z]) with ((a :: m) ++ [z]) in HN.
      rewrite nth_error_app2 in HN by (cbn [length]; lia). replace (vd_end_index_offset d + 1 - length (a :: m))%nat with 0%nat in HN by (cbn [length]; lia).
      cbn in HN. injection HN as ->. reflexivity. }
    assert (Ea : pos a = vd_end_point d).
    { set (e := Vtx (vx (vd_end_point d)) (vy (vd_end_point d)) nzero).
      assert (EF : exists k y, pairs (fwd_list d p) = pairs (k ++ [y]) ++ [(y, e)]).
      { unfold fwd_list, spec_view. fold e. set (mid := rebulge_last _ _). change (vd_updated_start d :: mid ++ [e]) with ((vd_updated_start d :: mid) ++ [e]).
        destruct (@exists_last _ (vd_updated_start d :: mid)) as (k & y & Ek); [discriminate|]. rewrite Ek. exists k, y. rewrite <- app_assoc. apply (pairs_app k y [e]). }
      destruct EF as (k & y & EF). rewrite VS, EF, rev_app_distr in HS'. cbn [rev app map] in HS'.
      assert (exists c m', m ++ [z] = c :: m') as (c & m' & Ec) by (destruct m; eexists _, _; reflexivity).
      rewrite Ec in HS'. rewrite pairs_cons in HS'. cbn [map] in HS'.
      assert (F : seg_data (a, c) = seg_reverse (seg_data (y, e))) by exact (f_equal (hd (seg_data (a, c))) HS').
      apply reverse_facts in F as (F & _). cbn [fst snd] in F. rewrite F. apply EP. }
    split; [exact Ea|]. split; [exact Ez|]. split; [exact R2|].
    intros x Hx. etransitivity; [apply R1; intros w I; apply Hx; now apply in_rev|].
    assert (PM : zsum (map (nw x) (rev (vsegs p d))) = zsum (map (nw x) (vsegs p d))) by (apply zsum_perm, Permutation_map, Permutation_sym, Permutation_rev).
    rewrite PM. lia.
  - assert (ET : turned false s0 = s0).
    { unfold turned. destruct s0 as [dd sr ov]. cbn [bs_view] in *. destruct dd. reflexivity. }
    rewrite ET in *. unfold slice_path_is in HP. fold d in HP. rewrite HI in HP. fold p in HP. fold (fwd_list d p) in HP. subst l.
    exists (vd_updated_start d), (rebulge_last (spec_following (vtx p) (vd_start_index d) (vd_end_index_offset d)) (vd_updated_end_bulge d)), (Vtx (vx (vd_end_point d)) (vy (vd_end_point d)) nzero).
    split; [reflexivity|]. unfold slice_begin, slice_end. fold d. rewrite HI. split; [reflexivity|]. split; [apply EP|]. rewrite <- VS.
    split; [intros pr I; destruct (HW pr I) as (X1 & X2 & X3); auto|]. intros x _. lia.
Qed.

(** The segments of a slice, turned or not, are those of its view. *)
Definition same_way (s w : seg) : Prop := seg_data s = seg_data w \/ seg_data s = seg_reverse (seg_data w).

Lemma data_reverse (A M : list seg) : map seg_data A = map (fun s => seg_reverse (seg_data s)) M -> Forall2 same_way A M.
Proof.
  revert M. induction A as [|s A IH]; intros [|m M] E; try discriminate; [constructor|]. constructor.
  - right. exact (f_equal (hd (seg_data s)) E).
  - apply IH. exact (f_equal (@tl _) E).
Qed.

Lemma turned_data (p1 p2 : pline R) (b : bool) s0 l :
  let p := slice_source p1 p2 s0 in let d := bs_view s0 in
  (vd_start_index d < vertex_count p)%nat -> (vd_end_index_offset d <= vertex_count p)%nat -> vd_inverted d = false ->
  (vd_end_index_offset d = 0%nat -> vd_updated_end_bulge d = pbulge (vd_updated_start d)) ->
  slice_path_is p1 p2 (turned b s0) l -> exists L, Permutation L (vsegs p d) /\ Forall2 same_way (pairs l) L.
Proof.
  intros p d H1 H2 HI HE HP.
  destruct (view_forward_spec d p H1 H2 HI) as (_ & EV & EL).
  assert (VS : vsegs p d = pairs (fwd_list d p)) by (unfold vsegs; rewrite EV; apply spec_segs_pairs).
  destruct b.
  - unfold slice_path_is in HP. unfold turned in HP. cbn [bs_view vd_inverted orb] in HP.
    cbn [vd_start_index vd_end_index_offset vd_updated_start vd_updated_end_bulge vd_end_point bs_source_is_pline1] in HP.
    fold d in HP. change (slice_source p1 p2 {| bs_view := _; bs_source_is_pline1 := bs_source_is_pline1 s0; bs_overlapping := bs_overlapping s0 |}) with p in HP.
    fold (fwd_list d p) in HP. destruct HP as (LL & HS & HN).
    assert (HS' : map seg_data (pairs l) = rev (map (fun s => seg_reverse (seg_data s)) (pairs (fwd_list d p)))).
    { rewrite !spec_segs_pairs in HS. apply HS. destruct (Nat.eq_dec (vd_end_index_offset d) 0); [right; auto|now left]. }
    rewrite <- map_rev in HS'. rewrite <- VS in HS'. exists (rev (vsegs p d)). split; [apply Permutation_sym, Permutation_rev|].
    exact (data_reverse _ _ HS').
  - assert (ET : turned false s0 = s0).
    { unfold turned. destruct s0 as [dd sr ov]. cbn [bs_view] in *. destruct dd. reflexivity. }
    rewrite ET in *. unfold slice_path_is in HP. fold d in HP. rewrite HI in HP. fold p in HP. fold (fwd_list d p) in HP. subst l.
    exists (vsegs p d). split; [apply Permutation_refl|]. rewrite VS. generalize (pairs (fwd_list d p)). intros A. induction A as [|s A IH]; constructor; [now left|exact IH].
Qed.
