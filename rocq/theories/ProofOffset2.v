(** Slices of the raw offset that are kept (C34): what was tested about them. *)
From Coq Require Import ZArith Bool List Arith Lia.
From Verif Require Import Num Res ModelMath ModelIntr ModelSeg ModelPline ModelView ModelSegIntr ModelIndex ModelIntersects ModelBoolean ModelOffset.
From Verif Require Import Spec SpecPline SpecView SpecIndex.
From Verif Require Import ProofBase ProofIter ProofInvert ProofView ProofIndex2.
Import ListNotations.

Section Offset2.
Context {T : Type} {N : Num T}.

(** View data that can be read without leaving the source, not inverted. *)
Definition slice_shape (raw : pline T) (d : view_data T) : Prop :=
  vd_start_index d < vertex_count raw /\ vd_end_index_offset d <= vertex_count raw /\ vd_inverted d = false.

Lemma next_lt (p : pline T) i : 0 < vertex_count p -> next_wrapping_index p i < vertex_count p.
Proof. unfold next_wrapping_index. intros H. destruct (Nat.leb_spec (vertex_count p) (i + 1)); lia. Qed.

Lemma at_lt (p : pline T) i : i < vertex_count p -> exists v, nth_error (vtx p) i = Some v /\ at_ p i = Ret v.
Proof. intros H. destruct (index_lt (vtx p) i H) as (a & E & F). exists a. split; [exact E|exact F]. Qed.

Ltac at_step i := let v := fresh "v" in let H := fresh "H" in
  match goal with |- context [at_ ?p i] => destruct (at_lt p i) as (v & _ & H); [|rewrite H; cbn [rbind]] end.

Lemma slice_points_total (raw : pline T) sp i ep j eps : i < vertex_count raw -> j < vertex_count raw ->
  exists o, view_from_slice_points raw sp i ep j eps = Ret o
    /\ forall d, o = Some d -> slice_shape raw d /\ vd_end_point d = ep.
Proof.
  intros Hi Hj. unfold view_from_slice_points.
  assert (H0 : 0 < vertex_count raw) by lia.
  match goal with |- exists o, rbind ?X _ = _ /\ _ =>
    assert (SB : exists i' b, X = Ret (i', b) /\ i' < vertex_count raw) end.
  { destruct (_ && _); [eauto|]. cbv zeta. destruct (at_lt raw (next_wrapping_index raw i) (next_lt raw i H0)) as (v & _ & ->).
    cbn [rbind]. destruct (v2fuzzy_eq_eps _ _ _); eauto using next_lt. }
  destruct SB as (i' & b & -> & Hi'). cbn [rbind].
  destruct (fwd_wrapping_dist_mod raw i' j Hi' Hj) as (k & -> & Hk & _). cbn [rbind].
  destruct (at_lt raw i' Hi') as (sv & _ & Esv). rewrite Esv. cbn [rbind].
  destruct (at_lt raw (next_wrapping_index raw i') (next_lt raw i' H0)) as (sv2 & _ & ->). cbn [rbind].
  match goal with |- exists o, rbind ?X _ = _ /\ _ =>
    assert (TC : exists tc, X = Ret tc /\ tc <= vertex_count raw) end.
  { destruct (_ && _); [cbv zeta; destruct (nltb _ _); eexists; split; eauto; lia|eexists; split; eauto; lia]. }
  destruct TC as (tc & -> & Htc). cbn [rbind].
  set (us := if b then _ else _). destruct (Nat.eqb_spec tc 0) as [E|E].
  - eexists. split; [reflexivity|]. intros d Hd. unfold create_on_single_segment in Hd.
    destruct (v2fuzzy_eq_eps _ _ _); [discriminate|]. injection Hd as <-. unfold slice_shape. cbn. repeat split; auto; lia.
  - unfold view_create. destruct (Nat.eqb_spec tc 0); [contradiction|].
    destruct (at_lt raw j Hj) as (cv & _ & ->). cbn [rbind].
    destruct (v2fuzzy_eq_eps ep (pos cv) eps).
    + destruct (negb (tc - 1 =? 0)).
      * rewrite prev_wrapping_index_mod by exact Hj. cbn [rbind].
        destruct (at_lt raw ((j + (vertex_count raw - 1)) mod vertex_count raw)) as (pv & _ & ->); [apply Nat.mod_upper_bound; lia|].
        cbn [rbind]. eexists. split; [reflexivity|]. intros d Hd. injection Hd as <-. unfold slice_shape. cbn. repeat split; auto; lia.
      * cbn [rbind]. eexists. split; [reflexivity|]. intros d Hd. injection Hd as <-. unfold slice_shape. cbn. repeat split; auto; lia.
    + destruct (at_lt raw (next_wrapping_index raw j) (next_lt raw j H0)) as (nv & _ & ->). cbn [rbind].
      eexists. split; [reflexivity|]. intros d Hd. injection Hd as <-. unfold slice_shape. cbn. repeat split; auto; lia.
Qed.

Lemma slice_points_shape (raw : pline T) sp i ep j eps d :
  i < vertex_count raw -> j < vertex_count raw ->
  view_from_slice_points raw sp i ep j eps = Ret (Some d) -> slice_shape raw d /\ vd_end_point d = ep.
Proof.
  intros Hi Hj H. destruct (slice_points_total raw sp i ep j eps Hi Hj) as (o & E & F). rewrite E in H. injection H as ->. now apply F.
Qed.

Lemma entire_shape (raw : pline T) d : view_from_entire_pline raw = Ret d -> slice_shape raw d.
Proof.
  unfold view_from_entire_pline. destruct (Nat.ltb_spec (vertex_count raw) 2) as [L|L]; [discriminate|].
  destruct (at_lt raw 0) as (v0 & _ & ->); [lia|]. cbn [rbind]. destruct (is_closed raw).
  - destruct (last_ raw) as [[l|]|]; cbn [rbind unwrap]; try discriminate. intros H. injection H as <-. unfold slice_shape. cbn. repeat split; lia.
  - destruct (at_lt raw (vertex_count raw - 2)) as (w & _ & ->); [lia|].
    destruct (at_lt raw (vertex_count raw - 1)) as (l & _ & ->); [lia|]. cbn [rbind].
    intros H. injection H as <-. unfold slice_shape. cbn. repeat split; lia.
Qed.

(** ** What the tests say *)
Section Tests.
Context (p raw : pline T) (idx : sindex T) (offset : T) (o : offset_options T).

Definition accepted (pt : vec2 T) : Prop :=
  point_valid_for_offset p offset idx pt (oo_pos_equal_eps o) (oo_offset_dist_eps o) = Ret true.

Definition untouched (w1 w2 : vertex T) : Prop :=
  intersects_original p idx (oo_pos_equal_eps o) w1 w2 = Ret false.

(** Everything the code tests about the path [l] of a slice. *)
Definition slice_tested (l : list (vertex T)) : Prop :=
  (forall w, In w l -> accepted (pos w))
  /\ (forall w1 w2, In (w1, w2) (spec_segs l false) -> untouched w1 w2)
  /\ (forall k w1 w2, k = 0 \/ k + 2 = length l -> nth_error (spec_segs l false) k = Some (w1, w2) ->
        accepted (seg_midpoint w1 w2)).

Lemma rand_true a b : rand a b = Ret true -> a = Ret true /\ b = Ret true.
Proof. unfold rand. destruct a as [[]|]; cbn [rbind]; intros H; try discriminate. auto. Qed.
Lemma rnot_true a : rnot a = Ret true -> a = Ret false.
Proof. unfold rnot. destruct a as [[]|]; cbn [rbind]; intros H; try discriminate. auto. Qed.

Lemma segments_valid_true segs : segments_valid p idx offset o segs = Ret true ->
  forall w1 w2, In (w1, w2) segs -> accepted (pos w1) /\ untouched w1 w2.
Proof.
  induction segs as [|[a b] t IH]; intros H w1 w2 Hin; [destruct Hin|].
  cbn [segments_valid] in H. apply rand_true in H as [H1 H]. apply rand_true in H as [H2 H].
  destruct Hin as [E|Hin]; [|now apply IH]. injection E as <- <-. split; [exact H1|now apply rnot_true].
Qed.

Lemma midpoint_bulge (v1 v2 : vertex T) b : seg_midpoint v1 (with_bulge v2 b) = seg_midpoint v1 v2.
Proof. reflexivity. Qed.

Lemma spec_segs_open_nth (l : list (vertex T)) i w1 w2 : nth_error (spec_segs l false) i = Some (w1, w2) ->
  nth_error l i = Some w1 /\ nth_error l (i + 1) = Some w2.
Proof.
  intros H. assert (L : i < length (spec_segs l false)) by (apply nth_error_Some; congruence).
  destruct (spec_segs_nth _ _ i L) as (a & b & E & E1 & E2). rewrite H in E. injection E as <- <-.
  rewrite spec_segs_length in L. destruct (Nat.ltb_spec (length l) 2); [lia|].
  rewrite Nat.mod_small in E2 by lia. auto.
Qed.

Lemma slice_valid_tested s : slice_shape raw s -> slice_is_valid p raw idx offset o s = Ret true ->
  view_pline s raw = Ret (PL (fwd_list s raw) false) /\ slice_tested (fwd_list s raw).
Proof.
  intros (H1 & H2 & H3) HV. destruct (view_forward_spec s raw H1 H2 H3) as (HG & HL & LEN).
  assert (VP : view_pline s raw = Ret (PL (fwd_list s raw) false)) by (unfold view_pline; rewrite HL; reflexivity).
  split; [exact VP|]. unfold slice_is_valid in HV.
  pose proof (fun i => fwd_list_nth s raw i H1 H2) as HN.
  destruct (Nat.eqb_spec (vd_end_index_offset s) 0) as [E|E].
  - apply rand_true in HV as [A HV]. apply rand_true in HV as [B HV]. apply rand_true in HV as [C HV]. apply rnot_true in HV.
    assert (EL : fwd_list s raw = [vd_updated_start s; from_vector2 (vd_end_point s) nzero]).
    { unfold fwd_list, spec_view, spec_following. rewrite E. reflexivity. }
    rewrite EL. split; [|split].
    + intros w [<-|[<-|[]]]; assumption.
    + intros w1 w2 [H|[]]. injection H as <- <-. exact HV.
    + intros k w1 w2 _ Hk. destruct k as [|[|k]]; try discriminate. cbn in Hk. injection Hk as <- <-. exact C.
  - destruct (at_lt raw (next_wrapping_index raw (vd_start_index s))) as (nv & Nnv & Env); [apply next_lt; lia|].
    rewrite Env in HV. cbn [rbind] in HV. apply rand_true in HV as [M1 HV].
    destruct (at_lt raw (fwd_wrapping_index raw (vd_start_index s) (vd_end_index_offset s))) as (ev & Nev & Eev).
    { rewrite fwd_wrapping_index_mod by lia. apply Nat.mod_upper_bound. lia. }
    rewrite Eev in HV. cbn [rbind] in HV. apply rand_true in HV as [M2 HV]. rewrite VP in HV. cbn [rbind] in HV.
    rewrite iter_segments_spec in HV. cbn [rbind vtx is_closed] in HV. apply rand_true in HV as [S EP].
    pose proof (segments_valid_true _ S) as SV.
    split; [|split].
    + intros w Hw. destruct (In_nth_error _ _ Hw) as [i Hi].
      assert (Li : i < length (fwd_list s raw)) by (apply nth_error_Some; congruence).
      destruct (Nat.eq_dec i (vd_end_index_offset s + 1)) as [Ei|Ei].
      * rewrite HN in Hi. subst i. destruct (Nat.eqb_spec (vd_end_index_offset s + 1) 0); [lia|].
        destruct (Nat.leb_spec (vd_end_index_offset s + 1) (vd_end_index_offset s)); [lia|]. rewrite Nat.eqb_refl in Hi.
        injection Hi as <-. unfold pos. cbn [px py]. destruct (vd_end_point s). exact EP.
      * assert (LS : i < length (spec_segs (fwd_list s raw) false)).
        { rewrite spec_segs_length. destruct (Nat.ltb_spec (length (fwd_list s raw)) 2); lia. }
        destruct (spec_segs_nth _ _ i LS) as (a & b & Es & Ea & _). rewrite Hi in Ea. injection Ea as <-.
        apply nth_error_In in Es. apply (SV _ _ Es).
    + intros w1 w2 Hin. apply (SV _ _ Hin).
    + intros k w1 w2 Hk Hs. destruct (spec_segs_open_nth _ _ _ _ Hs) as [A B]. rewrite HN in A, B. rewrite LEN in Hk.
      destruct Hk as [->|Hk].
      * cbn [Nat.eqb Nat.add] in A, B. injection A as <-. destruct (Nat.leb_spec 1 (vd_end_index_offset s)); [|lia].
        rewrite next_wrapping_index_mod in Nnv by lia. fold (vertex_count raw) in *. rewrite Nnv in B.
        injection B as <-. match goal with |- context [if ?c then _ else _] => destruct c end; [rewrite midpoint_bulge|]; exact M1.
      * assert (Ek : k = vd_end_index_offset s) by lia. subst k.
        destruct (Nat.eqb_spec (vd_end_index_offset s) 0); [lia|]. destruct (Nat.leb_spec (vd_end_index_offset s) (vd_end_index_offset s)); [|lia].
        rewrite Nat.eqb_refl in A. rewrite fwd_wrapping_index_mod in Nev by lia. rewrite Nev in A. injection A as <-.
        destruct (Nat.eqb_spec (vd_end_index_offset s + 1) 0); [lia|].
        destruct (Nat.leb_spec (vd_end_index_offset s + 1) (vd_end_index_offset s)); [lia|]. rewrite Nat.eqb_refl in B.
        injection B as <-. exact M2.
Qed.

(** A kept slice: either it was tested throughout, or it is the whole raw polyline, of which the first
    vertex was tested. *)
Definition tested (s : view_data T) : Prop :=
  slice_shape raw s /\ view_pline s raw = Ret (PL (fwd_list s raw) false) /\ slice_tested (fwd_list s raw).
Definition kept (s : view_data T) : Prop :=
  slice_shape raw s
  /\ ((view_pline s raw = Ret (PL (fwd_list s raw) false) /\ slice_tested (fwd_list s raw))
      \/ (view_from_entire_pline raw = Ret s /\ forall v, hd_error (vtx raw) = Some v -> accepted (pos v))).

Lemma valid_slice_tested sp i ep j sl l : i < vertex_count raw -> j < vertex_count raw ->
  view_from_slice_points raw sp i ep j (oo_pos_equal_eps o) = Ret sl ->
  valid_slice p raw idx offset o sl = Ret l -> forall s, In s l -> tested s.
Proof.
  intros Hi Hj E H s Hs. destruct sl as [d|]; cbn [valid_slice] in H; [|injection H as <-; destruct Hs].
  destruct (slice_is_valid p raw idx offset o d) as [[]|] eqn:V; cbn [rbind] in H; try discriminate; injection H as <-; [|destruct Hs].
  destruct Hs as [<-|[]]. apply slice_points_shape in E; auto. split; [apply E|]. apply slice_valid_tested; [apply E|exact V].
Qed.

Lemma rmapM_In {A B} (f : A -> res B) l m b : rmapM f l = Ret m -> In b m -> exists a, In a l /\ f a = Ret b.
Proof.
  revert m. induction l as [|a t IH]; intros m H Hb; cbn [rmapM] in H.
  - injection H as <-. destruct Hb.
  - destruct (f a) as [x|] eqn:F; cbn [rbind] in H; [|discriminate].
    destruct (rmapM f t) as [xs|] eqn:R; cbn [rbind] in H; [|discriminate]. injection H as <-.
    destruct Hb as [<-|Hb]; [exists a; split; [now left|exact F]|].
    destruct (IH xs eq_refl Hb) as (a' & Ha & Fa). exists a'. split; [now right|exact Fa].
Qed.

Lemma whole_slice_kept l : whole_slice p raw idx offset o = Ret l -> forall s, In s l -> kept s.
Proof.
  unfold whole_slice. destruct (at_ raw 0) as [v0|] eqn:A; cbn [rbind]; [|discriminate].
  destruct (point_valid_for_offset _ _ _ _ _ _) as [[]|] eqn:V; cbn [rbind negb]; try discriminate.
  - destruct (view_from_entire_pline raw) as [d|] eqn:E; cbn [rbind]; [|discriminate].
    intros H s Hs. injection H as <-. destruct Hs as [<-|[]]. split; [now apply entire_shape|]. right. split; [exact E|].
    intros v Hv. unfold at_, index in A. destruct (vtx raw) as [|w t] eqn:W; [discriminate|]. cbn in A, Hv. 
    injection Hv as <-. injection A as <-. exact V.
  - intros H s Hs. injection H as <-. destruct Hs.
Qed.

(** All keys of the lookup are positions of the raw polyline. *)
Definition keys_ok (m : list (nat * list (vec2 T))) : Prop := forall e, In e m -> fst e < vertex_count raw.

Lemma entry_tested wrap m e r : keys_ok m -> In e m ->
  slices_from_entry p raw idx offset o wrap m e = Ret r -> forall s, In s (fst r) -> tested s.
Proof.
  intros HK He H s Hs. unfold slices_from_entry in H. destruct e as [i intrs]. pose proof (HK _ He) as Hi. cbn [fst] in Hi.
  set (F := fun ab : vec2 T * vec2 T => _) in H at 1.
  destruct (rmapM F (windows2 intrs)) as [within|] eqn:W; cbn [rbind] in H; [|discriminate].
  assert (KW : forall s, In s (concat within) -> tested s).
  { intros s' Hs'. apply in_concat in Hs' as (l & Hl & Hs'). destruct (rmapM_In _ _ _ _ W Hl) as (ab & _ & E). unfold F in E.
    destruct (view_from_slice_points raw (fst ab) i (snd ab) i (oo_pos_equal_eps o)) as [sl|] eqn:V; cbn [rbind] in E; [|discriminate].
    eapply valid_slice_tested; [exact Hi|exact Hi|exact V|exact E|exact Hs']. }
  destruct (unwrap _) as [li|]; cbn [rbind] in H; [|discriminate].
  assert (TE : forall found, In found m ->
    (let! ep := index (snd found) 0 in
     let! s := view_from_slice_points raw li i ep (fst found) (oo_pos_equal_eps o) in
     let! r := valid_slice p raw idx offset o s in Ret (concat within ++ r, false)) = Ret r -> tested s).
  { intros found Hf E. destruct (index (snd found) 0) as [ep|]; cbn [rbind] in E; [|discriminate].
    destruct (view_from_slice_points raw li i ep (fst found) _) as [sl|] eqn:V; cbn [rbind] in E; [|discriminate].
    destruct (valid_slice p raw idx offset o sl) as [l|] eqn:VS; cbn [rbind] in E; [|discriminate]. injection E as <-.
    cbn [fst] in Hs. apply in_app_iff in Hs as [Hs|Hs]; [now apply KW|].
    eapply valid_slice_tested; [exact Hi|exact (HK _ Hf)|exact V|exact VS|exact Hs]. }
  destruct (find _ m) as [found|] eqn:FN.
  - apply find_some in FN as [Hf _]. now apply (TE found).
  - destruct wrap.
    + destruct (find (fun f => fst f <=? i) m) as [found|] eqn:FN2; cbn [unwrap rbind] in H; [|discriminate].
      apply find_some in FN2 as [Hf _]. now apply (TE found).
    + destruct (last_ raw) as [[lv|]|]; cbn [rbind unwrap] in H; try discriminate.
      destruct (usub (vertex_count raw) 1) as [ei|] eqn:U; cbn [rbind] in H; [|discriminate].
      rewrite usub_ok in U by lia. injection U as <-.
      destruct (view_from_slice_points raw li i (pos lv) (vertex_count raw - 1) _) as [sl|] eqn:V; cbn [rbind] in H; [|discriminate].
      destruct (valid_slice p raw idx offset o sl) as [l|] eqn:VS; cbn [rbind] in H; [|discriminate]. injection H as <-.
      cbn [fst] in Hs. apply in_app_iff in Hs as [Hs|Hs]; [now apply KW|].
      eapply valid_slice_tested; [exact Hi| |exact V|exact VS|exact Hs]. lia.
Qed.

Lemma entries_tested wrap m l r : keys_ok m -> incl l m ->
  slices_from_entries p raw idx offset o wrap m l = Ret r -> forall s, In s r -> tested s.
Proof.
  intros HK. revert r. induction l as [|e t IH]; intros r HI H s Hs; cbn [slices_from_entries] in H.
  - injection H as <-. destruct Hs.
  - destruct (slices_from_entry p raw idx offset o wrap m e) as [x|] eqn:E; cbn [rbind] in H; [|discriminate].
    pose proof (entry_tested wrap m e x HK (HI _ (or_introl eq_refl)) E) as KE.
    destruct (snd x).
    + injection H as <-. now apply KE.
    + destruct (slices_from_entries p raw idx offset o wrap m t) as [rest|] eqn:R; cbn [rbind] in H; [|discriminate].
      injection H as <-. apply in_app_iff in Hs as [Hs|Hs]; [now apply KE|].
      eapply IH; [|reflexivity|exact Hs]. intros a Ha. apply HI. now right.
Qed.

Lemma sort_lookup_keys m m' : sort_lookup raw m = Ret m' -> keys_ok m'.
Proof.
  unfold sort_lookup. intros H e He. destruct (rmapM_In _ _ _ _ H He) as ([k l] & _ & E). cbn [fst snd] in E.
  destruct (at_ raw k) as [v|] eqn:A; cbn [rbind] in E; [|discriminate]. injection E as <-. cbn [fst].
  unfold at_, index in A. destruct (nth_error (vtx raw) k) eqn:NE; [|discriminate]. apply nth_error_Some. congruence.
Qed.

Lemma tested_kept s : tested s -> kept s.
Proof. intros (A & B). split; [exact A|]. left. exact B. Qed.

Lemma whole_slice_one l : whole_slice p raw idx offset o = Ret l -> l = [] \/ exists d, l = [d] /\ view_from_entire_pline raw = Ret d.
Proof.
  unfold whole_slice. destruct (at_ raw 0) as [v0|]; cbn [rbind]; [|discriminate].
  destruct (point_valid_for_offset _ _ _ _ _ _) as [[]|]; cbn [rbind negb]; try discriminate.
  - destruct (view_from_entire_pline raw) as [d|] eqn:E; cbn [rbind]; [|discriminate]. intros [= <-]. right. eauto.
  - intros [= <-]. now left.
Qed.

(** Either every slice was tested or the whole raw polyline was kept. *)
Definition all_kept (l : list (view_data T)) : Prop :=
  (forall s, In s l -> tested s) \/ exists d, l = [d] /\ kept d /\ view_from_entire_pline raw = Ret d.

Lemma whole_all_kept l : whole_slice p raw idx offset o = Ret l -> all_kept l.
Proof.
  intros H. destruct (whole_slice_one l H) as [->|(d & -> & E)]; [left; intros s []|]. right. exists d. split; [reflexivity|]. split; [|exact E].
  apply (whole_slice_kept _ H). now left.
Qed.

Lemma all_kept_each l : all_kept l -> forall s, In s l -> kept s.
Proof. intros [H|(d & -> & K & _)] s Hs; [apply tested_kept; auto|]. destruct Hs as [<-|[]]. exact K. Qed.

Context (mk : list (aabb T) -> sindex T).

Lemma raw_slices_all_kept l : slices_from_raw_offset mk p raw idx offset o = Ret l -> all_kept l.
Proof.
  unfold slices_from_raw_offset. destruct (vertex_count raw <? 2).
  { intros H. injection H as <-. left. intros s []. }
  destruct (create_approx_aabb_index raw) as [boxes|]; cbn [rbind]; [|discriminate].
  destruct (all_self_intersects_as_basic _ _ _ _) as [self|]; cbn [rbind]; [|discriminate].
  destruct self as [|b t]; [apply whole_all_kept|].
  destruct (sort_lookup raw _) as [m|] eqn:SL; cbn [rbind]; [|discriminate].
  intros H. left. revert H. apply entries_tested; [eapply sort_lookup_keys; exact SL|apply incl_refl].
Qed.

Lemma dual_slices_all_kept dual l : slices_from_dual_raw_offsets mk p raw dual idx offset o = Ret l -> all_kept l.
Proof.
  unfold slices_from_dual_raw_offsets. destruct (Nat.ltb_spec (vertex_count raw) 2) as [L|L].
  { intros H. injection H as <-. left. intros s []. }
  destruct (create_approx_aabb_index raw) as [boxes|]; cbn [rbind]; [|discriminate].
  destruct (all_self_intersects_as_basic _ _ _ _) as [self|]; cbn [rbind]; [|discriminate].
  destruct (find_intersects _ _ _ _) as [di|]; cbn [rbind]; [|discriminate].
  match goal with |- (rbind ?x _) = _ -> _ => destruct x as [m0|]; cbn [rbind]; [|discriminate] end.
  match goal with |- (match ?x with [] => _ | _ => _ end) = _ -> _ => destruct x as [|e0 m1]; [apply whole_all_kept|] end.
  destruct (sort_lookup raw _) as [m|] eqn:SL; cbn [rbind]; [|discriminate].
  pose proof (sort_lookup_keys _ _ SL) as HK.
  match goal with |- (rbind ?x _) = _ -> _ => destruct x as [first|] eqn:F; cbn [rbind]; [|discriminate] end.
  destruct (slices_from_entries p raw idx offset o (is_closed p) m m) as [rest|] eqn:R; cbn [rbind]; [|discriminate].
  intros H. left. intros s Hs. injection H as <-. apply in_app_iff in Hs as [Hs|Hs].
  - destruct (negb (is_closed p)); [|injection F as <-; destruct Hs].
    destruct (index m 0) as [e|] eqn:I; cbn [rbind] in F; [|discriminate].
    destruct (index (snd e) 0) as [it|]; cbn [rbind] in F; [|discriminate].
    destruct (at_ raw 0) as [v0|]; cbn [rbind] in F; [|discriminate].
    destruct (view_from_slice_points raw (pos v0) 0 it (fst e) _) as [sl|] eqn:V; cbn [rbind] in F; [|discriminate].
    assert (He : In e m). { unfold index in I. destruct (nth_error m 0) eqn:NE; [|discriminate]. injection I as <-. eapply nth_error_In; exact NE. }
    eapply valid_slice_tested; [|exact (HK _ He)|exact V|exact F|exact Hs]. lia.
  - eapply entries_tested; [exact HK|apply incl_refl|exact R|exact Hs].
Qed.

Lemma raw_slices_kept l : slices_from_raw_offset mk p raw idx offset o = Ret l -> forall s, In s l -> kept s.
Proof. intros H. apply all_kept_each. now apply raw_slices_all_kept. Qed.

Lemma dual_slices_kept dual l : slices_from_dual_raw_offsets mk p raw dual idx offset o = Ret l -> forall s, In s l -> kept s.
Proof. intros H. apply all_kept_each. eapply dual_slices_all_kept. exact H. Qed.
End Tests.
End Offset2.
