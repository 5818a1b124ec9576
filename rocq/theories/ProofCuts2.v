(** Cutting the raw offset (C49): the slices between neighbouring cuts. *)
From Coq Require Import List Bool Arith Permutation Sorted Lia.
From Verif Require Import Num Res ModelMath ModelIntr ModelSeg ModelPline ModelView ModelSegIntr ModelIndex ModelIntersects ModelBoolean ModelOffset.
From Verif Require Import Spec SpecPline SpecView SpecIndex SpecIntersects SpecChain SpecShape SpecCuts.
From Verif Require Import ProofBase ProofRepeat ProofIter ProofView ProofIndex2 ProofJoin ProofPrune ProofOffset2 ProofOffsetTotal ProofShape4 ProofCuts.
Import ListNotations.

Local Notation kept := SpecShape.kept.

Section Flat.
Context {A : Type}.

Definition flatten (m : list (nat * list A)) : list (nat * A) := flat_map (fun e => map (pair (fst e)) (snd e)) m.

Lemma flatten_push k (v : A) m : Permutation (flatten (map_push k v m)) ((k, v) :: flatten m).
Proof.
  induction m as [|[k' l] t IH]; [reflexivity|]. cbn [map_push]. destruct (k <? k'); [reflexivity|].
  destruct (Nat.eqb_spec k k') as [->|NE].
  - unfold flatten. cbn [flat_map fst snd]. rewrite map_app. cbn [map]. rewrite <- app_assoc. cbn [app]. symmetry. apply Permutation_middle.
  - unfold flatten in *. cbn [flat_map fst snd]. eapply perm_trans; [apply Permutation_app_head, IH|]. symmetry. apply Permutation_middle.
Qed.

Lemma flatten_push_all cuts : forall m, Permutation (flatten (push_all cuts m)) (cuts ++ flatten m).
Proof.
  induction cuts as [|[k v] t IH]; intros m; [reflexivity|]. cbn [push_all fold_left fst snd]. fold (push_all t (map_push k v m)).
  eapply perm_trans; [apply IH|]. eapply perm_trans; [apply Permutation_app_head, flatten_push|]. cbn [app]. symmetry. apply Permutation_middle.
Qed.

Lemma sorted_app (R : A -> A -> Prop) l1 l2 : Sorted R l1 -> Sorted R l2 -> (forall x y, In x l1 -> In y l2 -> R x y) -> Sorted R (l1 ++ l2).
Proof.
  induction 1 as [|a l S IH H]; intros S2 C; [exact S2|]. cbn [app]. constructor.
  - apply IH; [exact S2|]. intros x y Hx. apply C. now right.
  - destruct l as [|b l]; cbn [app]; [|inversion H; now constructor].
    destruct l2; constructor. apply C; now left.
Qed.

(** Pairs of neighbours, with [f] at the end. *)
Definition pairs_to (l : list A) (f : A) : list (A * A) := combine l (tl l ++ [f]).

Lemma pairs_to_app a l b l' f : pairs_to ((a :: l) ++ b :: l') f = pairs_to (a :: l) b ++ pairs_to (b :: l') f.
Proof.
  unfold pairs_to. cbn [app tl]. revert a. induction l as [|c l IH]; intros a; [reflexivity|]. cbn [app combine]. f_equal. apply IH.
Qed.

Lemma combine_trunc (l : list A) x : forall l2 : list A, length l2 = length l -> combine (l ++ [x]) l2 = combine l l2.
Proof. induction l as [|a l IH]; intros [|b l2] L; try discriminate; [reflexivity|]. cbn [app combine]. f_equal. apply IH. now injection L. Qed.
End Flat.

Lemma flatten_sorted {A} (R : nat * A -> nat * A -> Prop) (m : list (nat * list A)) : (forall x y, fst x < fst y -> R x y) ->
  StronglySorted lt (map fst m) -> (forall k l, In (k, l) m -> Sorted R (map (pair k) l)) -> Sorted R (flatten m).
Proof.
  intros HR. induction m as [|[k l] t IH]; intros S H; [constructor|]. cbn [map fst] in S. inversion S as [|? ? S' F]; subst.
  unfold flatten. cbn [flat_map fst snd]. apply sorted_app.
  - apply H. now left.
  - apply IH; [exact S'|]. intros k' l' HI. apply H. now right.
  - intros x y Hx Hy. apply HR. apply in_map_iff in Hx as (q & <- & _). apply in_flat_map in Hy as ([k' l'] & HI & Hy).
    apply in_map_iff in Hy as (q' & <- & _). cbn [fst]. rewrite Forall_forall in F. apply F. apply in_map_iff. exists (k', l'). auto.
Qed.

Section Slices.
Context {T : Type} {N : Num T}.
Context (p raw : pline T) (idx : sindex T) (offset : T) (o : offset_options T).
Hypothesis IDX : pline_index p idx.
Hypothesis TWO : 2 <= vertex_count raw.
Local Notation eps := (oo_pos_equal_eps o).
Local Notation vc := (vertex_count raw).
Local Notation test := (fun d b => b = true <-> clear_of p offset o (view_path_of raw d)).
Local Notation cut := (nat * vec2 T)%type.

Definition between (a b : cut) : res (option (view_data T)) := view_from_slice_points raw (snd a) (fst a) (snd b) (fst b) eps.
Definition one (a b : cut) : res (list (view_data T)) :=
  let! s := view_from_slice_points raw (snd a) (fst a) (snd b) (fst b) eps in valid_slice p raw idx offset o s.
Definition runs (abs : list (cut * cut)) (ds : list (view_data T)) : Prop :=
  exists vos, Forall2 (fun ab vo => between (fst ab) (snd ab) = Ret vo) abs vos /\ kept test vos ds.

Lemma runs_nil : runs [] [].
Proof. exists []. split; constructor. Qed.
Lemma runs_app l1 d1 l2 d2 : runs l1 d1 -> runs l2 d2 -> runs (l1 ++ l2) (d1 ++ d2).
Proof. intros (v1 & F1 & K1) (v2 & F2 & K2). exists (v1 ++ v2). split; [now apply Forall2_app|]. now apply kept_app. Qed.

Lemma one_spec a b : fst a < vc -> fst b < vc -> exists ds, one a b = Ret ds /\ runs [(a, b)] ds.
Proof.
  intros Ha Hb. unfold one. destruct (slice_points_total raw (snd a) _ (snd b) _ eps Ha Hb) as (vo & E & F). rewrite E. cbn [rbind].
  assert (F2 : Forall2 (fun ab vo => between (fst ab) (snd ab) = Ret vo) [(a, b)] [vo]) by (constructor; [exact E|constructor]).
  destruct vo as [d|]; cbn [valid_slice].
  - destruct (F d eq_refl) as (SH & _). destruct (slice_valid_clear p raw idx offset o IDX d SH) as (v & -> & P). cbn [rbind].
    eexists. split; [reflexivity|]. exists [Some d]. split; [exact F2|]. destruct v; [apply kept_yes|apply kept_no]; auto; constructor.
  - eexists. split; [reflexivity|]. exists [None]. split; [exact F2|]. apply kept_none. constructor.
Qed.

Lemma within_spec k abs : k < vc -> exists w,
  rmapM (fun ab => let! s := view_from_slice_points raw (fst ab) k (snd ab) k eps in valid_slice p raw idx offset o s) abs = Ret w
  /\ runs (map (fun ab => ((k, fst ab), (k, snd ab))) abs) (concat w).
Proof.
  intros Hk. induction abs as [|[a b] t (w & E & R)]; [exists []; split; [reflexivity|apply runs_nil]|].
  destruct (one_spec (k, a) (k, b) Hk Hk) as (ds & E1 & R1). unfold one in E1. cbn [fst snd] in E1. cbn [rmapM fst snd]. rewrite E1. cbn [rbind]. rewrite E. cbn [rbind].
  eexists. split; [reflexivity|]. cbn [map concat fst snd]. now apply (runs_app [_]).
Qed.

Lemma windows2_map {A B} (f : A -> B) l : windows2 (map f l) = map (fun ab => (f (fst ab), f (snd ab))) (windows2 l).
Proof.
  induction l as [|a [|b t] IH]; [reflexivity..|]. change (windows2 (map f (a :: b :: t))) with ((f a, f b) :: windows2 (map f (b :: t))).
  change (windows2 (a :: b :: t)) with ((a, b) :: windows2 (b :: t)). cbn [map fst snd]. f_equal. exact IH.
Qed.

Local Notation lookup_ok := (lookup_ok raw).

(** The last vertex, where an open polyline ends. *)
Definition last_cut : cut := match hd_error (rev (vtx raw)) with Some w => (vc - 1, pos w) | None => (vc - 1, V2 nzero nzero) end.

Lemma last_cut_ok : exists w, last_ raw = Ret (Some w) /\ hd_error (rev (vtx raw)) = Some w /\ last_cut = (vc - 1, pos w).
Proof.
  assert (SR : stands raw) by (apply stands_len; lia). destruct (stands_snoc raw SR) as (l0 & w & EW). exists w.
  assert (LA : last_ raw = Ret (Some w)) by (rewrite EW; apply last_snoc_pline).
  assert (HR : hd_error (rev (vtx raw)) = Some w) by (rewrite EW; cbn [vtx]; now rewrite rev_app_distr).
  split; [exact LA|]. split; [exact HR|]. unfold last_cut. now rewrite HR.
Qed.

(** Where the slice from the last point of an entry goes, [post] being the entries after it. *)
Definition goes_to (wrap : bool) (m post : list (nat * list (vec2 T))) : cut :=
  match flatten post with
  | c :: _ => c
  | [] => if wrap then match flatten m with c :: _ => c | [] => last_cut end else last_cut
  end.

Lemma first_of (m : list (nat * list (vec2 T))) e t : m = e :: t -> snd e <> [] -> exists q, index (snd e) 0 = Ret q /\ hd_error (flatten m) = Some (fst e, q).
Proof. intros -> H. destruct e as [k [|q l]]; [contradiction|]. exists q. split; reflexivity. Qed.

Lemma find_skip {A} (f : A -> bool) pre post : (forall x, In x pre -> f x = false) -> find f (pre ++ post) = find f post.
Proof. induction pre as [|a pre IH]; intros H; [reflexivity|]. cbn [app find]. rewrite (H a) by now left. apply IH. intros x Hx. apply H. now right. Qed.

Lemma sorted_before (m pre post : list (nat * list (vec2 T))) k l : StronglySorted lt (map fst m) -> m = pre ++ (k, l) :: post ->
  (forall e, In e pre -> fst e < k) /\ (forall e, In e post -> k < fst e).
Proof.
  intros S ->. induction pre as [|e pre IH]; cbn [app map fst] in S; inversion S as [|? ? S' F]; subst.
  - split; [intros ? []|]. rewrite Forall_forall in F. intros e He. apply F. now apply in_map.
  - destruct (IH S') as [A B]. split; [|exact B]. intros e' [<-|He]; [|now apply A]. rewrite Forall_forall in F. apply F.
    rewrite map_app. apply in_or_app. right. now left.
Qed.

Lemma entry_spec wrap m pre post k q l : lookup_ok m -> StronglySorted lt (map fst m) -> m = pre ++ (k, q :: l) :: post -> (wrap = false -> k + 1 < vc) ->
  exists ds, slices_from_entry p raw idx offset o wrap m (k, q :: l) = Ret (ds, negb wrap && match post with [] => true | _ => false end)
  /\ runs (pairs_to (map (pair k) (q :: l)) (goes_to wrap m post)) ds.
Proof.
  intros OK S EM NW. destruct (sorted_before m pre post k (q :: l) S EM) as [BEF AFT].
  assert (HK : k < vc) by (apply (OK (k, q :: l)); rewrite EM; apply in_or_app; right; now left).
  unfold slices_from_entry. destruct (within_spec k (windows2 (q :: l)) HK) as (w & -> & RW). cbn [rbind].
  destruct (nth_error (q :: l) (length (q :: l) - 1)) as [z|] eqn:EZ; [|apply nth_error_None in EZ; cbn in EZ; lia]. cbn [unwrap rbind].
  assert (EP : forall f, pairs_to (map (pair k) (q :: l)) f = map (fun ab => ((k, fst ab), (k, snd ab))) (windows2 (q :: l)) ++ [((k, z), f)]).
  { intros f. change (map (fun ab : vec2 T * vec2 T => (k, fst ab, (k, snd ab))) (windows2 (q :: l))) with (map (fun ab : vec2 T * vec2 T => (pair k (fst ab), pair k (snd ab))) (windows2 (q :: l))).
    rewrite <- windows2_map. unfold pairs_to. cbn [map tl]. symmetry. apply windows_closed.
    change (nth_error (map (pair k) (q :: l)) (length (map (pair k) l)) = Some (k, z)). rewrite nth_error_map, map_length.
    cbn [length] in EZ. rewrite Nat.sub_1_r in EZ. cbn [Nat.pred] in EZ. rewrite EZ. reflexivity. }
  assert (TE : forall e q', In e m -> index (snd e) 0 = Ret q' -> exists ds,
    (let! ep := index (snd e) 0 in let! s := view_from_slice_points raw z k ep (fst e) eps in
     let! r := valid_slice p raw idx offset o s in Ret (concat w ++ r, false)) = Ret (ds, false)
    /\ runs (pairs_to (map (pair k) (q :: l)) (fst e, q')) ds).
  { intros e q' He Hq. rewrite Hq. cbn [rbind]. destruct (OK e He) as [Hk' _]. destruct (one_spec (k, z) (fst e, q') HK Hk') as (ds & E1 & R1).
    unfold one in E1. cbn [fst snd] in E1. destruct (view_from_slice_points raw z k q' (fst e) eps) as [s|]; cbn [rbind] in E1 |- *; [|discriminate]. rewrite E1. cbn [rbind].
    eexists. split; [reflexivity|]. rewrite EP. now apply runs_app. }
  destruct post as [|e post].
  - assert (FN : k + 1 < vc -> find (fun f => next_wrapping_index raw k <=? fst f) m = None).
    { intros L. unfold next_wrapping_index. destruct (Nat.leb_spec vc (k + 1)); [lia|]. rewrite EM, find_skip.
      - cbn [find fst]. destruct (Nat.leb_spec (k + 1) k); [lia|reflexivity].
      - intros x Hx. specialize (BEF x Hx). apply Nat.leb_gt. lia. }
    unfold goes_to. cbn [flatten flat_map]. destruct wrap; cbn [negb andb].
    + assert (EH : exists e m', m = e :: m') by (rewrite EM; destruct pre; cbn [app]; eauto).
      destruct EH as (e & m' & EH). rewrite EH in *.
      destruct (first_of (e :: m') e m' eq_refl) as (q' & Hq & HF); [apply (OK e); now left|].
      destruct (flatten (e :: m')) as [|c fl]; [discriminate|]. injection HF as ->.
      destruct (TE e q' (or_introl eq_refl) Hq) as (ds & E & R). exists ds. split; [|exact R].
      destruct (find (fun f => next_wrapping_index raw k <=? fst f) (e :: m')) as [found|] eqn:F1.
      * destruct (Nat.lt_ge_cases (k + 1) vc) as [L|L]; [specialize (FN L); discriminate|].
        unfold next_wrapping_index in F1. destruct (Nat.leb_spec vc (k + 1)); [|lia]. cbn [find Nat.leb] in F1. injection F1 as <-. exact E.
      * cbn [find]. assert (fst e <= k).
        { destruct pre as [|e0 pre]; cbn [app] in EM; injection EM as -> _; [reflexivity|]. specialize (BEF e0 (or_introl eq_refl)). lia. }
        destruct (Nat.leb_spec (fst e) k); [|lia]. cbn [unwrap rbind]. exact E.
    + rewrite FN by (apply NW; reflexivity). destruct last_cut_ok as (v & LA & _ & EL). rewrite LA. cbn [rbind unwrap]. rewrite usub_ok by lia. cbn [rbind].
      destruct (one_spec (k, z) last_cut HK) as (ds & E1 & R1); [rewrite EL; cbn [fst]; lia|]. rewrite EL in E1. unfold one in E1. cbn [fst snd] in E1.
      destruct (view_from_slice_points raw z k (pos v) (vc - 1) eps) as [s|]; cbn [rbind] in E1 |- *; [|discriminate]. rewrite E1. cbn [rbind].
      eexists. split; [reflexivity|]. rewrite EP. now apply runs_app.
  - assert (Hem : In e m) by (rewrite EM; apply in_or_app; right; right; now left).
    assert (L : k + 1 < vc) by (pose proof (AFT e (or_introl eq_refl)); destruct (OK e Hem); lia).
    assert (FN : find (fun f => next_wrapping_index raw k <=? fst f) m = Some e).
    { unfold next_wrapping_index. destruct (Nat.leb_spec vc (k + 1)); [lia|]. rewrite EM, find_skip.
      - cbn [find fst]. destruct (Nat.leb_spec (k + 1) k); [lia|]. pose proof (AFT e (or_introl eq_refl)).
        destruct (Nat.leb_spec (k + 1) (fst e)); [reflexivity|lia].
      - intros x Hx. specialize (BEF x Hx). apply Nat.leb_gt. lia. }
    rewrite FN. destruct (first_of (e :: post) e post eq_refl) as (q' & Hq & HF); [now apply (OK e)|].
    unfold goes_to. destruct (flatten (e :: post)) as [|c fl]; [discriminate|]. injection HF as ->.
    destruct (TE e q' Hem Hq) as (ds & E & R). exists ds. rewrite andb_false_r. split; [exact E|exact R].
Qed.

Lemma entries_spec wrap m : lookup_ok m -> StronglySorted lt (map fst m) -> (wrap = false -> forall e, In e m -> fst e + 1 < vc) ->
  forall l pre, m = pre ++ l -> exists ds, slices_from_entries p raw idx offset o wrap m l = Ret ds
  /\ runs (pairs_to (flatten l) (goes_to wrap m [])) ds.
Proof.
  intros OK S NW. induction l as [|[k ps] t IH]; intros pre EM; [exists []; split; [reflexivity|apply runs_nil]|].
  assert (HI : In (k, ps) m) by (rewrite EM; apply in_or_app; right; now left).
  destruct ps as [|q ps]; [destruct (OK _ HI) as [_ X]; now destruct X|].
  destruct (entry_spec wrap m pre t k q ps OK S EM) as (ds & E & R); [intros W; exact (NW W _ HI)|].
  cbn [slices_from_entries]. rewrite E. cbn [rbind fst snd].
  destruct (IH (pre ++ [(k, q :: ps)])) as (ds2 & E2 & R2); [rewrite <- app_assoc; exact EM|].
  destruct t as [|[k' ps'] t].
  - assert (EF : flatten [(k, q :: ps)] = map (pair k) (q :: ps)) by (unfold flatten; cbn [flat_map fst snd]; apply app_nil_r).
    rewrite EF. destruct wrap; cbn [negb andb].
    + cbn [slices_from_entries rbind]. exists (ds ++ []). split; [reflexivity|]. rewrite app_nil_r. exact R.
    + exists ds. split; [reflexivity|exact R].
  - rewrite andb_false_r. rewrite E2. cbn [rbind]. eexists. split; [reflexivity|].
    destruct ps' as [|q' ps']; [destruct (OK (k', [])) as [_ X]; [rewrite EM; apply in_or_app; right; right; now left|now destruct X]|].
    change (flatten ((k, q :: ps) :: (k', q' :: ps') :: t)) with ((k, q) :: map (pair k) ps ++ (k', q') :: (map (pair k') ps' ++ flatten t)).
    change ((k, q) :: map (pair k) ps ++ (k', q') :: (map (pair k') ps' ++ flatten t)) with (((k, q) :: map (pair k) ps) ++ (k', q') :: (map (pair k') ps' ++ flatten t)).
    rewrite pairs_to_app. apply runs_app; [exact R|exact R2].
Qed.

(** ** From cuts to slices *)

Lemma sort_lookup_spec m : lookup_ok m -> exists m', sort_lookup raw m = Ret m'
  /\ Forall2 (fun e e' => fst e' = fst e /\ Permutation (snd e) (snd e')
       /\ (comparable -> Sorted (not_before raw) (map (pair (fst e)) (snd e')))) m m'.
Proof.
  unfold sort_lookup. induction m as [|[k l] t IH]; intros OK; [exists []; split; [reflexivity|constructor]|].
  cbn [rmapM fst snd]. destruct (OK (k, l) (or_introl eq_refl)) as [Hk _]. cbn [fst] in Hk.
  destruct (at_lt raw k Hk) as (v & EV & ->). cbn [rbind]. destruct IH as (m' & -> & F); [intros e He; apply OK; now right|].
  cbn [rbind]. eexists. split; [reflexivity|]. constructor; [|exact F]. cbn [fst snd]. split; [reflexivity|]. split; [apply isort_perm|].
  intros C. apply sorted_map. apply isort_sorted; intros a b _ _ H; right; cbn [fst snd]; (split; [reflexivity|]); intros v' EV'; rewrite EV in EV'; injection EV' as <-.
  - destruct (ntotal_cmp _ _); [discriminate|discriminate|discriminate H].
  - apply C. destruct (ntotal_cmp (dist_squared a (pos v)) _); [discriminate H|discriminate H|reflexivity].
Qed.

Lemma sorted_flat m m' : Forall2 (fun e e' => fst e' = fst e /\ Permutation (snd e) (snd e')
       /\ (comparable -> Sorted (not_before raw) (map (pair (fst e)) (snd e')))) m m' ->
  map fst m' = map fst m /\ Permutation (flatten m') (flatten m)
  /\ (comparable -> forall k l, In (k, l) m' -> Sorted (not_before raw) (map (pair k) l)).
Proof.
  induction 1 as [|[k l] [k' l'] m m' (E & P & C) F (E' & P' & C')]; [split; [reflexivity|]; split; [reflexivity|intros _ ? ? []]|].
  cbn [fst snd] in *. subst k'. split; [cbn [map fst]; now rewrite E'|]. split.
  - unfold flatten in *. cbn [flat_map fst snd]. apply Permutation_app; [|exact P']. apply Permutation_map. now symmetry.
  - intros CO k0 l0 [H|H]; [injection H as <- <-; now apply C|now apply (C' CO)].
Qed.

Lemma same_seg_sorted (k : nat) (l : list (vec2 T)) : Sorted (fun x y : cut => fst x <= fst y) (map (pair k) l).
Proof. apply sorted_map. induction l as [|a l IH]; constructor; [exact IH|]. destruct l; constructor. reflexivity. Qed.

Lemma lookup_flat m : lookup_ok m <-> (forall c, In c (flatten m) -> fst c < vc) /\ (forall e, In e m -> snd e <> []).
Proof.
  split.
  - intros OK. split; [|intros e He; now apply OK]. intros c Hc. apply in_flat_map in Hc as (e & He & Hc). apply in_map_iff in Hc as (q & <- & _). now apply OK.
  - intros [A B] [k l] He. split; [|now apply B]. specialize (B _ He). destruct l as [|q l]; [now destruct B|]. apply (A (k, q)). apply in_flat_map. exists (k, q :: l). split; [exact He|now left].
Qed.

Section Cuts.
Context (cuts : list cut).
Hypothesis NE : cuts <> [].
Hypothesis LT : forall c, In c cuts -> fst c < vc.

Lemma lookup_spec : exists m, sort_lookup raw (push_all cuts []) = Ret m /\ lookup_ok m /\ m <> [] /\ StronglySorted lt (map fst m)
  /\ Permutation (flatten m) cuts /\ Sorted (fun x y => fst x <= fst y) (flatten m) /\ (comparable -> Sorted (not_before raw) (flatten m)).
Proof.
  destruct (push_all_grouped_gen cuts) as (S0 & G & _).
  assert (PF : Permutation (flatten (push_all cuts [])) cuts) by (eapply perm_trans; [apply flatten_push_all|]; cbn; rewrite app_nil_r; reflexivity).
  assert (OK0 : lookup_ok (push_all cuts [])).
  { apply lookup_flat. split.
    - intros c Hc. apply LT. eapply Permutation_in; eassumption.
    - intros [k l] He. now apply (G k l). }
  destruct (sort_lookup_total raw (push_all cuts []) OK0) as (m & E & OK & _). destruct (sort_lookup_spec _ OK0) as (m' & E' & F).
  rewrite E in E'. injection E' as <-. destruct (sorted_flat _ _ F) as (EK & PM & C). exists m. split; [exact E|]. split; [exact OK|].
  assert (PC : Permutation (flatten m) cuts) by (eapply perm_trans; eassumption).
  split; [intros ->; apply Permutation_nil in PC; contradiction|].
  assert (SM : StronglySorted lt (map fst m)) by (rewrite EK; exact S0). split; [exact SM|]. split; [exact PC|]. split.
  - apply flatten_sorted; [intros; lia|exact SM|]. intros k l _. apply same_seg_sorted.
  - intros CO. apply flatten_sorted; [intros x y H; now left|exact SM|exact (C CO)].
Qed.

Lemma hd_flat m (e : nat * list (vec2 T)) t : lookup_ok m -> m = e :: t -> exists q, index (snd e) 0 = Ret q /\ exists fl, flatten m = (fst e, q) :: fl.
Proof.
  intros OK E. destruct (first_of m e t E) as (q & Hq & HF); [apply (OK e); rewrite E; now left|]. exists q. split; [exact Hq|].
  destruct (flatten m) as [|c fl]; [discriminate|]. injection HF as ->. eauto.
Qed.

Lemma goes_hd m c fl : flatten m = c :: fl -> goes_to true m [] = c.
Proof. intros E. unfold goes_to. change (flatten []) with (@nil cut). rewrite E. reflexivity. Qed.

Lemma round_spec : exists m ds, sort_lookup raw (push_all cuts []) = Ret m
  /\ slices_from_entries p raw idx offset o true m m = Ret ds /\ cut_slices p offset o true raw cuts ds.
Proof.
  destruct lookup_spec as (m & E & OK & MN & SM & PC & S1 & S2).
  destruct (entries_spec true m OK SM ltac:(discriminate) m [] eq_refl) as (ds & ED & (vos & F & K)).
  exists m, ds. split; [exact E|]. split; [exact ED|]. split; [contradiction|]. intros _. exists (flatten m), vos.
  split; [exact PC|]. split; [exact S1|]. split; [exact S2|]. split; [|exact K].
  destruct m as [|e t]; [contradiction|]. destruct (hd_flat _ e t OK eq_refl) as (q & _ & fl & EF). rewrite (goes_hd _ _ _ EF) in F. rewrite EF in *. exact F.
Qed.

Lemma ends_spec : (forall c, In c cuts -> fst c + 1 < vc) -> exists m e q v0 d1 d2, sort_lookup raw (push_all cuts []) = Ret m
  /\ index m 0 = Ret e /\ index (snd e) 0 = Ret q /\ at_ raw 0 = Ret v0
  /\ (let! s := view_from_slice_points raw (pos v0) 0 q (fst e) eps in valid_slice p raw idx offset o s) = Ret d1
  /\ slices_from_entries p raw idx offset o false m m = Ret d2 /\ cut_slices p offset o false raw cuts (d1 ++ d2).
Proof.
  intros NL. destruct lookup_spec as (m & E & OK & MN & SM & PC & S1 & S2).
  destruct (entries_spec false m OK SM) with (l := m) (pre := @nil (nat * list (vec2 T))) as (d2 & ED & R2); [|reflexivity|].
  { intros _ [k l] He. destruct (OK _ He) as [_ X]. destruct l as [|q l]; [now destruct X|]. apply (NL (k, q)). eapply Permutation_in; [exact PC|].
    apply in_flat_map. exists (k, q :: l). split; [exact He|now left]. }
  destruct m as [|e t] eqn:EM; [contradiction|]. rewrite <- EM in *. destruct (hd_flat m e t OK EM) as (q & Hq & fl & EF).
  destruct (at_lt raw 0) as (v0 & NV & EV); [lia|].
  assert (He : fst e < vc) by (apply (OK e); rewrite EM; now left).
  destruct (one_spec (0, pos v0) (fst e, q)) as (d1 & E1 & R1); [cbn [fst]; lia|exact He|].
  exists m, e, q, v0, d1, d2. split; [exact E|]. split; [rewrite EM; reflexivity|]. split; [exact Hq|]. split; [exact EV|]. split; [exact E1|]. split; [exact ED|].
  split; [contradiction|]. intros _. destruct (runs_app _ _ _ _ R1 R2) as (vos & F & K). exists (flatten m), vos.
  split; [exact PC|]. split; [exact S1|]. split; [exact S2|]. split; [|exact K].
  destruct last_cut_ok as (w & _ & HR & EL). unfold stretches. rewrite HR.
  assert (HH : hd_error (vtx raw) = Some v0) by (destruct (vtx raw); [discriminate|exact NV]). rewrite HH. cbv zeta. cbn [app tl]. rewrite <- EL.
  assert (EG : goes_to false m [] = last_cut) by reflexivity. rewrite EG in F.
  match goal with |- Forall2 _ ?X _ => assert (EX : X = ((0, pos v0), (fst e, q)) :: pairs_to (flatten m) last_cut) end.
  { rewrite EF. unfold pairs_to. cbn [tl app]. pose proof (combine_trunc ((fst e, q) :: fl) last_cut (fl ++ [last_cut])) as X.
    rewrite <- X by (rewrite app_length; cbn; lia). reflexivity. }
  rewrite EX. exact F.
Qed.
End Cuts.

Lemma whole_spec : exists ds, whole_slice p raw idx offset o = Ret ds /\ forall round, cut_slices p offset o round raw [] ds.
Proof.
  unfold whole_slice. destruct (at_lt raw 0) as (v0 & NV & ->); [lia|]. cbn [rbind].
  assert (HH : hd_error (vtx raw) = Some v0) by (destruct (vtx raw); [discriminate|exact NV]).
  destruct (point_clear p idx offset o IDX (pos v0)) as (b & -> & HB). cbn [rbind]. destruct (entire_total raw TWO) as (d & ED). rewrite ED.
  exists (if b then [d] else []). split; [destruct b; reflexivity|]. intros round. split; [|contradiction]. intros _. exists d, b.
  split; [exact ED|]. split; [reflexivity|]. rewrite HB, HH. split; [intros H v [= <-]; exact H|intros H; now apply H].
Qed.
End Slices.
