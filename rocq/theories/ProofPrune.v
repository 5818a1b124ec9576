(** Cutting a polyline at intersections (C32), for any number type. *)
From Coq Require Import List Bool Arith Permutation Sorted Lia.
From Verif Require Import Num Res ModelMath ModelSeg ModelPline ModelView ModelIntersects ModelBoolean.
From Verif Require Import Spec SpecView SpecStitch SpecPrune.
From Verif Require Import ProofBase ProofIter ProofInvert ProofView ProofJoin.
Import ListNotations.

Section Map.
Context {A : Type}.

Lemma map_push_spec k (v : A) m : StronglySorted lt (map fst m) ->
  StronglySorted lt (map fst (map_push k v m))
  /\ (forall x, In x (map fst (map_push k v m)) <-> x = k \/ In x (map fst m))
  /\ (forall j, map_get j (map_push k v m) = if Nat.eqb j k then Some (match map_get k m with Some l => l ++ [v] | None => [v] end) else map_get j m).
Proof.
  induction m as [|[k' l] t IH]; intros S; cbn [map_push].
  - split; [repeat constructor|]. split; [intros x; cbn; intuition congruence|]. intros j. unfold map_get. cbn [find fst].
    rewrite (Nat.eqb_sym k j). destruct (Nat.eqb j k); reflexivity.
  - cbn [map fst] in S. inversion S as [|? ? S' F]; subst. rewrite Forall_forall in F.
    assert (NI : forall j, j <= k' -> map_get j t = None).
    { intros j L. unfold map_get. destruct (find _ t) as [[a b]|] eqn:E; [|reflexivity]. apply find_some in E as [I E].
      cbn in E. apply Nat.eqb_eq in E. subst a. specialize (F j). rewrite in_map_iff in F. specialize (F (ex_intro _ (j, b) (conj eq_refl I))). lia. }
    destruct (Nat.ltb_spec k k') as [L|L]; [|destruct (Nat.eqb_spec k k') as [E|E]].
    + split; [|split].
      * cbn [map fst]. constructor; [exact S|]. apply Forall_forall. intros x [<-|X]; [exact L|specialize (F x X); lia].
      * intros x. cbn [map fst In]. intuition congruence.
      * intros j. unfold map_get at 1. cbn [find fst]. rewrite (Nat.eqb_sym k j). destruct (Nat.eqb_spec j k) as [->|NE]; [|reflexivity].
        assert (E : map_get k ((k', l) :: t) = None).
        { unfold map_get. cbn [find fst]. destruct (Nat.eqb_spec k' k); [lia|]. apply (NI k). lia. }
        rewrite E. reflexivity.
    + subst k'. split; [exact S|]. split; [intros x; cbn [map fst In]; intuition congruence|].
      intros j. unfold map_get. cbn [find fst]. rewrite (Nat.eqb_sym k j). destruct (Nat.eqb_spec j k) as [->|NE]; [|reflexivity].
      rewrite Nat.eqb_refl. reflexivity.
    + destruct (IH S') as (I1 & I2 & I3). split; [|split].
      * cbn [map fst]. constructor; [exact I1|]. apply Forall_forall. intros x X. apply I2 in X as [->|X]; [lia|apply F; exact X].
      * intros x. cbn [map fst In]. rewrite I2. intuition congruence.
      * intros j. unfold map_get at 1 3. cbn [find fst]. destruct (Nat.eqb_spec k' j) as [->|NE].
        -- destruct (Nat.eqb_spec j k); [congruence|]. reflexivity.
        -- change (match find (fun x => fst x =? j) (map_push k v t) with Some y => Some (snd y) | None => None end) with (map_get j (map_push k v t)).
           rewrite I3. destruct (Nat.eqb_spec j k) as [->|]; [|reflexivity].
           unfold map_get at 2. cbn [find fst]. destruct (Nat.eqb_spec k' k); [congruence|reflexivity].
Qed.

Lemma map_get_In k l (m : list (nat * list A)) : StronglySorted lt (map fst m) -> map_get k m = Some l <-> In (k, l) m.
Proof.
  intros S. unfold map_get. split.
  - destruct (find _ m) as [[a b]|] eqn:E; [|discriminate]. apply find_some in E as [I E]. cbn in E. apply Nat.eqb_eq in E. subst a.
    cbn. intros [= <-]. exact I.
  - intros I. destruct (find (fun e => fst e =? k) m) as [[a b]|] eqn:E.
    + apply find_some in E as [I' E]. cbn in E. apply Nat.eqb_eq in E. subst a. cbn. f_equal.
      assert (ND : NoDup (map fst m)).
      { clear -S. induction S as [|x t S IH F]; constructor; [|exact IH]. intros X. rewrite Forall_forall in F. specialize (F x X). lia. }
      clear -ND I I'. induction m as [|[x y] t IH]; [destruct I|]. cbn [map fst] in ND. inversion ND as [|? ? NI ND']; subst.
      destruct I as [[= -> ->]|I], I' as [[= E1]|I']; auto.
      * exfalso. apply NI. apply in_map_iff. exists (k, b). auto.
      * subst. exfalso. apply NI. apply in_map_iff. exists (k, l). auto.
    + apply (find_none _ _ E) in I. cbn in I. rewrite Nat.eqb_refl in I. discriminate.
Qed.

(** Pushing a list of located values. *)
Definition push_all (cuts : list (nat * A)) (m : list (nat * list A)) : list (nat * list A) :=
  fold_left (fun m c => map_push (fst c) (snd c) m) cuts m.

Lemma push_all_spec cuts : forall m, StronglySorted lt (map fst m) ->
  StronglySorted lt (map fst (push_all cuts m))
  /\ forall k, map_get k (push_all cuts m)
     = match map_get k m, map snd (filter (fun c => Nat.eqb (fst c) k) cuts) with
       | None, [] => None
       | None, l => Some l
       | Some l0, l => Some (l0 ++ l) end.
Proof.
  induction cuts as [|[k v] t IH]; intros m S; cbn [push_all fold_left].
  - split; [exact S|]. intros k. cbn. destruct (map_get k m) as [l0|]; [|reflexivity]. now rewrite app_nil_r.
  - fold (push_all t (map_push (fst (k, v)) (snd (k, v)) m)). cbn [fst snd]. destruct (map_push_spec k v m S) as (S1 & _ & G).
    destruct (IH _ S1) as (S2 & G2). split; [exact S2|]. intros j. rewrite G2, G. cbn [filter fst].
    rewrite (Nat.eqb_sym k j). destruct (Nat.eqb_spec j k) as [->|NE]; [|reflexivity].
    cbn [map snd]. destruct (map_get k m) as [l0|]; [|reflexivity]. rewrite <- app_assoc. reflexivity.
Qed.

Lemma push_all_grouped_gen cuts : let m := push_all cuts [] in
  StronglySorted lt (map fst m)
  /\ (forall k l, In (k, l) m -> l <> [] /\ l = map snd (filter (fun c => Nat.eqb (fst c) k) cuts))
  /\ (forall k v, In (k, v) cuts -> exists l, In (k, l) m).
Proof.
  cbv zeta. destruct (push_all_spec cuts [] ltac:(constructor)) as (S & G). split; [exact S|]. split.
  - intros k l I. apply (map_get_In _ _ _ S) in I. rewrite G in I. cbn [map_get find] in I.
    destruct (map snd (filter (fun c => Nat.eqb (fst c) k) cuts)) as [|x t]; [discriminate|]. injection I as <-. split; [discriminate|reflexivity].
  - intros k v I. assert (X : In v (map snd (filter (fun c => Nat.eqb (fst c) k) cuts))).
    { apply in_map_iff. exists (k, v). split; [reflexivity|]. apply filter_In. split; [exact I|]. cbn. apply Nat.eqb_refl. }
    destruct (map snd (filter (fun c => Nat.eqb (fst c) k) cuts)) as [|x t] eqn:E; [destruct X|]. exists (x :: t).
    apply (map_get_In _ _ _ S). rewrite G, E. reflexivity.
Qed.
End Map.

Lemma rfold_push {A B S} (f : S -> A -> res S) (g : A -> list B) (h : S -> B -> S) l : forall s,
  (forall s a, In a l -> f s a = Ret (fold_left h (g a) s)) ->
  rfold f l s = Ret (fold_left h (flat_map g l) s).
Proof.
  induction l as [|a t IH]; intros s H; [reflexivity|]. cbn [rfold flat_map]. rewrite (H s a) by (left; reflexivity). cbn [rbind].
  rewrite IH by (intros s' a' I; apply H; right; exact I). now rewrite fold_left_app.
Qed.

Section Cut.
Context {T : Type} {N : Num T}.
Context (p : pline T) (second : bool) (eps : T).
Local Notation n := (vertex_count p).
Hypothesis VC : 2 <= n.

Lemma adjust_located i q : i < n -> adjust_index p i q eps = Ret (located p eps i q) /\ located p eps i q < n.
Proof.
  intros L. destruct (next_ok p i L) as (v & E1 & E2). unfold adjust_index, located, at_, index. rewrite E1, E2. cbn [rbind].
  split; [reflexivity|]. destruct (v2fuzzy_eq_eps q (pos v) eps); [apply Nat.mod_upper_bound; lia|exact L].
Qed.

Context (bs : list (basic_intr T)) (os : list (overlapping_slice T)) (o1 o2 : orientation_t).
Local Notation which := (fun ij : nat * nat => if second then snd ij else fst ij).
Hypothesis BR : forall b, In b bs -> (if second then bi_index2 b else bi_index1 b) < n.
Hypothesis OR : forall s, In s os -> which (os_start_indexes s) < n /\ which (os_end_indexes s) < n.
Local Notation cuts := (cut_points p eps second bs os).

Definition near_first (v : vertex T) (a b : slice_point T) : bool :=
  cmp_leb (ntotal_cmp (dist_squared (sp_pos a) (pos v)) (dist_squared (sp_pos b) (pos v))).

Lemma cuts_lt k sp : In (k, sp) cuts -> k < n.
Proof.
  unfold cut_points. rewrite in_app_iff, in_map_iff, in_flat_map. intros [(b & [= <- <-] & I)|(s & I & [E|[E|[]]])].
  - now apply BR.
  - injection E as <- <-. apply adjust_located. now apply OR.
  - injection E as <- <-. apply adjust_located. now apply OR.
Qed.

Lemma lookup_spec : exists m, intersects_lookup p (BInfo os bs o1 o2) second eps = Ret m
  /\ grouped cuts m
  /\ (forall k l, In (k, l) m -> k < n /\ exists v l0, nth_error (vtx p) k = Some v /\ l = isort (near_first v) l0).
Proof.
  unfold intersects_lookup. cbn [bn_intersects bn_overlapping].
  assert (E : rfold (add_overlapping p second eps) os (fold_left (fun m b => map_push (if second then bi_index2 b else bi_index1 b) (SP (bi_point b) false) m) bs [])
              = Ret (push_all cuts [])).
  { unfold push_all, cut_points. rewrite fold_left_app.
    replace (fold_left (fun m b => map_push (if second then bi_index2 b else bi_index1 b) (SP (bi_point b) false) m) bs []) with
      (fold_left (fun m c => map_push (fst c) (snd c) m) (map (fun b => (if second then bi_index2 b else bi_index1 b, SP (bi_point b) false)) bs) []).
    2:{ generalize (@nil (nat * list (slice_point T))). induction bs as [|b t IH]; intros m; [reflexivity|]. cbn [map fold_left fst snd]. apply IH.
        intros b' I. apply BR. right. exact I. }
    apply rfold_push. intros m s I. destruct (OR s I) as [R1 R2]. unfold add_overlapping.
    rewrite (proj1 (adjust_located _ _ R1)), (proj1 (adjust_located _ _ R2)). cbn [rbind fold_left fst snd].
    destruct second; reflexivity. }
  rewrite E. cbn [rbind]. clear E.
  destruct (push_all_grouped_gen cuts) as (S & G1 & G2). set (m := push_all cuts []) in *.
  assert (KL : forall k l, In (k, l) m -> k < n).
  { intros k l I. destruct (G1 k l I) as (NE & EL). destruct l as [|sp l]; [congruence|].
    assert (X : In sp (map snd (filter (fun c => Nat.eqb (fst c) k) cuts))) by (rewrite <- EL; left; reflexivity).
    apply in_map_iff in X as ([k' sp'] & E1 & X). apply filter_In in X as [X E2]. cbn in E1, E2. apply Nat.eqb_eq in E2. subst.
    eapply cuts_lt; exact X. }
  set (srt := fun e : nat * list (slice_point T) => (fst e, match nth_error (vtx p) (fst e) with Some v => isort (near_first v) (snd e) | None => [] end)).
  exists (map srt m). split.
  - rewrite (rmapM_ok _ m (map srt m)); [reflexivity|apply map_length|].
    intros i [k l] Ei. exists (srt (k, l)). rewrite nth_error_map, Ei. split; [reflexivity|]. apply nth_error_In in Ei. destruct (vtx_lt p k (KL k l Ei)) as [v Ev].
    unfold at_, index. cbn [fst snd]. rewrite Ev. cbn [rbind]. unfold srt. cbn [fst snd]. rewrite Ev. reflexivity.
  - assert (KM : map fst (map srt m) = map fst m) by (rewrite map_map; reflexivity).
    assert (IN : forall k l, In (k, l) (map srt m) -> exists l0 v, In (k, l0) m /\ nth_error (vtx p) k = Some v /\ l = isort (near_first v) l0).
    { intros k l I. apply in_map_iff in I as ([k' l0] & E & I). unfold srt in E. cbn [fst snd] in E. injection E as -> <-.
      destruct (vtx_lt p k (KL k l0 I)) as [v Ev]. exists l0, v. rewrite Ev. auto. }
    split; [split; [rewrite KM; exact S|split]|].
    + intros k l I. destruct (IN k l I) as (l0 & v & I0 & Ev & ->). destruct (G1 k l0 I0) as (NE & EL). split.
      * intros C. apply NE. apply Permutation_nil. rewrite <- C. symmetry. apply isort_perm.
      * rewrite <- EL. symmetry. apply isort_perm.
    + intros k sp I. destruct (G2 k sp I) as (l & IL). eexists. apply in_map_iff. exists (k, l). split; [reflexivity|exact IL].
    + intros k l I. destruct (IN k l I) as (l0 & v & I0 & Ev & ->). split; [eapply KL; exact I0|]. eauto.
Qed.

(** ** The slices of one entry *)
Fixpoint within_cands (start_index : nat) (end_vertex prev_vertex : vertex T) (prev_sp : slice_point T) (l : list (slice_point T))
  : list (boolean_slice T * vec2 T) :=
  match l with
  | [] => []
  | sp :: t =>
    let split := seg_split_at_point prev_vertex end_vertex (sp_pos sp) eps in
    (if sp_is_start prev_sp then []
     else if v2fuzzy_eq_eps (pos (updated_start split)) (pos (split_vertex split)) eps then []
     else [(BS (VD start_index 0 (updated_start split) (pbulge (updated_start split)) (pos (split_vertex split)) false) (negb second) false,
            seg_midpoint (updated_start split) (split_vertex split))])
    ++ within_cands start_index end_vertex (split_vertex split) sp t
  end.

Definition kept_of (g : vec2 T -> bool) (cs : list (boolean_slice T * vec2 T)) : list (boolean_slice T) :=
  map fst (filter (fun c => g (snd c)) cs).

Lemma kept_app g a b : kept_of g (a ++ b) = kept_of g a ++ kept_of g b.
Proof. unfold kept_of. now rewrite filter_app, map_app. Qed.

Section Pred.
Context (pred : vec2 T -> res bool) (g : vec2 T -> bool).
Hypothesis PG : forall x, pred x = Ret (g x).

Lemma within_spec start_index end_vertex l : forall prev_vertex prev_sp,
  slices_within_segment second pred eps start_index end_vertex prev_vertex prev_sp l
  = Ret (kept_of g (within_cands start_index end_vertex prev_vertex prev_sp l)).
Proof.
  induction l as [|sp t IH]; intros pv psp; [reflexivity|]. cbn [slices_within_segment within_cands]. rewrite IH, kept_app.
  set (split := seg_split_at_point pv end_vertex (sp_pos sp) eps).
  destruct (sp_is_start psp); [reflexivity|].
  destruct (v2fuzzy_eq_eps (pos (updated_start split)) (pos (split_vertex split)) eps) eqn:F; [reflexivity|].
  rewrite PG. cbn [rbind]. unfold kept_of at 2. cbn [filter snd]. destruct (g _); cbn [negb rbind]; [|reflexivity].
  unfold create_on_single_segment. rewrite F. reflexivity.
Qed.
End Pred.

Lemma view_create_fits start q j us D : start < n -> j < n -> 1 <= D <= n ->
  exists d, view_create p start q j us D eps = Ret d /\ vd_start_index d = start /\ vd_end_index_offset d <= n
  /\ vd_updated_start d = us /\ vd_end_point d = q /\ vd_inverted d = false.
Proof.
  intros L1 L2 LD. unfold view_create. destruct (Nat.eqb_spec D 0) as [Z0|_]; [lia|].
  destruct (vtx_lt p j L2) as [v E]. destruct (next_ok p j L2) as (w & X & E').
  unfold at_ at 1, index. rewrite E. cbn [rbind]. destruct (v2fuzzy_eq_eps q (pos v) eps).
  - destruct (Nat.eqb_spec (D - 1) 0) as [Z|Z]; cbn [negb].
    + cbn [rbind]. eexists. split; [reflexivity|]. cbn. repeat split; lia.
    + rewrite prev_wrapping_index_mod by lia. cbn [rbind].
      destruct (vtx_lt p ((j + (n - 1)) mod n)) as [u U]; [apply Nat.mod_upper_bound; lia|].
      unfold at_, index. rewrite U. cbn [rbind]. eexists. split; [reflexivity|]. cbn. repeat split; lia.
  - unfold at_, index. rewrite X, E'. cbn [rbind]. eexists. split; [reflexivity|]. cbn. repeat split; lia.
Qed.

(** The search for the next cut: the first of the segments after [start] that has one. *)
Lemma next_cut_spec (m : list (nat * list (slice_point T))) start us : start < n -> (exists l, map_get start m = Some l) ->
  (forall k l, map_get k m = Some l -> l <> []) ->
  exists D sp l d nv, 1 <= D <= n /\ (forall j, 1 <= j < D -> map_get ((start + j) mod n) m = None)
  /\ map_get ((start + D) mod n) m = Some (sp :: l)
  /\ view_create p start (sp_pos sp) ((start + D) mod n) us D eps = Ret d
  /\ nth_error (vtx p) ((start + 1) mod n) = Some nv
  /\ forall pred g, (forall x, pred x = Ret (g x)) ->
     slice_to_next_intersect (n + 2) p second pred eps m start us (next_wrapping_index p start) 0
     = Ret (kept_of g [(from_open_pline_slice d (negb second) false, seg_midpoint us nv)]).
Proof.
  intros LS (l0 & E0) NE. destruct (next_ok p start LS) as (nv & X & ENV).
  (* the first segment with a cut *)
  assert (EX : exists D, 1 <= D <= n /\ (forall j, 1 <= j < D -> map_get ((start + j) mod n) m = None)
            /\ exists l, map_get ((start + D) mod n) m = Some l).
  { assert (G : forall k, k <= n -> (forall j, 1 <= j <= k -> map_get ((start + j) mod n) m = None)
       \/ exists D, 1 <= D <= k /\ (forall j, 1 <= j < D -> map_get ((start + j) mod n) m = None) /\ exists l, map_get ((start + D) mod n) m = Some l).
    { induction k as [|k IH]; intros Hk; [left; intros j; lia|]. destruct IH as [H|(D & L & H)]; [lia| |right; exists D; split; [lia|exact H]].
      destruct (map_get ((start + S k) mod n) m) as [l|] eqn:E.
      - right. exists (S k). split; [lia|]. split; [intros j Hj; apply H; lia|eauto].
      - left. intros j Hj. destruct (Nat.eq_dec j (S k)) as [->|]; [exact E|apply H; lia]. }
    destruct (G n (Nat.le_refl n)) as [H|H]; [|exact H]. exfalso. specialize (H n ltac:(lia)).
    replace (start + n) with (start + 1 * n) in H by lia. rewrite Nat.mod_add, Nat.mod_small in H by lia. congruence. }
  destruct EX as (D & LD & NONE & l & EL). destruct l as [|sp l]; [exfalso; exact (NE _ _ EL eq_refl)|].
  destruct (view_create_fits start (sp_pos sp) ((start + D) mod n) us D LS) as (d & ED & D1 & D2 & D3 & D4 & D5);
    [apply Nat.mod_upper_bound; lia|exact LD|].
  exists D, sp, l, d, nv. split; [exact LD|]. split; [exact NONE|]. split; [exact EL|]. split; [exact ED|]. split; [exact ENV|].
  intros pred g PG. rewrite X.
  assert (G : forall fuel k, k < D -> D < fuel + k + 1 ->
    slice_to_next_intersect fuel p second pred eps m start us ((start + (k + 1)) mod n) k
     = Ret (kept_of g [(from_open_pline_slice d (negb second) false, seg_midpoint us nv)])).
  { induction fuel as [|fuel IH]; intros k Hk HF; [lia|]. cbn [slice_to_next_intersect].
    destruct (Nat.ltb_spec n k) as [Z0|_]; [lia|]. destruct (Nat.eq_dec (k + 1) D) as [E|E].
    - rewrite E, EL. unfold Res.index at 1. cbn [nth_error rbind]. rewrite ED. cbn [rbind].
      unfold from_open_pline_slice at 1 2. cbn [bs_view vd_start_index vd_updated_start]. rewrite D1, D3, X. unfold at_, Res.index. rewrite ENV. cbn [rbind].
      rewrite PG. cbn [rbind]. unfold kept_of. cbn [filter snd]. destruct (g _); reflexivity.
    - rewrite NONE by lia. rewrite next_wrapping_index_mod by (apply Nat.mod_upper_bound; lia).
      rewrite Nat.add_mod_idemp_l by lia. replace (start + (k + 1) + 1) with (start + (k + 1 + 1)) by lia. apply IH; lia. }
  apply (G (n + 2) 0); lia.
Qed.

(** All the slices of an entry. *)
Definition next_cand (m : list (nat * list (slice_point T))) (start : nat) (us : vertex T) (c : boolean_slice T * vec2 T) : Prop :=
  exists D sp l d nv, 1 <= D <= n /\ (forall j, 1 <= j < D -> map_get ((start + j) mod n) m = None)
  /\ map_get ((start + D) mod n) m = Some (sp :: l)
  /\ view_create p start (sp_pos sp) ((start + D) mod n) us D eps = Ret d
  /\ nth_error (vtx p) ((start + 1) mod n) = Some nv
  /\ c = (from_open_pline_slice d (negb second) false, seg_midpoint us nv).

Definition entry_cands (m : list (nat * list (slice_point T))) (e : nat * list (slice_point T)) (cs : list (boolean_slice T * vec2 T)) : Prop :=
  exists a b first rest lst cl, nth_error (vtx p) (fst e) = Some a /\ nth_error (vtx p) ((fst e + 1) mod n) = Some b
  /\ snd e = first :: rest /\ hd_error (rev (snd e)) = Some lst
  /\ cs = within_cands (fst e) b (split_vertex (seg_split_at_point a b (sp_pos first) eps)) first rest ++ cl
  /\ if sp_is_start lst then cl = []
     else exists c, cl = [c] /\ next_cand m (fst e) (split_vertex (seg_split_at_point a b (sp_pos lst) eps)) c.

Lemma entry_spec (m : list (nat * list (slice_point T))) e : StronglySorted lt (map fst m) -> In e m -> fst e < n ->
  (forall k l, In (k, l) m -> l <> []) ->
  exists cs, entry_cands m e cs /\ forall pred g, (forall x, pred x = Ret (g x)) ->
    slices_for_entry p second pred eps m e = Ret (kept_of g cs).
Proof.
  intros S I L NE. destruct e as [start intrs]. cbn [fst] in L.
  destruct (vtx_lt p start L) as [a EA]. destruct (next_ok p start L) as (b & X & EB).
  destruct intrs as [|first rest]; [exfalso; exact (NE _ _ I eq_refl)|].
  assert (HL : exists lst, hd_error (rev (first :: rest)) = Some lst /\ nth_error (first :: rest) (length (first :: rest) - 1) = Some lst).
  { destruct (exists_last (l := first :: rest)) as (l' & lst & E); [discriminate|]. exists lst. rewrite E, rev_unit, app_length. cbn [length].
    split; [reflexivity|]. rewrite nth_error_app2 by lia. replace (length l' + 1 - 1 - length l') with 0 by lia. reflexivity. }
  destruct HL as (lst & HL1 & HL2).
  assert (NG : forall k l, map_get k m = Some l -> l <> []) by (intros k l E; apply (map_get_In _ _ _ S) in E; eapply NE; exact E).
  assert (WITHIN : forall pred g, (forall x, pred x = Ret (g x)) ->
    (if negb (Nat.eqb (length (first :: rest)) 1) then
       rbind (Res.index (first :: rest) 0) (fun first0 =>
       slices_within_segment second pred eps start b (split_vertex (seg_split_at_point a b (sp_pos first0) eps)) first0 (tl (first :: rest)))
     else Ret []) = Ret (kept_of g (within_cands start b (split_vertex (seg_split_at_point a b (sp_pos first) eps)) first rest))).
  { intros pred g PG. cbn [length]. destruct rest as [|r0 rest0]; [reflexivity|]. cbn [length Nat.eqb negb].
    unfold Res.index. cbn [nth_error rbind tl]. apply within_spec. exact PG. }
  destruct (sp_is_start lst) eqn:F.
  - eexists. split.
    + exists a, b, first, rest, lst, []. cbn [fst snd]. rewrite F. repeat split; eauto.
    + intros pred g PG. unfold slices_for_entry. rewrite X. unfold at_ at 1 2, Res.index at 1 2. rewrite EA, EB. cbn [rbind].
      rewrite (WITHIN pred g PG). cbn [rbind]. rewrite HL2. cbn [unwrap rbind]. rewrite F, app_nil_r. reflexivity.
  - destruct (next_cut_spec m start (split_vertex (seg_split_at_point a b (sp_pos lst) eps)) L) as (D & sp & l & d & nv & H1 & H2 & H3 & H4 & H5 & H6).
    { exists (first :: rest). apply (map_get_In _ _ _ S). exact I. }
    { exact NG. }
    eexists. split.
    + exists a, b, first, rest, lst, [(from_open_pline_slice d (negb second) false, seg_midpoint (split_vertex (seg_split_at_point a b (sp_pos lst) eps)) nv)].
      cbn [fst snd]. rewrite F. repeat split; eauto. eexists. split; [reflexivity|]. exists D, sp, l, d, nv. repeat split; auto; lia.
    + intros pred g PG. unfold slices_for_entry. rewrite X. unfold at_ at 1 2, Res.index at 1 2. rewrite EA, EB. cbn [rbind].
      rewrite (WITHIN pred g PG). cbn [rbind]. rewrite HL2. cbn [unwrap rbind]. specialize (H6 pred g PG). rewrite X in H6. rewrite F, H6. cbn [rbind].
      rewrite <- kept_app. reflexivity.
Qed.

Lemma rmapM_entries (m es : list (nat * list (slice_point T))) : StronglySorted lt (map fst m) -> incl es m ->
  (forall k l, In (k, l) m -> k < n /\ l <> []) ->
  exists css, Forall2 (entry_cands m) es css /\ forall pred g, (forall x, pred x = Ret (g x)) ->
    rmapM (slices_for_entry p second pred eps m) es = Ret (map (kept_of g) css).
Proof.
  intros S I H. induction es as [|e es IH].
  - exists []. split; [constructor|]. reflexivity.
  - destruct IH as (css & F & E); [intros x X; apply I; right; exact X|].
    assert (IE : In e m) by (apply I; left; reflexivity). destruct e as [k l].
    destruct (entry_spec m (k, l) S IE) as (cs & EC & E1); [apply (H k l IE)|intros k' l' I'; apply (H k' l' I')|].
    exists (cs :: css). split; [constructor; auto|]. intros pred g PG. cbn [rmapM map]. rewrite (E1 pred g PG), (E pred g PG). reflexivity.
Qed.

Lemma kept_concat g css : kept_of g (concat css) = concat (map (kept_of g) css).
Proof. induction css as [|c t IH]; [reflexivity|]. cbn [concat map]. now rewrite kept_app, IH. Qed.

Lemma slice_at_spec : exists m css, grouped cuts m
  /\ (forall k l, In (k, l) m -> k < n /\ exists v l0, nth_error (vtx p) k = Some v /\ l = isort (near_first v) l0)
  /\ Forall2 (entry_cands m) m css
  /\ forall pred g, (forall x, pred x = Ret (g x)) ->
     slice_at_intersects p (BInfo os bs o1 o2) second pred eps = Ret (kept_of g (concat css)).
Proof.
  destruct lookup_spec as (m & E & G & K). destruct G as (S & G1 & G2).
  destruct (rmapM_entries m m S (incl_refl m)) as (css & F & ES).
  { intros k l I. split; [apply (K k l I)|apply (G1 k l I)]. }
  exists m, css. split; [split; auto|]. split; [exact K|]. split; [exact F|]. intros pred g PG.
  unfold slice_at_intersects. rewrite E. cbn [rbind]. rewrite (ES pred g PG). cbn [rbind]. now rewrite kept_concat.
Qed.
End Cut.
