(** Candidates, overlaps and the whole of a boolean operation (C32), for any number type. *)
From Coq Require Import List Bool Arith ZArith Permutation Sorted Lia.
From Verif Require Import Num Res ModelMath ModelSeg ModelPline ModelView ModelIndex ModelIntersects ModelBoolean.
From Verif Require Import Spec SpecView SpecIndex SpecIntersects SpecJoin SpecBoolean SpecStitch SpecPrune.
From Verif Require Import ProofBase ProofIter ProofInvert ProofRepeat2 ProofView ProofSelf ProofFind ProofJoin ProofBoolean ProofStitch ProofStitch2 ProofPrune.
Import ListNotations.

Lemma Forall2_In_r {A B} (P : A -> B -> Prop) l m : Forall2 P l m -> forall b, In b m -> exists a, In a l /\ P a b.
Proof.
  intros F. induction F as [|a b l m H F IH]; [intros ? []|]. intros c [<-|I]; [exists a; split; [left; reflexivity|exact H]|].
  destruct (IH c I) as (x & X & Y). exists x. split; [right; exact X|exact Y].
Qed.

Section Candidates.
Context {T : Type} {N : Num T} (p1 p2 : pline T) (second : bool) (eps : T).
Local Notation p := (if second then p2 else p1).
Hypothesis VC : 2 <= vertex_count p.

Lemma within_candidates start b l : start < vertex_count p -> forall pv psp,
  Forall (candidate p1 p2 second) (within_cands second eps start b pv psp l).
Proof.
  intros L. induction l as [|sp t IH]; intros pv psp; cbn [within_cands]; [constructor|]. apply Forall_app. split; [|apply IH].
  destruct (sp_is_start psp); [constructor|]. destruct (v2fuzzy_eq_eps _ _ eps); [constructor|]. constructor; [|constructor].
  unfold candidate. cbn [fst snd bs_view bs_source_is_pline1 bs_overlapping vd_inverted vd_updated_start vd_end_point vd_start_index].
  split; [|repeat split; eauto].
  unfold slice_fits, slice_source. cbn [bs_view bs_source_is_pline1 vd_start_index vd_end_index_offset]. destruct second; cbn [negb]; split; (exact L || apply Nat.le_0_l).
Qed.

Lemma entry_candidates m e cs : fst e < vertex_count p -> entry_cands p second eps m e cs -> Forall (candidate p1 p2 second) cs.
Proof.
  intros L (a & b & first & rest & lst & cl & EA & EB & ER & EL & -> & C). apply Forall_app. split; [apply within_candidates; exact L|].
  destruct (sp_is_start lst); [subst; constructor|]. destruct C as (c & -> & D & sp & l & d & nv & LD & _ & _ & ED & EN & ->). constructor; [|constructor].
  destruct (view_create_fits p eps VC (fst e) (sp_pos sp) ((fst e + D) mod vertex_count p) (split_vertex (seg_split_at_point a b (sp_pos lst) eps)) D L)
    as (d' & ED' & D1 & D2 & D3 & D4 & D5); [apply Nat.mod_upper_bound; lia|exact LD|].
  rewrite ED in ED'. injection ED' as <-.
  unfold candidate, slice_fits, slice_source, from_open_pline_slice. cbn [fst snd bs_view bs_source_is_pline1 bs_overlapping vd_inverted vd_updated_start vd_end_point vd_start_index vd_end_index_offset].
  assert (ES : (if negb second then p1 else p2) = p) by (destruct second; reflexivity). rewrite ES, D1, D3.
  split; [split; [exact L|exact D2]|]. repeat split. exists nv. auto.
Qed.

Lemma slice_at_candidates bs os o1 o2 :
  (forall b, In b bs -> (if second then bi_index2 b else bi_index1 b) < vertex_count p) ->
  (forall s, In s os -> (if second then snd (os_start_indexes s) else fst (os_start_indexes s)) < vertex_count p
                        /\ (if second then snd (os_end_indexes s) else fst (os_end_indexes s)) < vertex_count p) ->
  exists cs, Forall (candidate p1 p2 second) cs /\ forall pred g, (forall x, pred x = Ret (g x)) ->
    slice_at_intersects p (BInfo os bs o1 o2) second pred eps = Ret (map fst (filter (fun c => g (snd c)) cs)).
Proof.
  intros HB HO. destruct (slice_at_spec p second eps VC bs os o1 o2 HB HO) as (m & css & G & K & F & E).
  exists (concat css). split; [|exact E].
  apply Forall_concat, Forall_forall. intros cs I. destruct (Forall2_In_r _ _ _ F cs I) as (e & IE & H).
  apply (entry_candidates m e cs); [|exact H]. destruct e as [k l]. apply (K k l IE).
Qed.
End Candidates.

(** ** The joined overlaps *)
Section Overlaps.
Context {T : Type} {N : Num T} (p1 p2 : pline T) (eps : T).

Lemma insert_index_sorted {A} (leb : A -> A -> bool) (k : A -> nat) a l :
  (forall x y, leb x y = true -> k x <= k y) -> (forall x y, leb x y = false -> k y <= k x) ->
  StronglySorted le (map k l) -> StronglySorted le (map k (insert_sorted leb a l)).
Proof.
  intros H1 H2. induction l as [|b t IH]; intros S; cbn [insert_sorted map]; [repeat constructor|].
  inversion S as [|? ? S' F]; subst. destruct (leb a b) eqn:E; cbn [map].
  - constructor; [exact S|]. constructor; [apply H1; exact E|]. eapply Forall_impl; [|exact F]. intros x X. apply H1 in E. cbn in X. lia.
  - constructor; [apply IH; exact S'|]. rewrite Forall_forall in *. intros x X. apply in_map_iff in X as (y & <- & Y).
    apply (Permutation_in _ (Permutation_sym (insert_perm leb a t))) in Y. destruct Y as [<-|Y]; [apply H2; exact E|apply F, in_map; exact Y].
Qed.

Lemma isort_index_sorted {A} (leb : A -> A -> bool) (k : A -> nat) l :
  (forall x y, leb x y = true -> k x <= k y) -> (forall x y, leb x y = false -> k y <= k x) -> StronglySorted le (map k (isort leb l)).
Proof. intros H1 H2. induction l as [|a t IH]; [constructor|]. cbn [isort]. now apply insert_index_sorted. Qed.

Lemma overlaps_index_sorted l : StronglySorted le (map (@oi_index2 T) (isort (fun a b => cmp_leb (overlap_cmp p2 a b)) l)).
Proof.
  apply isort_index_sorted; intros x y; unfold overlap_cmp; destruct (Nat.compare_spec (oi_index2 x) (oi_index2 y)) as [C|C|C]; cbn [cmp_then cmp_leb]; try lia; try discriminate; intros _; lia.
Qed.

Lemma sorted_app_le (l1 l2 : list nat) : StronglySorted le (l1 ++ l2) -> forall x y, In x l1 -> In y l2 -> x <= y.
Proof.
  induction l1 as [|a t IH]; intros S x y X Y; [destruct X|]. cbn [app] in S. inversion S as [|? ? S' F]; subst.
  destruct X as [<-|X]; [|eapply IH; eauto]. rewrite Forall_forall in F. apply F. apply in_or_app. auto.
Qed.

Lemma hd_In {A} (l : list A) a : hd_error l = Some a -> In a l.
Proof. destruct l; [discriminate|]. intros [= ->]. left. reflexivity. Qed.
Lemma last_In {A} (l : list A) a : hd_error (rev l) = Some a -> In a l.
Proof. intros H. apply in_rev. now apply hd_In. Qed.

Lemma sorted_app_l (l1 l2 : list nat) : StronglySorted le (l1 ++ l2) -> StronglySorted le l1 /\ StronglySorted le l2.
Proof.
  induction l1 as [|a t IH]; intros S; [split; [constructor|exact S]|]. cbn [app] in S. inversion S as [|? ? S' F]; subst.
  destruct (IH S') as [A B]. split; [|exact B]. constructor; [exact A|]. apply Forall_app in F. apply F.
Qed.

Lemma sorted_hd_last (r : list (overlap_intr T)) a z : StronglySorted le (map (@oi_index2 T) r) -> hd_error r = Some a -> hd_error (rev r) = Some z ->
  oi_index2 a <= oi_index2 z.
Proof.
  intros S HA HZ. destruct r as [|a' t]; [discriminate|]. injection HA as ->. apply last_In in HZ as [->|HZ]; [lia|].
  inversion S as [|? ? _ F]; subst. rewrite Forall_forall in F. apply F. now apply in_map.
Qed.

Lemma run_slice_fits r s : Forall (in_range p1 p2) r -> run_slice p1 p2 eps r s -> overlap_fits p1 p2 s.
Proof.
  intros F (a & z & HA & HZ & E1 & _ & _ & _ & _ & EL & _ & H). rewrite Forall_forall in F.
  destruct (F a (hd_In _ _ HA)) as [A1 A2]. destruct (F z (last_In _ _ HZ)) as [Z1 Z2]. unfold overlap_fits. rewrite E1.
  assert (E2 : os_end_indexes s = indexes a \/ os_end_indexes s = indexes z) by (destruct (os_is_loop s); destruct H as (H & _); auto).
  destruct E2 as [-> | ->]; cbn; auto.
Qed.

Lemma merged_fits slices result : Forall (overlap_fits p1 p2) slices -> ends_merged p2 eps slices result -> Forall (overlap_fits p1 p2) result.
Proof.
  intros F [(first & mid & last & v0 & -> & _ & _ & whole & -> & E1 & E2 & _)|(_ & ->)]; [|exact F].
  inversion F as [|? ? F1 F2]; subst. apply Forall_app in F2 as [F2 F3]. inversion F3 as [|? ? F4 _]; subst. constructor; [|exact F2].
  unfold overlap_fits in *. rewrite E1, E2. intuition.
Qed.

Lemma run_offset r s a z : StronglySorted le (map (@oi_index2 T) r) -> Forall (in_range p1 p2) r -> run_slice p1 p2 eps r s ->
  hd_error r = Some a -> hd_error (rev r) = Some z -> ~ closed_run eps r -> vd_end_index_offset (os_view s) = oi_index2 z - oi_index2 a.
Proof.
  intros S F (a' & z' & HA & HZ & _ & _ & _ & _ & _ & EL & LO & H) HA' HZ' NC. rewrite HA in HA'. rewrite HZ in HZ'. injection HA' as ->. injection HZ' as ->.
  rewrite Forall_forall in F. destruct (F a (hd_In _ _ HA)) as [A1 A2]. destruct (F z (last_In _ _ HZ)) as [Z1 Z2].
  assert (L := sorted_hd_last r a z S HA HZ).
  assert (NL : os_is_loop s = false).
  { destruct (os_is_loop s) eqn:E; [|reflexivity]. exfalso. apply NC. symmetry in EL. apply andb_prop in EL as [L1 L2]. apply Nat.ltb_lt in L1.
    split; [exact L1|]. exists a, z. auto. }
  rewrite NL in H. destruct H as [_ H].
  destruct (Nat.ltb_spec (oi_index2 a + vd_end_index_offset (os_view s)) (vertex_count p2)) as [X|X].
  - rewrite Nat.mod_small in H by exact X. lia.
  - exfalso. replace (oi_index2 a + vd_end_index_offset (os_view s)) with (oi_index2 a + vd_end_index_offset (os_view s) - vertex_count p2 + 1 * vertex_count p2) in H by lia.
    rewrite Nat.mod_add, Nat.mod_small in H by lia. lia.
Qed.

Lemma joined_offsets sorted runs slices result : StronglySorted le (map (@oi_index2 T) sorted) -> Forall (in_range p1 p2) sorted ->
  joined_runs eps sorted runs -> Forall2 (run_slice p1 p2 eps) runs slices -> ends_merged p2 eps slices result ->
  (forall r, In r runs -> closed_run eps r -> runs = [r]) ->
  Forall (fun s => vd_end_index_offset (os_view s) <= vertex_count p2) result.
Proof.
  intros S F (EC & NR & _) F2 M NC.
  assert (LO : Forall (fun s => vd_end_index_offset (os_view s) < vertex_count p2) slices).
  { clear -F2. induction F2 as [|r s rs ss H F IH]; constructor; [|exact IH]. destruct H as (a & z & _ & _ & _ & _ & _ & _ & _ & _ & H & _). exact H. }
  destruct M as [(first & mid & last & v0 & -> & _ & _ & whole & -> & _ & _ & _ & _ & _ & _ & _ & _ & EO)|(_ & ->)].
  2:{ eapply Forall_impl; [|exact LO]. intros s H. cbn in H. lia. }
  inversion LO as [|? ? L1 LR]; subst. apply Forall_app in LR as [LM LL]. inversion LL as [|? ? L2 _]; subst.
  constructor; [|eapply Forall_impl; [|exact LM]; intros s H; cbn in H; lia].
  inversion F2 as [|r1 ? rs ? RS1 F2']; subst. apply Forall2_app_inv_r in F2' as (rm & rl & FM & FL & ->).
  inversion FL as [|r2 ? rn ? RS2 FN]; subst. inversion FN; subst.
  cbn [concat] in S, F. rewrite concat_app in S, F. cbn [concat] in S, F. rewrite app_nil_r in S, F.
  assert (N1 : ~ closed_run eps r1). { intros C. apply NC in C; [destruct rm; discriminate|left; reflexivity]. }
  assert (N2 : ~ closed_run eps r2). { intros C. apply NC in C; [destruct rm as [|? [|]]; discriminate|right; apply in_or_app; right; left; reflexivity]. }
  rewrite map_app in S. apply Forall_app in F as [FR1 FR]. apply Forall_app in FR as [_ FR2].
  pose proof (sorted_app_le _ _ S) as SL. apply sorted_app_l in S as [S1 S']. rewrite map_app in S'. apply sorted_app_l in S' as [_ S2].
  assert (X1 := RS1). assert (X2 := RS2). destruct X1 as (a1 & z1 & HA1 & HZ1 & _). destruct X2 as (a2 & z2 & HA2 & HZ2 & _).
  rewrite (run_offset r1 first a1 z1 S1 FR1 RS1 HA1 HZ1 N1), (run_offset r2 last a2 z2 S2 FR2 RS2 HA2 HZ2 N2) in EO.
  pose proof (sorted_hd_last r1 a1 z1 S1 HA1 HZ1). pose proof (sorted_hd_last r2 a2 z2 S2 HA2 HZ2).
  assert (oi_index2 z1 <= oi_index2 a2).
  { apply SL; [apply in_map, last_In; exact HZ1|]. rewrite map_app. apply in_or_app. right. apply in_map, hd_In. exact HA2. }
  rewrite Forall_forall in FR2. destruct (FR2 z2 (last_In _ _ HZ2)) as [_ Z2]. rewrite EO.
  destruct (v2fuzzy_eq_eps _ _ _); lia.
Qed.
End Overlaps.

(** ** The whole operation *)
Section Whole.
Context {T : Type} {N : Num T}.
Context (mk : list (aabb T) -> sindex T) (p1 p2 : pline T) (op : boolean_op) (idx : sindex T) (eps : T).
Hypothesis MK : makes_index mk.
Context (boxes : list (aabb T)).
Hypothesis IO : index_of boxes idx.
Hypothesis BL : length boxes = length (spec_segs (vtx p1) (is_closed p1)).

Lemma in_pline p x : point_in_pline p x = Ret (Bool.eqb (inside p x) true).
Proof.
  unfold point_in_pline, inside. destruct (accessors_total p eps x) as (_ & _ & _ & (w & W) & _). rewrite W. cbn [rbind].
  destruct (negb _); reflexivity.
Qed.
Lemma not_in_pline p x : point_not_in_pline p x = Ret (Bool.eqb (inside p x) false).
Proof. unfold point_not_in_pline. rewrite in_pline. cbn [rbind]. destruct (inside p x); reflexivity. Qed.

Lemma turned_false l : Forall (fun s => vd_inverted (bs_view s) = false) l -> map (turned (T := T) false) l = l.
Proof. induction 1 as [|s l H F IH]; [reflexivity|]. cbn [map]. rewrite IH. destruct s as [[] ? ?]. cbn in H. subst. reflexivity. Qed.
Lemma turned_true l : map (turned (T := T) true) l = map (@set_inverted T) l.
Proof. reflexivity. Qed.

Lemma overlap_same s b : from_overlapping (T := T) s b = overlap_slice b s.
Proof. reflexivity. Qed.

Context (bs : list (basic_intr T)) (os : list (overlapping_slice T)) (o1 o2 : orientation_t).
Context (cs1 cs2 : list (boolean_slice T * vec2 T)).
Hypothesis C1 : Forall (candidate p1 p2 false) cs1.
Hypothesis C2 : Forall (candidate p1 p2 true) cs2.
Hypothesis E1 : forall pred g, (forall x, pred x = Ret (g x)) ->
  slice_at_intersects p1 (BInfo os bs o1 o2) false pred eps = Ret (map fst (filter (fun c => g (snd c)) cs1)).
Hypothesis E2 : forall pred g, (forall x, pred x = Ret (g x)) ->
  slice_at_intersects p2 (BInfo os bs o1 o2) true pred eps = Ret (map fst (filter (fun c => g (snd c)) cs2)).
Hypothesis FIT : forall s, In s os -> overlap_fits p1 p2 s /\ vd_end_index_offset (os_view s) <= vertex_count p2.

Lemma kept_fit second g cs s : Forall (candidate p1 p2 second) cs -> In s (map fst (filter g cs)) -> slice_fits p1 p2 s /\ vd_inverted (bs_view s) = false.
Proof.
  intros F I. apply in_map_iff in I as (c & <- & I). apply filter_In in I as [I _]. rewrite Forall_forall in F.
  destruct (F c I) as (X & _ & _ & Y & _). auto.
Qed.

Lemma boundary_fits back g1 g2 s : In s (ps_slices (boundary back (map fst (filter g1 cs1)) (map fst (filter g2 cs2)) os)) -> slice_fits p1 p2 s.
Proof.
  unfold boundary. cbn [ps_slices]. rewrite !in_app_iff. intros [I|[I|[I|I]]].
  - apply in_map_iff in I as (c & <- & I). destruct (kept_fit _ _ _ _ C1 I) as [X _]. exact X.
  - apply (kept_fit _ _ _ _ C2 I).
  - apply in_map_iff in I as (c & <- & I). destruct (FIT c I) as ((_ & _ & X & _) & Y). split; [exact X|exact Y].
  - apply in_map_iff in I as (c & <- & I). destruct (FIT c I) as ((_ & _ & X & _) & Y). split; [exact X|exact Y].
Qed.

Definition same_dir (a b : orientation_t) := orientation_eqb a b.

Lemma prune_boundary pred1 pred2 g1 g2 opp : (forall x, pred1 x = Ret (g1 x)) -> (forall x, pred2 x = Ret (g2 x)) ->
  prune_slices p1 p2 (BInfo os bs o1 o2) pred1 pred2 opp eps
  = Ret (boundary (negb (Bool.eqb opp (negb (orientation_eqb o1 o2)))) (map fst (filter (fun c => g1 (snd c)) cs1)) (map fst (filter (fun c => g2 (snd c)) cs2)) os).
Proof.
  intros G1 G2. unfold prune_slices. rewrite (E1 pred1 g1 G1), (E2 pred2 g2 G2). cbn [rbind]. unfold boundary, opposing_directions.
  cbn [bn_overlapping bn_orientation1 bn_orientation2]. rewrite !map_length. f_equal. f_equal. f_equal.
  destruct (negb (Bool.eqb opp (negb (orientation_eqb o1 o2)))); [reflexivity|]. symmetry. apply turned_false.
  apply Forall_forall. intros s I. apply (kept_fit _ _ _ _ C1 I).
Qed.

Lemma stitch_boundary w select :
  let ps := boundary (backward op o1 o2) (map fst (filter (fun c => Bool.eqb (inside p2 (snd c)) (fst w)) cs1))
                     (map fst (filter (fun c => Bool.eqb (inside p1 (snd c)) (snd w)) cs2)) os in
  picks select -> prefers op ps select ->
  exists rs, stitch_slices_into_closed_polylines mk (ps_slices ps) p1 p2 select eps = Ret rs
  /\ traced p1 p2 op o1 o2 eps cs1 cs2 os w rs.
Proof.
  intros ps PI PR. destruct (stitch_closed_spec p1 p2 (ps_slices ps) select eps (slice_path_is p1 p2)) with (mk := mk) as (chains & rs & E & ST & PM); auto.
  - intros s l H. apply (slice_path_end p1 p2 s l H).
  - intros s I. apply slice_path_ok. eapply boundary_fits. exact I.
  - exists rs. split; [exact E|]. exists select, chains. auto.
Qed.

End Whole.

Lemma all_kept {A} (l : list A) : filter (fun _ => true) l = l.
Proof. induction l as [|a l IH]; [reflexivity|]. cbn. now rewrite IH. Qed.
Lemma none_kept {A} (l : list A) : filter (fun _ => false) l = [].
Proof. induction l as [|a l IH]; [reflexivity|]. exact IH. Qed.

Lemma split_all {T} {N : Num T} o2 (l : list (boolean_result_pline T)) : forall a b, rfold (split_by_orientation o2) l (a, b)
  = Ret (a ++ br_pos (sorted_out BOr o2 l), b ++ br_neg (sorted_out BOr o2 l)).
Proof.
  induction l as [|r t IH]; intros a b; [cbn; now rewrite !app_nil_r|]. cbn [rfold]. unfold split_by_orientation at 1.
  destruct (accessors_total (brp_pline r) nzero (V2 nzero nzero)) as (_ & _ & _ & _ & _ & (o & EO) & _). unfold sorted_out. cbn [br_pos br_neg filter]. rewrite EO. cbn [rbind fst snd].
  destruct o, o2; cbn [orientation_eqb negb rbind]; rewrite IH; unfold sorted_out; cbn [br_pos br_neg]; rewrite <- !app_assoc; reflexivity.
Qed.

Section Crossing.
Context {T : Type} {N : Num T}.
Context (mk : list (aabb T) -> sindex T) (p1 p2 : pline T) (op : boolean_op) (idx : sindex T) (eps : T).
Hypothesis MK : makes_index mk.
Context (boxes : list (aabb T)).
Hypothesis IO : index_of boxes idx.
Hypothesis BL : length boxes = length (spec_segs (vtx p1) (is_closed p1)).

Lemma basic_in_range b : basic_ok p1 p2 eps b -> bi_index1 b < vertex_count p1 /\ bi_index2 b < vertex_count p2.
Proof.
  intros (v1 & v2 & u1 & u2 & E1 & E2 & _). split.
  - destruct (seg_at_index p1 (bi_index1 b)) as (? & ? & ? & ? & ? & L); [apply nth_error_Some; congruence|exact L].
  - destruct (seg_at_index p2 (bi_index2 b)) as (? & ? & ? & ? & ? & L); [apply nth_error_Some; congruence|exact L].
Qed.

Lemma overlaps_spec ovs : Forall (overlap_ok p1 p2 eps) ovs -> exists sorted runs os,
  Permutation ovs sorted /\ StronglySorted le (map (@oi_index2 T) sorted) /\ joined_runs eps sorted runs
  /\ sort_and_join_overlapping_intersects ovs p1 p2 eps = Ret os
  /\ Forall (overlap_fits p1 p2) os
  /\ ((forall r, In r runs -> closed_run eps r -> runs = [r]) -> Forall (fun s => vd_end_index_offset (os_view s) <= vertex_count p2) os).
Proof.
  intros FO. assert (FR : Forall (in_range p1 p2) ovs) by (eapply Forall_impl; [apply overlap_in_range|exact FO]).
  destruct (sort_join_spec p1 p2 eps ovs FR) as (sorted & PM & ES & runs & slices & result & E & JR & RS & EM).
  assert (FS : Forall (in_range p1 p2) sorted) by (eapply Permutation_Forall; eauto).
  exists sorted, runs, result. split; [exact PM|]. split; [subst; apply overlaps_index_sorted|]. split; [exact JR|]. split; [exact E|]. split.
  - apply (merged_fits p1 p2 eps slices result); [|exact EM].
    assert (FC : forall r, In r runs -> Forall (in_range p1 p2) r).
    { intros r I. apply Forall_forall. intros x X. rewrite Forall_forall in FS. apply FS. destruct JR as (<- & _). apply in_concat. eauto. }
    clear -RS FC. induction RS as [|r s rs ss H F IH]; constructor.
    + apply (run_slice_fits p1 p2 eps r s); [apply FC; left; reflexivity|exact H].
    + apply IH. intros r' I. apply FC. right. exact I.
  - intros NC. apply (joined_offsets p1 p2 eps sorted runs slices result); auto. subst. apply overlaps_index_sorted.
Qed.

Lemma find_In_ok : exists bs ovs, find_intersects p1 p2 idx eps = Ret (bs, ovs) /\ Forall (basic_ok p1 p2 eps) bs /\ Forall (overlap_ok p1 p2 eps) ovs.
Proof. destruct (find_intersects_each p1 p2 eps boxes idx IO BL) as (bs & os & E & FB & FO). exists bs, os. split; [exact E|]. split; [|exact FO]. eapply Forall_impl; [|exact FB]. cbn. tauto. Qed.

Lemma crossing_with bs os o1 o2 cs1 cs2 : valid_loop p1 -> valid_loop p2 ->
  process_for_boolean p1 p2 idx eps = Ret (BInfo os bs o1 o2) ->
  Forall (candidate p1 p2 false) cs1 -> Forall (candidate p1 p2 true) cs2 ->
  (forall pred g, (forall x, pred x = Ret (g x)) -> slice_at_intersects p1 (BInfo os bs o1 o2) false pred eps = Ret (map fst (filter (fun c => g (snd c)) cs1))) ->
  (forall pred g, (forall x, pred x = Ret (g x)) -> slice_at_intersects p2 (BInfo os bs o1 o2) true pred eps = Ret (map fst (filter (fun c => g (snd c)) cs2))) ->
  (bs <> [] \/ os <> []) -> (forall s, os = [s] -> os_is_loop s = false) ->
  (forall s, In s os -> overlap_fits p1 p2 s /\ vd_end_index_offset (os_view s) <= vertex_count p2) ->
  exists loops, Forall2 (traced p1 p2 op o1 o2 eps cs1 cs2 os) (wanted op) loops
  /\ polyline_boolean mk p1 p2 op idx eps = Ret (sorted_out op o2 (concat loops)).
Proof.
  intros [V1 C1] [V2' C2] EP F1 F2 S1 S2 NE NL FIT'.
  unfold polyline_boolean. rewrite C1, C2.
  destruct (Nat.ltb_spec (vertex_count p1) 2); [lia|]. destruct (Nat.ltb_spec (vertex_count p2) 2); [lia|]. cbn [orb negb].
  rewrite EP. cbn [rbind].
  assert (E1 : completely_overlapping (BInfo os bs o1 o2) = false).
  { unfold completely_overlapping. cbn [bn_overlapping]. destruct os as [|s [|s' t]]; try reflexivity. now apply NL. }
  assert (E2 : any_intersects (BInfo os bs o1 o2) = true).
  { unfold any_intersects. cbn [bn_overlapping bn_intersects]. destruct bs, os; try reflexivity. destruct NE; congruence. }
  rewrite E1, E2. cbn [negb].
  pose proof (prune_boundary p1 p2 eps bs os o1 o2 cs1 cs2 F1 S1 S2) as PB.
  assert (ORD : forall b (k1 k2 : list (boolean_slice T)), ps_start2 (boundary b k1 k2 os) <= ps_start1_overlapping (boundary b k1 k2 os) <= ps_start2_overlapping (boundary b k1 k2 os)).
  { intros. unfold boundary. cbn. lia. }
  destruct op eqn:EOP.
  - rewrite (PB _ _ _ _ false (not_in_pline eps p2) (not_in_pline eps p1)). cbn [rbind].
    destruct (stitch_boundary mk p1 p2 BOr eps MK os o1 o2 cs1 cs2 F1 F2 FIT' (false, false)
       (or_and_select (boundary (backward BOr o1 o2) (map fst (filter (fun c => Bool.eqb (inside p2 (snd c)) false) cs1)) (map fst (filter (fun c => Bool.eqb (inside p1 (snd c)) false) cs2)) os)))
      as (rs & ER & TR); [apply or_and_picks|intros cur l NEl; now apply or_and_prefers|].
    exists [rs]. split; [repeat constructor; exact TR|].
    replace (negb (Bool.eqb false (negb (orientation_eqb o1 o2)))) with (backward BOr o1 o2) by (destruct o1, o2; reflexivity).
    cbn [fst snd] in ER. rewrite ER. cbn [rbind concat]. rewrite app_nil_r. rewrite split_all. reflexivity.
  - rewrite (PB _ _ _ _ false (in_pline eps p2) (in_pline eps p1)). cbn [rbind].
    destruct (stitch_boundary mk p1 p2 BAnd eps MK os o1 o2 cs1 cs2 F1 F2 FIT' (true, true)
       (or_and_select (boundary (backward BAnd o1 o2) (map fst (filter (fun c => Bool.eqb (inside p2 (snd c)) true) cs1)) (map fst (filter (fun c => Bool.eqb (inside p1 (snd c)) true) cs2)) os)))
      as (rs & ER & TR); [apply or_and_picks|intros cur l NEl; now apply or_and_prefers|].
    exists [rs]. split; [repeat constructor; exact TR|].
    replace (negb (Bool.eqb false (negb (orientation_eqb o1 o2)))) with (backward BAnd o1 o2) by (destruct o1, o2; reflexivity).
    cbn [fst snd] in ER. rewrite ER. cbn [rbind concat]. rewrite app_nil_r. unfold sorted_out. cbn [negb].
    rewrite all_kept, none_kept. reflexivity.
  - rewrite (PB _ _ _ _ true (not_in_pline eps p2) (in_pline eps p1)). cbn [rbind].
    destruct (stitch_boundary mk p1 p2 BNot eps MK os o1 o2 cs1 cs2 F1 F2 FIT' (false, true)
       (not_xor_select (boundary (backward BNot o1 o2) (map fst (filter (fun c => Bool.eqb (inside p2 (snd c)) false) cs1)) (map fst (filter (fun c => Bool.eqb (inside p1 (snd c)) true) cs2)) os)))
      as (rs & ER & TR); [apply not_xor_picks|intros cur l NEl; now apply not_xor_prefers|].
    exists [rs]. split; [repeat constructor; exact TR|].
    replace (negb (Bool.eqb true (negb (orientation_eqb o1 o2)))) with (backward BNot o1 o2) by (destruct o1, o2; reflexivity).
    cbn [fst snd] in ER. rewrite ER. cbn [rbind concat]. rewrite app_nil_r. unfold sorted_out. cbn [negb].
    rewrite all_kept, none_kept. reflexivity.
  - rewrite (PB _ _ _ _ true (not_in_pline eps p2) (in_pline eps p1)). cbn [rbind].
    destruct (stitch_boundary mk p1 p2 BXor eps MK os o1 o2 cs1 cs2 F1 F2 FIT' (false, true)
       (not_xor_select (boundary (backward BXor o1 o2) (map fst (filter (fun c => Bool.eqb (inside p2 (snd c)) false) cs1)) (map fst (filter (fun c => Bool.eqb (inside p1 (snd c)) true) cs2)) os)))
      as (rs & ER & TR); [apply not_xor_picks|intros cur l NEl; now apply not_xor_prefers|].
    destruct (stitch_boundary mk p1 p2 BXor eps MK os o1 o2 cs1 cs2 F1 F2 FIT' (true, false)
       (not_xor_select (boundary (backward BXor o1 o2) (map fst (filter (fun c => Bool.eqb (inside p2 (snd c)) true) cs1)) (map fst (filter (fun c => Bool.eqb (inside p1 (snd c)) false) cs2)) os)))
      as (rs2 & ER2 & TR2); [apply not_xor_picks|intros cur l NEl; now apply not_xor_prefers|].
    exists [rs; rs2]. split; [repeat constructor; assumption|].
    rewrite (PB _ _ _ _ true (in_pline eps p2) (not_in_pline eps p1)).
    replace (negb (Bool.eqb true (negb (orientation_eqb o1 o2)))) with (backward BXor o1 o2) by (destruct o1, o2; reflexivity).
    cbn [fst snd] in ER, ER2. rewrite ER. cbn [rbind]. rewrite ER2. cbn [rbind concat]. rewrite app_nil_r. unfold sorted_out. cbn [negb].
    rewrite all_kept, none_kept. reflexivity.
Qed.

Lemma boolean_crossing : valid_loop p1 -> valid_loop p2 ->
  exists bs ovs os o1 o2 cs1 cs2, find_intersects p1 p2 idx eps = Ret (bs, ovs)
  /\ sort_and_join_overlapping_intersects ovs p1 p2 eps = Ret os
  /\ orientation p1 = Ret o1 /\ orientation p2 = Ret o2
  /\ Forall (candidate p1 p2 false) cs1 /\ Forall (candidate p1 p2 true) cs2
  /\ ((bs <> [] \/ os <> []) -> (forall s, os = [s] -> os_is_loop s = false) ->
      (forall s, In s os -> vd_end_index_offset (os_view s) <= vertex_count p2) ->
      exists loops, Forall2 (traced p1 p2 op o1 o2 eps cs1 cs2 os) (wanted op) loops
      /\ polyline_boolean mk p1 p2 op idx eps = Ret (sorted_out op o2 (concat loops))).
Proof.
  intros [V1 C1] [V2' C2].
  destruct find_In_ok as (bs & ovs & EF & FB & FO). destruct (overlaps_spec ovs FO) as (sorted & runs & os & _ & _ & _ & EJ & FF & _).
  destruct (process_total p1 p2 idx eps boxes IO BL) as (bs' & ovs' & os' & o1 & o2 & EF' & EJ' & EO1 & EO2 & EP).
  rewrite EF in EF'. injection EF' as <- <-. rewrite EJ in EJ'. injection EJ' as <-.
  rewrite Forall_forall in FB, FF.
  destruct (slice_at_candidates p1 p2 false eps V1 bs os o1 o2) as (cs1 & F1 & S1).
  { intros b I. apply (basic_in_range b (FB b I)). } { intros s I. destruct (FF s I) as (X1 & X2 & X3 & X4). auto. }
  destruct (slice_at_candidates p1 p2 true eps V2' bs os o1 o2) as (cs2 & F2 & S2).
  { intros b I. apply (basic_in_range b (FB b I)). } { intros s I. destruct (FF s I) as (X1 & X2 & X3 & X4). auto. }
  exists bs, ovs, os, o1, o2, cs1, cs2. do 6 (split; [assumption|]). intros NE NL FIT.
  apply (crossing_with bs os o1 o2 cs1 cs2); auto; try (split; assumption).
Qed.

Lemma boolean_total : exists bs ovs os, find_intersects p1 p2 idx eps = Ret (bs, ovs)
  /\ sort_and_join_overlapping_intersects ovs p1 p2 eps = Ret os
  /\ ((forall s, In s os -> vd_end_index_offset (os_view s) <= vertex_count p2) -> exists r, polyline_boolean mk p1 p2 op idx eps = Ret r).
Proof.
  destruct find_In_ok as (bs & ovs & EF & FB & FO). destruct (overlaps_spec ovs FO) as (sorted & runs & os & _ & _ & _ & EJ & FF & _).
  exists bs, ovs, os. split; [exact EF|]. split; [exact EJ|]. intros FIT.
  assert (D : valid_loop p1 /\ valid_loop p2 \/ ~ (valid_loop p1 /\ valid_loop p2)).
  { unfold valid_loop. destruct (le_dec 2 (vertex_count p1)), (le_dec 2 (vertex_count p2)), (is_closed p1), (is_closed p2); (left; tauto) || (right; intuition (congruence || lia)). }
  destruct D as [[L1 L2]|NV]; [|eexists; apply boolean_invalid; exact NV].
  destruct (boolean_whole mk p1 p2 op idx eps boxes IO BL L1 L2) as (bs' & ovs' & os' & v1 & v2 & w12 & w21 & EF' & EJ' & _ & _ & _ & _ & W1 & W2).
  rewrite EF in EF'. injection EF' as <- <-. rewrite EJ in EJ'. injection EJ' as <-.
  destruct (boolean_crossing L1 L2) as (bs' & ovs' & os' & o1 & o2 & cs1 & cs2 & EF' & EJ' & _ & _ & _ & _ & H).
  rewrite EF in EF'. injection EF' as <- <-. rewrite EJ in EJ'. injection EJ' as <-.
  assert (D : (bs = [] /\ os = []) \/ (exists s, os = [s] /\ os_is_loop s = true) \/ ((bs <> [] \/ os <> []) /\ forall s, os = [s] -> os_is_loop s = false)).
  { destruct os as [|s [|s' t]].
    - destruct bs; [left; auto|right; right]. split; [left; discriminate|discriminate].
    - right. destruct (os_is_loop s) eqn:E; [left; eauto|right]. split; [right; discriminate|]. intros x [= <-]. exact E.
    - right; right. split; [right; discriminate|discriminate]. }
  destruct D as [[-> ->]|[(s & -> & L)|[NE NL]]].
  - rewrite (W2 eq_refl eq_refl). destruct (whole_loops op (relation w12 w21) p1 p2); eexists; reflexivity.
  - rewrite (W1 s eq_refl L). destruct (whole_loops op Overlapping p1 p2); eexists; reflexivity.
  - destruct (H NE NL FIT) as (loops & _ & ->). eexists; reflexivity.
Qed.
End Crossing.
