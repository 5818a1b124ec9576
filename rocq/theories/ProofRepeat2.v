(** Statement-level lemmas for C01, C39 and C41, and computed counterexamples. *)
From Coq Require Import List Arith Bool ZArith Lia Floats.
From Verif Require Import Num Res FNum ModelMath ModelSeg ModelPline ModelRedundant Spec SpecPline
  ProofBase ProofIter ProofInvert ProofRepeat.
Import ListNotations.
Set Warnings "-inexact-float".

Section G.
Context {T : Type} {N : Num T}.

Lemma same_place_pos (eps : T) a b a' b' :
  pos a = pos a' -> pos b = pos b' -> same_place eps a b = same_place eps a' b'.
Proof.
  intros H1 H2. unfold same_place. unfold pos in *. injection H1 as -> ->. injection H2 as -> ->. reflexivity.
Qed.

Lemma remove_repeat_pos_small (p : pline T) eps : vertex_count p < 2 -> remove_repeat_pos p eps = Ret None.
Proof. intros H. unfold remove_repeat_pos. apply Nat.ltb_lt in H. now rewrite H. Qed.

Lemma remove_repeat_none_iff (p : pline T) eps first lst :
  2 <= vertex_count p -> hd_error (vtx p) = Some first ->
  nth_error (vtx p) (vertex_count p - 1) = Some lst ->
  remove_repeat_pos p eps = Ret None
  <-> no_repeat (same_place eps) (vtx p) /\ (is_closed p = true -> same_place eps first lst = false).
Proof.
  intros H2 Hf Hl.
  destruct (remove_repeat_pos_spec eps p H2) as (rs & f & l & R & Hf' & Hl' & A & B & C).
  assert (f = first) by congruence. assert (l = lst) by congruence. subst f l.
  change (fun a b : vertex T => v2fuzzy_eq_eps (pos b) (pos a) eps) with (same_place eps) in *.
  cbv beta in *. change (v2fuzzy_eq_eps (pos lst) (pos first) eps) with (same_place eps first lst) in *.
  assert (HS : all_single rs <-> no_repeat (same_place eps) (vtx p)).
  { split.
    - intros S. rewrite <- (proj1 R). rewrite <- singles_reps by (now apply singles_all_single).
      apply (runs_no_repeat (same_place eps) (same_place_pos eps) (vtx p)). exact R.
    - intros NR. set (rs' := map (fun v => [v]) (vtx p)).
      assert (R' : is_runs (same_place eps) (vtx p) rs').
      { unfold rs'. split; [induction (vtx p) as [|a t IH]; [reflexivity|]; cbn; f_equal;
          clear -t; induction t; cbn; congruence|].
        split.
        - intros r Hr. apply in_map_iff in Hr as (v & <- & _). exists v, []. split; [reflexivity|intros x []].
        - intros i h1 t1 h2 t2 H1 H3. rewrite nth_error_map in H1, H3.
          destruct (nth_error (vtx p) i) eqn:E1; [|discriminate].
          destruct (nth_error (vtx p) (S i)) eqn:E3; [|discriminate].
          cbn in H1, H3. injection H1 as <- <-. injection H3 as <- <-. eapply NR; eauto. }
      rewrite (runs_unique _ _ _ _ R R'). intros r Hr. unfold rs' in Hr.
      apply in_map_iff in Hr as (v & <- & _). reflexivity. }
  split.
  - intros HN. destruct (is_closed p && same_place eps first lst) eqn:D.
    + rewrite A in HN by reflexivity. discriminate.
    + split.
      * apply HS. destruct (singles rs) eqn:S; [now apply singles_all_single|].
        exfalso. rewrite C in HN; [discriminate|reflexivity|].
        intros X. apply singles_all_single in X. congruence.
      * intros HC. rewrite HC in D. exact D.
  - intros [NR HC]. apply B; [|now apply HS].
    destruct (is_closed p); [cbn; auto|reflexivity].
Qed.

Lemma remove_repeat_result (p q : pline T) eps :
  remove_repeat_pos p eps = Ret (Some q) ->
  exists rs first lst,
    is_runs (same_place eps) (vtx p) rs
    /\ hd_error (vtx p) = Some first /\ nth_error (vtx p) (vertex_count p - 1) = Some lst
    /\ is_closed q = is_closed p
    /\ vtx q = (if is_closed p && same_place eps first lst then removelast (flat_map run_rep rs)
                else flat_map run_rep rs)
    /\ no_repeat (same_place eps) (vtx q).
Proof.
  intros H. destruct (Nat.ltb_spec (vertex_count p) 2) as [L|L].
  { rewrite remove_repeat_pos_small in H by exact L. discriminate. }
  destruct (remove_repeat_pos_spec eps p L) as (rs & f & l & R & Hf & Hl & A & B & C).
  change (fun a b : vertex T => v2fuzzy_eq_eps (pos b) (pos a) eps) with (same_place eps) in *.
  cbv beta in *. change (v2fuzzy_eq_eps (pos l) (pos f) eps) with (same_place eps f l) in *.
  exists rs, f, l. repeat split; auto; try apply R.
  - destruct (is_closed p && same_place eps f l) eqn:D.
    + rewrite A in H by reflexivity. injection H as <-. cbn. apply andb_true_iff in D as [-> _]. reflexivity.
    + destruct (singles rs) eqn:S.
      * rewrite B in H; [discriminate|reflexivity|now apply singles_all_single].
      * rewrite C in H; [now injection H as <-|reflexivity|]. intros X. apply singles_all_single in X. congruence.
  - destruct (is_closed p && same_place eps f l) eqn:D.
    + rewrite A in H by reflexivity. now injection H as <-.
    + destruct (singles rs) eqn:S.
      * rewrite B in H; [discriminate|reflexivity|now apply singles_all_single].
      * rewrite C in H; [now injection H as <-|reflexivity|]. intros X. apply singles_all_single in X. congruence.
  - destruct (is_closed p && same_place eps f l) eqn:D.
    + rewrite A in H by reflexivity. injection H as <-. cbn [vtx]. apply no_repeat_removelast.
      eapply runs_no_repeat; [apply same_place_pos|exact R].
    + destruct (singles rs) eqn:S.
      * rewrite B in H; [discriminate|reflexivity|now apply singles_all_single].
      * rewrite C in H; [injection H as <-|reflexivity|].
        -- cbn [vtx]. eapply runs_no_repeat; [apply same_place_pos|exact R].
        -- intros X. apply singles_all_single in X. congruence.
Qed.

Lemma remove_repeat_never_panics (p : pline T) eps : exists r, remove_repeat_pos p eps = Ret r.
Proof.
  destruct (Nat.ltb_spec (vertex_count p) 2) as [L|L].
  { exists None. now apply remove_repeat_pos_small. }
  destruct (remove_repeat_pos_spec eps p L) as (rs & f & l & R & Hf & Hl & A & B & C). cbv beta in *.
  destruct (is_closed p && v2fuzzy_eq_eps (pos l) (pos f) eps) eqn:D.
  - eexists. now apply A.
  - destruct (singles rs) eqn:S.
    + eexists. apply B; [reflexivity|]. now apply singles_all_single.
    + eexists. apply C; [reflexivity|]. intros X. apply singles_all_single in X. congruence.
Qed.

Lemma remove_repeat_no_wrap (p q : pline T) eps a b :
  (forall a, same_place eps a a = true) ->
  (forall a b, same_place eps a b = same_place eps b a) ->
  (forall a b c, same_place eps a b = true -> same_place eps b c = true -> same_place eps a c = true) ->
  is_closed p = true -> remove_repeat_pos p eps = Ret (Some q) -> 2 <= vertex_count q ->
  nth_error (vtx q) 0 = Some a -> nth_error (vtx q) (vertex_count q - 1) = Some b ->
  same_place eps a b = false.
Proof.
  intros Hr Hs Ht HC H L Ha Hb.
  destruct (remove_repeat_result p q eps H) as (rs & f & l & R & Hf & Hl & _ & E & _).
  rewrite HC in E. cbn [andb] in E. unfold vertex_count in *. rewrite E in Ha, Hb, L.
  exact (runs_no_wrap (same_place eps) (same_place_pos eps) Hr Hs Ht (vtx p) rs f l a b R Hf Hl (or_introl L) Ha Hb).
Qed.

(** ** Accessors *)
Lemma get_none_iff (p : pline T) i : get p i = None <-> vertex_count p <= i.
Proof. apply nth_error_None. Qed.

Lemma accessors_total (p : pline T) eps pt :
  (exists x, closest_point p pt eps = Ret x) /\ (exists x, extents p = Ret x)
  /\ (exists x, area p = Ret x) /\ (exists x, winding_number p pt = Ret x)
  /\ (exists x, path_length p = Ret x) /\ (exists x, orientation p = Ret x)
  /\ (exists x, create_approx_aabb_index p = Ret x) /\ (exists x, create_aabb_index p = Ret x)
  /\ (forall e, exists x, arcs_to_approx_lines p e = Ret x)
  /\ (forall t, 0 < vertex_count p \/ nleb t nzero = false -> exists x, find_point_at_path_length p t = Ret x).
Proof.
  assert (Hat : forall i, i < vertex_count p -> exists v, at_ p i = Ret v).
  { intros i Hi. destruct (index_lt (vtx p) i Hi) as (a & _ & H). eauto. }
  assert (Harea : exists x, area p = Ret x).
  { unfold area. destruct (is_closed p); cbn [negb]; [|eauto]. rewrite iter_segments_spec. cbn [rbind]. eauto. }
  repeat split.
  - unfold closest_point, is_empty. destruct (Nat.eqb_spec (vertex_count p) 0) as [E|E]; [eauto|].
    destruct (Hat 0) as (v0 & ->); [lia|]. cbn [rbind].
    destruct (Nat.eqb_spec (vertex_count p) 1) as [E1|E1]; [eauto|].
    rewrite iter_segment_indexes_spec. cbn [rbind].
    assert (HF : forall l st, (forall ij, In ij l -> fst ij < vertex_count p /\ snd ij < vertex_count p) ->
                 exists st', rfold (closest_point_step p pt eps) l st = Ret st').
    { induction l as [|[i j] l IH]; intros st Hl; [cbn; eauto|]. cbn [rfold].
      destruct (Hl (i, j)) as [Hi Hj]; [now left|]. cbn [fst snd] in *.
      unfold closest_point_step at 1. destruct (Hat i Hi) as (a & ->). destruct (Hat j Hj) as (b & ->).
      cbn [rbind]. destruct st as [[? ?] ?].
      destruct (nltb _ _); cbn [rbind]; apply IH; intros ij Hin; apply Hl; now right. }
    destruct (HF (spec_seg_indexes (vertex_count p) (is_closed p)) (0, pos v0, nmax_value)) as (st' & ->).
    { intros [i j] Hin. unfold spec_seg_indexes in Hin. apply in_map_iff in Hin as (k & Hk & Hin).
      apply in_seq in Hin. injection Hk as <- <-. cbn [fst snd].
      destruct (Nat.ltb_spec (vertex_count p) 2); [lia|].
      split; [destruct (is_closed p); lia|apply Nat.mod_upper_bound; lia]. }
    cbn [rbind]. destruct st' as [[? ?] ?]. eauto.
  - unfold extents. destruct (Nat.eqb_spec (segment_count p) 0) as [E|E]; [eauto|].
    destruct (Hat 0) as (v0 & ->); [unfold segment_count in E; destruct (Nat.ltb_spec (vertex_count p) 2); lia|].
    cbn [rbind]. rewrite iter_segments_spec. cbn [rbind]. eauto.
  - exact Harea.
  - unfold winding_number. destruct (negb (is_closed p) || (vertex_count p <? 2)); [eauto|].
    rewrite iter_segments_spec. cbn [rbind]. eauto.
  - unfold path_length. rewrite iter_segments_spec. cbn [rbind]. eauto.
  - unfold orientation. destruct Harea as (x & ->). destruct (negb (is_closed p)); [eauto|].
    cbn [rbind]. destruct (nltb x nzero); eauto.
  - unfold create_approx_aabb_index, create_index_with. destruct (Nat.ltb_spec (vertex_count p) 2) as [L|L]; [eauto|].
    rewrite iter_segments_spec. cbn [rbind]. rewrite <- segment_count_spec. unfold segment_count.
    destruct (Nat.ltb_spec (vertex_count p) 2); [lia|]. rewrite Nat.eqb_refl. eauto.
  - unfold create_aabb_index, create_index_with. destruct (Nat.ltb_spec (vertex_count p) 2) as [L|L]; [eauto|].
    rewrite iter_segments_spec. cbn [rbind]. rewrite <- segment_count_spec. unfold segment_count.
    destruct (Nat.ltb_spec (vertex_count p) 2); [lia|]. rewrite Nat.eqb_refl. eauto.
  - intros e. unfold arcs_to_approx_lines, is_empty. destruct (Nat.eqb_spec (vertex_count p) 0) as [E|E]; [eauto|].
    rewrite iter_segments_spec. cbn [rbind]. destruct (arcs_to_approx_lines_loop _ _ _); [|eauto].
    destruct (negb (is_closed p)); [|eauto]. unfold last_. rewrite usub_ok by lia. cbn [rbind].
    unfold get. destruct (index_lt (vtx p) (vertex_count p - 1)) as (v & -> & _); [unfold vertex_count in *; lia|].
    cbn [unwrap rbind]. eauto.
  - intros t Ht. unfold find_point_at_path_length. destruct (nleb t nzero).
    + destruct Ht as [Ht|Ht]; [|discriminate]. destruct (Hat 0 Ht) as (v & ->). cbn [rbind]. eauto.
    + rewrite iter_segments_spec. cbn [rbind]. eauto.
Qed.

End G.

(** ** Computed counterexamples over binary64 *)
Local Open Scope float_scope.
Definition fv (x y : float) : vertex float := Vtx x y 0.

Definition chain_wrap : pline float := PL [fv 0 0; fv 5 0; fv 0.75 0; fv (-0.75) 0] true.
Definition chain_lost : pline float := PL [fv 0 0; fv 5 5; fv 1.5 0; fv 0.75 0] true.

Lemma remove_repeat_wrap_counterexample :
  exists q a b, remove_repeat_pos chain_wrap 1 = Ret (Some q)
    /\ nth_error (vtx q) 0%nat = Some a /\ nth_error (vtx q) (vertex_count q - 1)%nat = Some b
    /\ (2 <= vertex_count q)%nat /\ same_place 1 a b = true.
Proof.
  exists (PL [fv 0 0; fv 5 0; fv 0.75 0] true), (fv 0 0), (fv 0.75 0).
  repeat split; try reflexivity. vm_compute. lia.
Qed.

Lemma remove_repeat_lost_counterexample :
  exists q v, remove_repeat_pos chain_lost 1 = Ret (Some q) /\ In v (vtx chain_lost)
    /\ forall w, In w (vtx q) -> same_place 1 v w = false.
Proof.
  exists (PL [fv 0 0; fv 5 5] true), (fv 1.5 0). split; [reflexivity|].
  split; [right; right; now left|]. intros w [<-|[<-|[]]]; reflexivity.
Qed.

Lemma remove_repeat_empty_counterexample :
  exists p : pline float, vertex_count p = 2%nat /\ remove_repeat_pos p 1 = Ret (Some (PL [] true)).
Proof. exists (PL [fv 0 0; fv 0 0] true). split; reflexivity. Qed.

Lemma create_remove_repeat_wrap_counterexample :
  exists q a b, create_from_remove_repeat chain_wrap 1 = Ret q
    /\ nth_error (vtx q) 0%nat = Some a /\ nth_error (vtx q) (vertex_count q - 1)%nat = Some b
    /\ (2 <= vertex_count q)%nat /\ same_place 1 a b = true.
Proof.
  exists (PL [fv 0 0; fv 5 0; fv 0.75 0] true), (fv 0 0), (fv 0.75 0).
  repeat split; try reflexivity. vm_compute. lia.
Qed.

Lemma redundant_drops_end_counterexample :
  exists (p q : pline float) (v : vertex float),
    remove_redundant p 0.0001%float = Ret (Some q)
    /\ is_closed p = false /\ nth_error (vtx p) (vertex_count p - 1)%nat = Some v
    /\ forall w, In w (vtx q) -> same_place 0.0001%float v w = false.
Proof.
  exists (PL [fv 0 0; fv 0 0; fv 1 0] false), (PL [fv 0 0] false), (fv 1 0).
  split; [vm_compute; reflexivity|]. split; [reflexivity|]. split; [reflexivity|].
  intros w [<-|[]]. reflexivity.
Qed.

Lemma redundant_panics_counterexample :
  exists p : pline float, vertex_count p = 3%nat /\ is_closed p = true
    /\ remove_redundant p 0.00001%float = Panic IndexOutOfBounds.
Proof.
  exists (PL [fv 0 0; fv 0.001 0; fv 0.001 0.001] true). split; [reflexivity|]. split; [reflexivity|].
  vm_compute. reflexivity.
Qed.
