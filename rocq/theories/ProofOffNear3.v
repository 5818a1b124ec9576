(** Offset results stay near the raw offset (C54): all slices, and the results. *)
From Coq Require Import Reals ZArith Bool List Arith Lra Lia Permutation Sorted.
From Verif Require Import Num RNum Res ModelMath ModelSeg ModelPline ModelView ModelIndex ModelIntersects ModelOffset.
From Verif Require Import Spec SpecPline SpecGeom SpecIntr SpecBox SpecView SpecStitch SpecIndex SpecIntersects SpecShape SpecChain SpecCuts SpecRawNear SpecOffNear.
From Verif Require Import ProofR ProofBase ProofIter ProofIntr ProofArc ProofSegIntr5 ProofView ProofSlice ProofSlice2 ProofWinding7 ProofRegion4 ProofRegion7 ProofChain2 ProofCuts ProofCuts3 ProofRawNear2 ProofRawNear3 ProofOffNear ProofOffNear2.
Import ListNotations.
Local Open Scope R_scope.

Lemma comparable_R : @comparable R _.
Proof. intros x y. cbn [ntotal_cmp RNum]. unfold rtotal_cmp. repeat destruct (Rlt_dec _ _); intros H X; try discriminate; lra. Qed.

Lemma kept_In test vos ds d : kept test vos ds -> In d ds -> In (Some d) (vos : list (option (view_data R))).
Proof.
  induction 1 as [|l ds K IH|d' l ds Y K IH|d' l ds Nn K IH]; intros I; [destruct I|right; auto| |right; auto].
  destruct I as [<-|I]; [left; reflexivity|right; auto].
Qed.

Lemma sorted_pairs {A} (Q : A -> A -> Prop) l x y : Sorted Q l -> In (x, y) (pairs l) -> Q x y.
Proof.
  induction 1 as [|a l S IH H]; intros I; [destruct I|]. destruct l as [|b l]; [destruct I|]. rewrite pairs_cons in I. destruct I as [I|I]; [|auto].
  injection I as <- <-. now inversion H.
Qed.

Lemma pairs_front {A} (s : A) m x y : In (x, y) (pairs (s :: m)) -> (x = s /\ hd_error m = Some y) \/ In (x, y) (pairs m).
Proof. destruct m as [|b m]; [intros []|]. rewrite pairs_cons. intros [E|I]; [injection E as <- <-; left; auto|right; exact I]. Qed.

Lemma pairs_back {A} (z : A) m x y : In (x, y) (pairs (m ++ [z])) -> In (x, y) (pairs m) \/ (In x m /\ y = z).
Proof.
  destruct m as [|k m] using rev_ind; [intros []|]. rewrite <- app_assoc. cbn [app]. rewrite pairs_app. intros I. apply in_app_or in I as [I|[E|[]]]; [left; exact I|].
  injection E as <- <-. right. split; [apply in_or_app; right; left; reflexivity|reflexivity].
Qed.

Lemma pairs_in {A} (l : list A) x y : In (x, y) (pairs l) -> In x l /\ In y l.
Proof.
  intros I. unfold pairs in I. split; [eapply in_combine_l; exact I|]. apply in_combine_r in I. destruct l; [destruct I|right; exact I].
Qed.

Section Cuts.
Context (raw : pline R) (eps g : R) (cuts : list (nat * vec2 R)).
Hypothesis eps0 : 0 < eps.
Hypothesis epsg : eps <= g.
Hypothesis clear : clear_pline g raw.
Hypothesis clean : clean_cuts g raw cuts.
Hypothesis two : (2 <= vertex_count raw)%nat.

Lemma between_cuts x y d : In x cuts -> In y cuts -> (is_closed raw = false -> not_before raw x y) ->
  view_from_slice_points raw (snd x) (fst x) (snd y) (fst y) eps = Ret (Some d) -> good_slice g raw d.
Proof.
  destruct x as [i q], y as [j q']. cbn [fst snd]. intros Ix Iy HO. destruct clean as (C1 & C2 & _).
  destruct (C1 _ _ Ix) as (V1 & t & P1 & R1). destruct (C1 _ _ Iy) as (V2 & u & P2 & _). pose proof (C2 _ _ Ix Iy) as CC. cbn [snd] in CC.
  apply (slice_good raw eps g eps0 epsg clear i t q j u q'); auto; [left; exact P2| |].
  - intros C. destruct (HO C) as [L|(E & L)]; [left; exact L|right]. cbn [fst snd] in E, L. subst j. split; [reflexivity|].
    destruct P1 as (a & b & Ei & Ht & Q). destruct P2 as (a' & b' & Ei' & Hu & Q'). rewrite Ei in Ei'. injection Ei' as <- <-.
    destruct (segs_at raw i a b Ei) as (_ & _ & _ & Ea & _). specialize (L a Ea).
    destruct (Rle_lt_dec t u) as [|G]; [assumption|exfalso]. destruct (clear_neq raw eps g eps0 epsg clear a b (nth_error_In _ _ Ei)) as (Ok & N & _).
    pose proof (proj2 (chord_mono a b u t q' q Ok N Hu Ht Q' Q) G) as D. apply L. cbn [ntotal_cmp RNum]. unfold rtotal_cmp.
    assert (S : forall x y : vec2 R, dist_squared x y = dist_squared y x) by (intros x y; unfold dist_squared, v2dot, v2sub; rnum; cbn [vx vy]; ring).
    rewrite (S q), (S q'). destruct (Rlt_dec _ _); [lra|]. destruct (Rlt_dec _ _); [reflexivity|lra].
  - intros <- L a Ea. apply R1; [|exact Ea]. destruct P2 as (a' & b' & _ & Hu & _). lra.
Qed.

Lemma from_first v y d : is_closed raw = false -> hd_error (vtx raw) = Some v -> In y cuts ->
  view_from_slice_points raw (pos v) 0 (snd y) (fst y) eps = Ret (Some d) -> good_slice g raw d.
Proof.
  destruct y as [j q']. cbn [fst snd]. intros C E Iy. destruct clean as (C1 & _ & C3). destruct (C1 _ _ Iy) as (V2 & u & P2 & _).
  destruct (segs_at_intro raw 0 two ltac:(lia) ltac:(intros; lia)) as (a & b & E0). destruct (segs_at raw 0 a b E0) as (_ & _ & _ & Ea & _).
  assert (v = a) by (destruct (vtx raw); [discriminate|cbn in *; congruence]). subst v.
  destruct (clear_neq raw eps g eps0 epsg clear a b (nth_error_In _ _ E0)) as (Ok & N & _).
  apply (slice_good raw eps g eps0 epsg clear 0 0 (pos a) j u q'); auto.
  - exists a, b. split; [exact E0|]. split; [lra|]. now apply seg_at_0.
  - left. exact P2.
  - apply V2. eapply nth_error_In. exact Ea.
  - intros _. destruct P2 as (_ & _ & _ & Hu & _). destruct j; [right|left]; lra || lia || (split; [reflexivity|lra]).
  - intros _ _ a' Ea'. assert (a' = a) by congruence. subst a'. destruct Ok as ([Z|(Z & _)] & _); [left; exact Z|right].
    replace ((1 - 0) * atan (pbulge a)) with (atan (pbulge a)) by ring. now rewrite tan_atan.
Qed.

Lemma to_last w x d : is_closed raw = false -> hd_error (rev (vtx raw)) = Some w -> In x cuts ->
  view_from_slice_points raw (snd x) (fst x) (pos w) (vertex_count raw - 1) eps = Ret (Some d) -> good_slice g raw d.
Proof.
  destruct x as [i q]. cbn [fst snd]. intros C E Ix. destruct clean as (C1 & _ & C3). destruct (C1 _ _ Ix) as (V1 & t & P1 & R1).
  assert (EW : nth_error (vtx raw) (vertex_count raw - 1) = Some w /\ In w (vtx raw)).
  { unfold vertex_count in *. destruct (vtx raw) as [|z l] using rev_ind; [discriminate|]. rewrite rev_app_distr in E. cbn in E. injection E as ->.
    rewrite app_length. cbn [length]. rewrite nth_error_app2 by lia. replace (length l + 1 - 1 - length l)%nat with 0%nat by lia. split; [reflexivity|]. apply in_or_app. right. left. reflexivity. }
  destruct EW as (EW & IW). assert (Hi : (S i < vertex_count raw)%nat).
  { destruct P1 as (a & b & Ei & _). destruct (segs_at raw i a b Ei) as (_ & _ & H & _). now apply H. }
  apply (slice_good raw eps g eps0 epsg clear i t q (vertex_count raw - 1) 0 (pos w)); auto.
  - right. split; [exact C|]. split; [reflexivity|]. split; [lia|]. exists w. auto.
  - apply crisp_sym. now apply V1.
  - intros _. left. lia.
  - intros X. lia.
Qed.

Lemma cut_good p offset o round slices d : eps = oo_pos_equal_eps o -> round = is_closed raw -> cut_slices p offset o round raw cuts slices -> In d slices -> good_slice g raw d.
Proof.
  intros EE -> (H0 & H1) I. assert (EC : cuts = [] \/ cuts <> []) by (destruct cuts; [left; reflexivity|right; discriminate]). destruct EC as [EC|EC].
  - destruct (H0 EC) as (d' & b & E & -> & _). destruct b; [|destruct I]. destruct I as [<-|[]]. now apply (entire_good raw eps g eps0 epsg clear).
  - destruct (H1 EC) as (order & vos & PM & S1 & S2 & F & K). rewrite <- EE in F. specialize (S2 comparable_R).
    assert (ON : forall x, In x order -> In x cuts) by (intros x; now apply Permutation_in).
    apply (kept_In _ _ _ _ K) in I. apply In_nth_error in I as (m & Em). destruct (Forall2_nth_error_r _ _ _ _ _ F Em) as ((x, y) & Exy & V). cbn [fst snd] in V.
    apply nth_error_In in Exy. unfold stretches in Exy. destruct (is_closed raw) eqn:CL.
    + apply (between_cuts x y d); auto.
      * apply ON. eapply in_combine_l. exact Exy.
      * apply ON. apply in_combine_r in Exy. apply in_app_or in Exy as [J|J]; [destruct order; [destruct J|right; exact J]|].
        destruct order; [destruct J|]. destruct J as [<-|[]]. left. reflexivity.
      * rewrite CL. discriminate.
    + cbv zeta in Exy. fold (pairs (match hd_error (vtx raw) with Some v => [(0%nat, pos v)] | None => [] end ++ order
        ++ match hd_error (rev (vtx raw)) with Some v => [((vertex_count raw - 1)%nat, pos v)] | None => [] end)) in Exy.
      destruct (vtx raw) as [|v vs] eqn:EV; [unfold vertex_count in two; rewrite EV in two; cbn in two; lia|]. cbn [hd_error] in Exy.
      assert (EL : exists w, hd_error (rev (v :: vs)) = Some w).
      { destruct (rev (v :: vs)) eqn:X; [|eexists; reflexivity]. apply (f_equal (@length _)) in X. rewrite rev_length in X. discriminate. }
      destruct EL as (w & EL). rewrite EL in Exy. cbn [app] in Exy.
      apply pairs_front in Exy as [(-> & HY)|Exy].
      * destruct order as [|o1 ord]; [apply Permutation_nil in PM; contradiction|]. cbn in HY. injection HY as <-. cbn [fst snd] in V.
        apply (from_first v o1 d); auto; [rewrite EV; reflexivity|]. apply ON. left. reflexivity.
      * apply pairs_back in Exy as [Exy|(Ix & ->)].
        -- destruct (pairs_in _ _ _ Exy) as (Jx & Jy). apply (between_cuts x y d); auto. intros _. eapply sorted_pairs; [exact S2|exact Exy].
        -- cbn [fst snd] in V. apply (to_last w x d); auto. rewrite EV. exact EL.
Qed.
End Cuts.
