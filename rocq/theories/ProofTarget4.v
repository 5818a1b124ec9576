(** The slices of a loop of lines that is cut where it meets itself (C76). *)
From Coq Require Import Reals ZArith Bool List Arith Lra Lia Psatz Permutation Sorted.
From Verif Require Import Num RNum Res ModelMath ModelSeg ModelPline ModelView ModelIntersects ModelBoolean ModelOffset.
From Verif Require Import Spec SpecPline SpecGeom SpecIntr SpecBox SpecView SpecPruneR SpecStitch SpecShape SpecChain SpecCuts.
From Verif Require Import ProofR ProofBase ProofIter ProofArc ProofView ProofSlice ProofSlice2 ProofWinding6 ProofWinding7 ProofRegion ProofRegion2 ProofRegion3 ProofRegion4 ProofRegion5 ProofRegion7 ProofOffNear ProofOffNear2 ProofOffNear3.
Import ListNotations.
Local Open Scope R_scope.

Definition as_slice (x : nat * vec2 R) : nat * slice_point R := (fst x, SP (snd x) false).
Definition of_place (x : place) : nat * vec2 R := (fst (fst x), sp_pos (snd x)).

Lemma along_trans x y z : along x y -> along y z -> along x z.
Proof. rewrite !along_plt. intros H1 H2 H3. destruct (plt_total (spot x) (spot y)) as [L|[E|L]]; [apply H2; exact (plt_trans _ _ _ H3 L)|rewrite E in H3; contradiction|contradiction]. Qed.

Lemma combine_gaps first l x : (forall a b, In (a, b) (pairs (x :: l)) -> SpecPruneR.same_place a b = false) ->
  gaps_to first (x :: l) = combine (x :: l) (l ++ [first]).
Proof.
  revert x. induction l as [|y l IH]; intros x H; [reflexivity|]. cbn [gaps_to app combine].
  rewrite (H x y) by now left. cbn [app]. f_equal. apply IH. intros a b I. apply H. rewrite pairs_cons. now right.
Qed.

Section SelfCut.
Context (raw : pline R) (eps : R) (cuts : list (nat * vec2 R)).
Hypothesis epos : 0 < eps.
Hypothesis vc : (2 <= vertex_count raw)%nat.
Hypothesis cl : is_closed raw = true.
Hypothesis clear : clear_pline eps raw.
Hypothesis lines : forall v, In v (vtx raw) -> pbulge v = 0.
Hypothesis clean : clear_cuts eps raw (map as_slice cuts).
Hypothesis nd : NoDup cuts.
Hypothesis many : (2 <= length cuts)%nat.
(** Cuts are further apart or the same. *)
Hypothesis crisp_all : forall x y, In x cuts -> In y cuts -> crisp eps (snd x) (snd y).

Lemma cut_okp v1 v2 : In (v1, v2) (spec_segs (vtx raw) (is_closed raw)) -> seg_ok v1 v2 /\ pos v1 <> pos v2.
Proof.
  intros I. destruct (clear v1 v2 I) as (Ok & Df). split; [exact Ok|]. intros E.
  assert (px v1 = px v2 /\ py v1 = py v2) as (E1 & E2) by (split; [exact (f_equal vx E)|exact (f_equal vy E)]).
  rewrite E1, E2, !Rminus_diag_eq, Rabs_R0 in Df by reflexivity. lra.
Qed.

Lemma in_cuts x : In x cuts -> crisp_vertexes eps raw (snd x) /\ exists t, placed raw (fst x, t, SP (snd x) false).
Proof.
  intros I. destruct (proj1 clean (fst x) (SP (snd x) false)) as (C & t & P & _); [apply in_map_iff; exists x; auto|]. split; [exact C|]. exists t. exact P.
Qed.

Lemma places_of l : incl l cuts -> exists order, map of_place order = l /\ Forall (placed raw) order /\ Forall (fun x : place => sp_is_start (snd x) = false) order.
Proof.
  induction l as [|x l IH]; intros H; [exists []; repeat split; constructor|].
  destruct IH as (order & E & F & G); [intros y I; apply H; now right|]. destruct (in_cuts x) as (_ & t & P); [apply H; now left|].
  exists ((fst x, t, SP (snd x) false) :: order). split; [cbn [map of_place fst snd sp_pos]; rewrite E; now destruct x|]. split; constructor; auto.
Qed.

Lemma not_before_along x y : placed raw x -> placed raw y -> not_before raw (of_place x) (of_place y) -> along x y.
Proof.
  destruct x as [[i t] sp], y as [[j u] sq]. intros (L1 & P1) (L2 & P2) [L|(E & L)]; [left; exact L|right]. cbn [of_place fst snd] in E, L. subst j. split; [reflexivity|].
  destruct P1 as (a & b & Ei & Ht & Q). destruct P2 as (a' & b' & Ei' & Hu & Q'). rewrite Ei in Ei'. injection Ei' as <- <-.
  destruct (segs_at raw i a b Ei) as (_ & _ & _ & Ea & _). specialize (L a Ea).
  destruct (Rle_lt_dec t u) as [|G]; [assumption|exfalso]. destruct (cut_okp a b (nth_error_In _ _ Ei)) as (Ok & N).
  pose proof (proj2 (chord_mono a b u t (sp_pos sq) (sp_pos sp) Ok N Hu Ht Q' Q) G) as Df. apply L. cbn [ntotal_cmp RNum]. unfold rtotal_cmp.
  assert (S : forall x y : vec2 R, dist_squared x y = dist_squared y x) by (intros x y; unfold dist_squared, v2dot, v2sub; rnum; cbn [vx vy]; ring).
  rewrite (S (sp_pos sp)), (S (sp_pos sq)). destruct (Rlt_dec _ _); [lra|]. destruct (Rlt_dec _ _); [reflexivity|lra].
Qed.

Lemma sorted_along order : Forall (placed raw) order -> Sorted (not_before raw) (map of_place order) -> StronglySorted along order.
Proof.
  intros F S. apply Sorted_StronglySorted; [intros x y z; apply along_trans|]. induction order as [|x l IH]; [constructor|].
  inversion F as [|? ? F1 F2]; subst. cbn [map] in S. inversion S as [|? ? S1 S2]; subst. constructor; [now apply IH|].
  destruct l as [|y l]; constructor. inversion F2 as [|? ? F3 F4]; subst. cbn [map] in S2. inversion S2; subst. now apply not_before_along.
Qed.

Lemma same_spot x y : placed raw x -> placed raw y -> SpecPruneR.same_place x y = true -> of_place x = of_place y.
Proof.
  destruct x as [[i t] sp], y as [[j u] sq]. intros (L1 & a & b & Ei & _ & Q) (L2 & a' & b' & Ej & _ & Q') E. apply same_place_true in E. cbn [spot fst] in E. injection E as <- <-.
  rewrite Ei in Ej. injection Ej as <- <-. destruct (cut_okp a b (nth_error_In _ _ Ei)) as (Ok & _). unfold of_place. cbn [fst snd]. f_equal. apply (seg_at_unique a b t); assumption.
Qed.

Lemma gaps_combine order : NoDup (map of_place order) -> Forall (placed raw) order -> gaps order = combine order (tl order ++ firstn 1 order).
Proof.
  intros N F. destruct order as [|x l]; [reflexivity|]. cbn [gaps tl firstn]. apply combine_gaps. intros a b I.
  destruct (SpecPruneR.same_place a b) eqn:E; [exfalso|reflexivity].
  assert (Iab : In a (x :: l) /\ In b (x :: l)) by now apply pairs_in. rewrite Forall_forall in F.
  pose proof (same_spot a b (F a (proj1 Iab)) (F b (proj2 Iab)) E) as S. clear F E Iab. revert x N I S. induction l as [|y l IH]; intros x N I S; [destruct I|].
  rewrite pairs_cons in I. cbn [map] in N. inversion N as [|? ? N1 N2]; subst. destruct I as [I|I].
  - injection I as <- <-. apply N1. left. now symmetry.
  - exact (IH y N2 I S).
Qed.

Lemma line_part v a b : In v (vtx raw) -> part_ok v a b.
Proof. intros I. left. now apply lines. Qed.

(** A stretch between two cuts. *)
Lemma stretch_view x y vo : placed raw x -> placed raw y -> In (of_place x) cuts -> In (of_place y) cuts -> of_place x <> of_place y ->
  view_from_slice_points raw (snd (of_place x)) (fst (of_place x)) (snd (of_place y)) (fst (of_place y)) eps = Ret vo ->
  exists d m, vo = Some d /\ between raw (x, y) (BS d true false, m).
Proof.
  destruct x as [[i t] sp], y as [[j u] sq]. unfold of_place. cbn [fst snd]. intros (L1 & P1) (L2 & P2) I1 I2 N V.
  destruct (in_cuts _ I1) as (C1 & _). destruct (in_cuts _ I2) as (C2 & _). cbn [snd] in C1, C2.
  destruct (slice_main raw eps i t (sp_pos sp) j u (sp_pos sq) epos clear P1 (or_introl P2) C1 C2) as (_ & SM).
  - exact (crisp_all _ _ I1 I2).
  - rewrite cl. discriminate.
  - intros _ _ a Ea. left. apply lines. eapply nth_error_In. exact Ea.
  - destruct SM as (d & Ed & VP).
    { intros [(-> & -> & _)|(X & _)]; [|lra]. apply N. f_equal. destruct P1 as (a & b & Ei & _ & Q), P2 as (a' & b' & Ej & _ & Q').
      rewrite Ei in Ej. injection Ej as <- <-. destruct (cut_okp a b (nth_error_In _ _ Ei)) as (Ok & _). apply (seg_at_unique a b u); assumption. }
    rewrite Ed in V. injection V as <-. destruct P1 as (a & b & Ei & Ht & Q). destruct (segs_at raw i a b Ei) as (_ & _ & _ & Ea & Eb).
    assert (EH : exists e, hd_error (slice_pieces (vertex_count raw) i t j u) = Some (i, t, e)).
    { rewrite slice_pieces_eq by lra. unfold rest_pieces. destruct (Nat.eqb i j); [destruct (Rlt_dec t u)|]; eexists; reflexivity. }
    destruct EH as (e & EH). exists d, (line_pt (pos a) (pos b) ((t + e) / 2)). split; [reflexivity|].
    unfold between. cbn [fst snd bs_view]. split; [exact VP|]. exists a, b, e. split; [exact Ea|].
    split; [exact Eb|]. split; [exact EH|]. apply seg_at_line; [apply lines; eapply nth_error_In; exact Ea|reflexivity].
Qed.

Lemma self_slices order0 vos : Permutation order0 cuts -> Sorted (not_before raw) order0 ->
  Forall2 (fun xy vo => view_from_slice_points raw (snd (fst xy)) (fst (fst xy)) (snd (snd xy)) (fst (snd xy)) eps = Ret vo) (stretches true raw order0) vos ->
  exists order cs, map of_place order = order0 /\ order <> [] /\ Forall (placed raw) order /\ StronglySorted along order
    /\ Forall2 (between raw) (gaps order) cs /\ vos = map (fun c : boolean_slice R * vec2 R => Some (bs_view (fst c))) cs
    /\ (forall g, In g (gaps order) -> of_place (fst g) <> of_place (snd g)).
Proof.
  intros PM SO F2. destruct (places_of order0) as (order & <- & PL & _); [intros x I; eapply Permutation_in; eassumption|].
  assert (ND : NoDup (map of_place order)) by (eapply Permutation_NoDup; [apply Permutation_sym; exact PM|exact nd]).
  pose proof (gaps_combine order ND PL) as EG.
  assert (LEN : (2 <= length order)%nat) by (rewrite <- (map_length of_place), (Permutation_length PM); exact many).
  assert (DI : forall g, In g (gaps order) -> of_place (fst g) <> of_place (snd g)).
  { rewrite EG. intros (x, y) I E. cbn [fst snd] in E. destruct order as [|z l]; [destruct I|]. cbn [tl firstn] in I. destruct l as [|z' l]; [cbn in LEN; lia|].
    cbn [map] in ND. clear - ND I E. cbn [app combine] in I. destruct I as [I|I].
    { injection I as <- <-. inversion ND as [|? ? N1 N2]; subst. apply N1. left. now symmetry. }
    assert (NZ : ~ In (of_place z) (map of_place (z' :: l))) by (cbn [map]; now inversion ND).
    assert (N2 : NoDup (map of_place (z' :: l))) by (cbn [map]; now inversion ND). clear ND. revert z' NZ N2 I. induction l as [|w l IH]; intros z' NZ N2 I.
    - destruct I as [I|[]]. injection I as <- <-. apply NZ. now left.
    - destruct I as [I|I].
      + injection I as <- <-. cbn [map] in N2. inversion N2 as [|? ? N3 N4]; subst. apply N3. left. now symmetry.
      + apply (IH w); [intros J; apply NZ; now right|cbn [map] in N2; now inversion N2|exact I]. }
  assert (ES : stretches true raw (map of_place order) = map (fun g : place * place => (of_place (fst g), of_place (snd g))) (gaps order)).
  { rewrite EG. unfold stretches. assert (C : forall l m : list place, combine (map of_place l) (map of_place m) = map (fun g : place * place => (of_place (fst g), of_place (snd g))) (combine l m)).
    { induction l as [|x l IH]; intros [|y m]; cbn; [reflexivity..|]. now rewrite IH. }
    rewrite <- C, map_app. destruct order as [|x l]; reflexivity. }
  rewrite ES in F2.
  assert (CS : exists cs, Forall2 (between raw) (gaps order) cs /\ vos = map (fun c : boolean_slice R * vec2 R => Some (bs_view (fst c))) cs).
  { assert (GI : forall g, In g (gaps order) -> placed raw (fst g) /\ placed raw (snd g) /\ In (of_place (fst g)) cuts /\ In (of_place (snd g)) cuts).
    { intros (x, y) I. apply gaps_In in I as (I1 & I2). rewrite Forall_forall in PL. cbn [fst snd]. repeat split; auto; eapply Permutation_in; try exact PM; now apply in_map. }
    clear ES EG. revert vos F2 DI GI. generalize (gaps order) as G. induction G as [|g G IH]; intros vos F2 DI GI.
    - inversion F2; subst. exists []. split; [constructor|reflexivity].
    - cbn [map] in F2. inversion F2 as [|? vo ? vos' V F2']; subst. destruct (IH vos' F2') as (cs & B & E); [intros; apply DI; now right|intros; apply GI; now right|].
      destruct (GI g (or_introl eq_refl)) as (P1 & P2 & J1 & J2). destruct g as [x y]. cbn [fst snd] in *.
      destruct (stretch_view x y vo P1 P2 J1 J2 (DI (x, y) (or_introl eq_refl)) V) as (d & m & -> & Bt).
      exists ((BS d true false, m) :: cs). split; [constructor; assumption|]. cbn [map fst bs_view]. now rewrite E. }
  destruct CS as (cs & B & E). exists order, cs. split; [reflexivity|]. split; [intros ->; cbn in LEN; lia|]. split; [exact PL|]. split; [now apply sorted_along|].
  split; [exact B|]. split; [exact E|exact DI].
Qed.
End SelfCut.
