(** Offset results stay near the raw offset (C54): slices between clean cuts are made of pieces. *)
From Coq Require Import Reals ZArith Bool List Arith Lra Lia Permutation Sorted.
From Verif Require Import Num RNum Res ModelMath ModelSeg ModelPline ModelView ModelIntersects ModelOffset.
From Verif Require Import Spec SpecPline SpecGeom SpecBox SpecView SpecStitch SpecIntersects SpecShape SpecChain SpecCuts SpecOffNear.
From Verif Require Import ProofR ProofBase ProofIter ProofIntr ProofArc ProofView ProofView2 ProofSlice ProofSlice2 ProofRegion4 ProofRegion7 ProofOffNear.
Import ListNotations.
Local Open Scope R_scope.

Lemma Forall2_nth_error_r {A B} (P : A -> B -> Prop) l m i y : Forall2 P l m -> nth_error m i = Some y -> exists x, nth_error l i = Some x /\ P x y.
Proof.
  intros F. revert i. induction F as [|a b l m H F IH]; intros [|i] E; try discriminate E.
  - injection E as <-. exists a. auto.
  - apply (IH i E).
Qed.

(** A slice: at least two vertexes, clearly apart, and its segments are pieces. *)
Definition good_slice (g : R) (raw : pline R) (d : view_data R) : Prop :=
  (2 <= length (view_path_of raw d))%nat /\ spaced g (view_path_of raw d)
  /\ forall a b, In (a, b) (pairs (view_path_of raw d)) -> from_raw raw 0 a b.

Lemma crisp_less e g p q : e <= g -> crisp g p q -> crisp e p q.
Proof. intros L [H|[H|H]]; [left; exact H|right; left; lra|right; right; lra]. Qed.

Lemma crisp_apart g p q : crisp g p q -> p <> q -> apart g p q.
Proof. intros [H|H] N; [contradiction|exact H]. Qed.

Lemma slice_pieces_cases n i t j u k a b : In (k, a, b) (slice_pieces n i t j u) ->
  ((k, a, b) = (i, t, u) /\ i = j /\ t < u) \/ ((k, a, b) = (i, t, 1) /\ t < 1)
  \/ (a = 0 /\ b = 1 /\ ~ (i = j /\ t < u) /\ exists m, (m < (j + n - (i + 1)) mod n)%nat /\ k = ((i + 1 + m) mod n)%nat)
  \/ ((k, a, b) = (j, 0, u) /\ 0 < u).
Proof.
  intros I. unfold slice_pieces in I. cbv zeta in I.
  assert (Rest : ~ (i = j /\ t < u) -> In (k, a, b) ((if Rlt_dec t 1 then [(i, t, 1)] else [])
              ++ map (fun k => (((i + 1 + k) mod n)%nat, 0%R, 1%R)) (seq 0 ((j + n - (i + 1)) mod n)) ++ (if Rlt_dec 0 u then [(j, 0%R, u)] else [])) ->
     ((k, a, b) = (i, t, 1) /\ t < 1) \/ (a = 0 /\ b = 1 /\ ~ (i = j /\ t < u) /\ exists m, (m < (j + n - (i + 1)) mod n)%nat /\ k = ((i + 1 + m) mod n)%nat) \/ ((k, a, b) = (j, 0, u) /\ 0 < u)).
  { intros NN H. apply in_app_or in H as [H|H]; [|apply in_app_or in H as [H|H]].
    - left. destruct (Rlt_dec t 1); [|destruct H]. destruct H as [H|[]]. split; [now symmetry|assumption].
    - right. left. apply in_map_iff in H as (m & E & IM). injection E as <- <- <-. apply in_seq in IM. split; [reflexivity|]. split; [reflexivity|]. split; [exact NN|].
      exists m. split; [lia|reflexivity].
    - right. right. destruct (Rlt_dec 0 u); [|destruct H]. destruct H as [H|[]]. split; [now symmetry|assumption]. }
  destruct (Nat.eqb_spec i j) as [E|E].
  - destruct (Rlt_dec t u) as [L|L].
    + left. destruct I as [I|[]]. split; [now symmetry|auto].
    + right. apply Rest; [intros (_ & X); contradiction|exact I].
  - right. apply Rest; [intros (X & _); contradiction|exact I].
Qed.


Lemma seg_at_start_any (w1 w2 : vertex R) q : seg_at w1 w2 0 q -> q = pos w1.
Proof.
  intros [(E & ->)|(E & c & r & a & (R0 & E1 & E2) & ->)].
  - unfold line_pt. apply vec2_eq; cbn [vx vy]; ring.
  - rewrite E1. f_equal. ring.
Qed.
Lemma seg_at_end_any (w1 w2 : vertex R) q : seg_at w1 w2 1 q -> q = pos w2.
Proof.
  intros [(E & ->)|(E & c & r & a & (R0 & E1 & E2) & ->)].
  - unfold line_pt. apply vec2_eq; cbn [vx vy]; ring.
  - rewrite E2. f_equal. ring.
Qed.

Lemma piece_ends a b t u w1 w2 q q' : piece a b t u w1 w2 -> seg_at a b t q -> seg_at a b u q' -> pos w1 = q /\ pos w2 = q'.
Proof.
  intros P Q Q'. split.
  - symmetry. apply (seg_at_start_any w1 w2). apply P. now replace (t + 0 * (u - t)) with t by ring.
  - symmetry. apply (seg_at_end_any w1 w2). apply P. now replace (t + 1 * (u - t)) with u by ring.
Qed.

Lemma seg_at_0 a b : seg_ok a b -> seg_at a b 0 (pos a).
Proof. intros H. destruct (seg_at_exists a b 0 H) as (q & Q). now rewrite <- (seg_at_start_any a b q Q). Qed.
Lemma seg_at_1 a b : seg_ok a b -> seg_at a b 1 (pos b).
Proof. intros H. destruct (seg_at_exists a b 1 H) as (q & Q). now rewrite <- (seg_at_end_any a b q Q). Qed.

Section Slice.
Context (raw : pline R) (eps g : R).
Hypothesis eps0 : 0 < eps.
Hypothesis epsg : eps <= g.
Hypothesis clear : clear_pline g raw.

Lemma clear_eps : clear_pline eps raw.
Proof. intros v1 v2 I. destruct (clear v1 v2 I) as (A & B). split; [exact A|]. destruct B; [left|right]; lra. Qed.

Lemma clear_neq v1 v2 : In (v1, v2) (spec_segs (vtx raw) (is_closed raw)) -> seg_ok v1 v2 /\ pos v1 <> pos v2 /\ apart g (pos v1) (pos v2).
Proof.
  intros I. destruct (clear v1 v2 I) as (A & B). split; [exact A|]. split; [|exact B]. intros E.
  assert (px v1 = px v2 /\ py v1 = py v2) as (E1 & E2) by (split; [exact (f_equal vx E)|exact (f_equal vy E)]).
  rewrite E1, E2, !Rminus_diag_eq, Rabs_R0 in B by reflexivity. lra.
Qed.

Lemma piece_good k a b v1 v2 w1 w2 q q' : nth_error (spec_segs (vtx raw) (is_closed raw)) k = Some (v1, v2) -> 0 <= a < b -> b <= 1 ->
  piece v1 v2 a b w1 w2 -> seg_at v1 v2 a q -> seg_at v1 v2 b q' -> crisp g q q' -> apart g (pos w1) (pos w2) /\ from_raw raw 0 w1 w2.
Proof.
  intros E Hab Hb P Q Q' C. pose proof (nth_error_In _ _ E) as I. destruct (clear_neq _ _ I) as (Ok & Nv & _). split.
  - destruct (piece_ends _ _ _ _ _ _ _ _ P Q Q') as (-> & ->). apply crisp_apart; [exact C|]. apply (seg_ends_neq v1 v2 a b); auto; lra.
  - exists v1, v2, a, b, w2. split; [exact I|]. split; [exact Hab|]. split; [exact Hb|]. split; [exact P|]. rewrite ProofSegIntr5.dist_self. lra.
Qed.

Lemma slice_good i t sp j u ep d : point_at raw i t sp -> end_at raw j u ep ->
  crisp_vertexes g raw sp -> crisp_vertexes g raw ep -> crisp g sp ep ->
  (is_closed raw = false -> (i < j)%nat \/ i = j /\ t <= u) ->
  (i = j -> t < u -> forall a, nth_error (vtx raw) i = Some a -> rest_ok a t) ->
  view_from_slice_points raw sp i ep j eps = Ret (Some d) -> good_slice g raw d.
Proof.
  intros HS HE CS CE CC HO HR EV.
  assert (LE : forall q, crisp_vertexes g raw q -> crisp_vertexes eps raw q) by (intros q H v I; apply (crisp_less eps g); auto).
  destruct (slice_main raw eps i t sp j u ep eps0 clear_eps HS HE (LE _ CS) (LE _ CE) (crisp_less eps g _ _ epsg CC) HO HR) as (A & B).
  assert (NE : ~ slice_empty raw i t j u) by (intros X; specialize (A X); congruence).
  destruct (B NE) as (d' & E & (F1 & F2 & F3 & F4 & l & first & last & EL & FP & HF & PF & HL & PL)). rewrite EV in E. injection E as <-.
  destruct (view_forward_spec d raw F1 F2 F3) as (_ & EL' & LL). rewrite EL in EL'. injection EL' as ->. change (fwd_list d raw) with (view_path_of raw d) in *.
  split; [rewrite LL; lia|].
  destruct HS as (va & vb & Ei & Ht & Qs).
  destruct (segs_at raw i va vb Ei) as (Hi & H2 & Hio & Ea & Eb). set (n := vertex_count raw) in *.
  assert (X : forall w1 w2, In (w1, w2) (pairs (view_path_of raw d)) -> apart g (pos w1) (pos w2) /\ from_raw raw 0 w1 w2).
  { intros w1 w2 I. rewrite <- spec_segs_pairs in I.
    destruct (In_nth_error _ _ I) as (m & Em). destruct (Forall2_nth_error_r _ _ _ _ _ FP Em) as (((k, a), b) & Ek & (v1 & v2 & N1 & N2 & P)). cbn [fst snd] in P.
    pose proof (nth_error_In _ _ Ek) as Ik. apply slice_pieces_cases in Ik.
    fold n in N2. change (length (vtx raw)) with n in N2.
    assert (SEG : forall k, (k < n)%nat -> (is_closed raw = false -> (S k < n)%nat) -> nth_error (vtx raw) k = Some v1 -> nth_error (vtx raw) ((k + 1) mod n) = Some v2 ->
       nth_error (spec_segs (vtx raw) (is_closed raw)) k = Some (v1, v2)).
    { intros k0 K1 K2 M1 M2. destruct (segs_at_intro raw k0 H2 K1 K2) as (x & y & Exy). destruct (segs_at raw k0 x y Exy) as (_ & _ & _ & Ex & Ey). fold n in Ey. congruence. }
    destruct Ik as [(Ex & Eij & L)|[(Ex & L)|[(-> & -> & NN & mm & Lm & Ekm)|(Ex & L)]]].
    - injection Ex as -> -> ->. subst j. rewrite Ea in N1. injection N1 as <-. assert (vb = v2) by (fold n in Eb; congruence). subst vb.
      assert (Qe : seg_at va v2 u ep /\ u <= 1).
      { destruct HE as [(x & y & Exy & Hu & Q)|(C & -> & _)]; [|lra]. rewrite Ei in Exy. injection Exy as <- <-. split; [exact Q|lra]. }
      destruct Qe as (Qe & Hu). apply (piece_good i t u va v2 w1 w2 sp ep); auto; lra.
    - injection Ex as -> -> ->. rewrite Ea in N1. injection N1 as <-. assert (vb = v2) by (fold n in Eb; congruence). subst vb.
      pose proof (clear_neq _ _ (nth_error_In _ _ Ei)) as (Ok & _).
      apply (piece_good i t 1 va v2 w1 w2 sp (pos v2)); auto; try lra; [now apply seg_at_1|]. apply crisp_sym. apply CS. eapply nth_error_In. exact N2.
    - assert (Hk : (k < n)%nat) by (subst k; apply Nat.mod_upper_bound; lia).
      assert (Hko : is_closed raw = false -> (S k < n)%nat).
      { intros C. destruct (HO C) as [L|(-> & L)].
        - assert (Hj : (j < n)%nat) by (destruct HE as [(x & y & Exy & _)|(_ & _ & Sj & _)]; [apply (segs_at raw j x y Exy)|lia]).
          assert (E : ((j + n - (i + 1)) mod n = j - (i + 1))%nat).
          { replace (j + n - (i + 1))%nat with ((j - (i + 1)) + 1 * n)%nat by lia. rewrite Nat.mod_add by lia. apply Nat.mod_small. lia. }
          rewrite E in Lm. rewrite Nat.mod_small in Ekm by lia. lia.
        - exfalso. destruct (Rle_lt_or_eq_dec _ _ L) as [L'|L']; [now apply NN|]. apply NE. left. auto. }
      pose proof (SEG k Hk Hko N1 N2) as Es. pose proof (clear_neq _ _ (nth_error_In _ _ Es)) as (Ok & _ & AP).
      apply (piece_good k 0 1 v1 v2 w1 w2 (pos v1) (pos v2)); auto; try lra; [now apply seg_at_0|now apply seg_at_1|]. right. exact AP.
    - injection Ex as -> -> ->. destruct HE as [(x & y & Exy & Hu & Q)|(C & -> & _)]; [|lra].
      destruct (segs_at raw j x y Exy) as (_ & _ & _ & Fx & Fy). fold n in Fy. assert (x = v1) by congruence. assert (y = v2) by congruence. subst x y.
      pose proof (clear_neq _ _ (nth_error_In _ _ Exy)) as (Ok & _).
      apply (piece_good j 0 u v1 v2 w1 w2 (pos v1) ep); auto; try lra; [now apply seg_at_0|]. apply CE. eapply nth_error_In. exact N1. }
  split; intros w1 w2 I; now apply X.
Qed.

Lemma entire_good d : (2 <= vertex_count raw)%nat -> view_from_entire_pline raw = Ret d -> good_slice g raw d.
Proof.
  intros H2 E. destruct (entire_view_spec raw H2) as (d' & l & E' & EL & F1 & F2 & F3 & _ & M). rewrite E in E'. injection E' as <-.
  destruct (view_forward_spec d raw F1 F2 F3) as (_ & EL' & LL). rewrite EL in EL'. injection EL' as ->. change (fwd_list d raw) with (view_path_of raw d) in *.
  split; [rewrite LL; lia|].
  assert (X : forall w1 w2, In (w1, w2) (pairs (view_path_of raw d)) -> apart g (pos w1) (pos w2) /\ from_raw raw 0 w1 w2).
  { intros w1 w2 I. rewrite <- spec_segs_pairs in I. pose proof (in_map seg_data _ _ I) as I'. rewrite M in I'. apply in_map_iff in I' as ((v1, v2) & ED & Iv).
    unfold seg_data in ED. cbn [fst snd] in ED. injection ED as E1 E2 E3 E4 E5.
    assert (P1 : pos v1 = pos w1) by (unfold pos; congruence). assert (P2 : pos v2 = pos w2) by (unfold pos; congruence).
    destruct (clear_neq _ _ Iv) as (_ & _ & AP). split; [now rewrite <- P1, <- P2|].
    exists v1, v2, 0, 1, w2. split; [exact Iv|]. split; [lra|]. split; [lra|]. split; [now apply piece_whole|]. rewrite ProofSegIntr5.dist_self. lra. }
  split; intros w1 w2 I; now apply X.
Qed.
End Slice.
