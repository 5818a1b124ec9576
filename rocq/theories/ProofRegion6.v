(** A slice stays on one side of the other loop (C51). *)
From Coq Require Import Reals ZArith Bool List Arith Lra Lia Psatz Permutation Sorted.
From Verif Require Import Num RNum Res ModelMath ModelSeg ModelPline ModelView ModelIntersects ModelBoolean.
From Verif Require Import Spec SpecGeom SpecBox SpecWinding SpecView SpecPruneR.
From Verif Require Import ProofR ProofBase ProofIter ProofArc ProofArc2 ProofSlice ProofMeasure ProofWalk ProofWinding ProofWinding2 ProofWinding6 ProofWinding7 ProofRegion ProofRegion2 ProofRegion3 ProofRegion4 ProofRegion5.
Import ListNotations.
Local Open Scope R_scope.

Lemma stretch p a b s1 s2 q1 q2 : pline_ok p -> seg_ok a b -> s1 <= s2 ->
  (forall s q, s1 <= s <= s2 -> seg_at a b s q -> ~ on_path p q) -> seg_at a b s1 q1 -> seg_at a b s2 q2 -> wn p q1 = wn p q2.
Proof.
  intros Okp Ok L H H1 H2. destruct (seg_curve a b Ok) as (cx & cy & Cx & Cy & Hq).
  assert (B : forall t, 0 <= t <= 1 -> s1 <= s1 + t * (s2 - s1) <= s2).
  { intros t Ht. assert (0 <= t * (s2 - s1)) by (apply Rmult_le_pos; lra). assert (t * (s2 - s1) <= 1 * (s2 - s1)) by (apply Rmult_le_compat_r; lra). lra. }
  pose proof (winding_curve p (fun t => cx (s1 + t * (s2 - s1))) (fun t => cy (s1 + t * (s2 - s1))) Okp) as W.
  assert (E : winding_number p q1 = winding_number p q2).
  { cbv beta in W. replace (s1 + 0 * (s2 - s1)) with s1 in W by ring. replace (s1 + 1 * (s2 - s1)) with s2 in W by ring.
    apply Hq in H1, H2. subst q1 q2. apply W.
    - intros t. apply (continuity_pt_comp (fun t => s1 + t * (s2 - s1)) cx); [apply continuity_affine|apply Cx].
    - intros t. apply (continuity_pt_comp (fun t => s1 + t * (s2 - s1)) cy); [apply continuity_affine|apply Cy].
    - intros t Ht. apply (H (s1 + t * (s2 - s1))); [now apply B|now apply Hq]. }
  unfold wn. now rewrite E.
Qed.

Section Side.
Variables p p' : pline R.
Hypothesis vc : (2 <= vertex_count p)%nat.
Hypothesis cl : is_closed p = true.
Hypothesis okp : forall v1 v2, In (v1, v2) (spec_segs (vtx p) (is_closed p)) -> seg_ok v1 v2 /\ pos v1 <> pos v2.
Hypothesis okp' : pline_ok p'.
Variable order : list place.
Hypothesis ne : order <> [].
Hypothesis placedp : Forall (placed p) order.
Hypothesis sorted : StronglySorted along order.
Hypothesis parts : forall i t x j u y, In ((i, t, x), (j, u, y)) (gaps order) -> forall k a b v, In (k, a, b) (slice_pieces (vertex_count p) i t j u) ->
  nth_error (vtx p) k = Some v -> part_ok v a b.
Variable cs : list (boolean_slice R * vec2 R).
Hypothesis betw : Forall2 (between p) (gaps order) cs.
Hypothesis complete : forall k t q, t < 1 -> point_at p k t q -> on_path p' q -> exists t' x, In (k, t', x) order /\ sp_pos x = q.

Let n := vertex_count p.

Lemma not_cut i t x j u y k s a b q : In ((i, t, x), (j, u, y)) (gaps order) -> nth_error (spec_segs (vtx p) (is_closed p)) k = Some (a, b) ->
  0 <= s < 1 -> amid (i, t) (k, s) (j, u) -> seg_at a b s q -> ~ on_path p' q.
Proof.
  intros IG E Hs HA Hq N. destruct (complete k s q) as (t' & x' & I & EX); [lra|exists a, b; repeat split; auto; lra|exact N|].
  destruct (place_ok p vc cl okp order placedp parts k t' x' I) as (_ & B & a' & b' & E' & H'). rewrite E in E'. injection E' as <- <-. rewrite EX in H'.
  destruct (okp a b) as (Ok & Nd); [eapply nth_error_In; exact E|].
  assert (t' = s) by (apply (seg_at_inj a b t' s q); auto; lra). subst t'.
  apply (gaps_empty order ((i, t, x)) (j, u, y) (k, s, x') sorted IG I). exact HA.
Qed.

Lemma linked_side (i : nat) t (x : slice_point R) j u y : In ((i, t, x), (j, u, y)) (gaps order) -> forall P,
  (forall k a b, In (k, a, b) P -> (k < n)%nat /\ 0 <= a /\ a < b /\ b <= 1 /\ (forall s, a < s < b -> amid (i, t) (k, s) (j, u))) ->
  linked n (fun k => amid (i, t) (k, 0) (j, u)) P ->
  exists W, forall k a b v1 v2 s q, In (k, a, b) P -> nth_error (spec_segs (vtx p) (is_closed p)) k = Some (v1, v2) -> a < s < b -> seg_at v1 v2 s q -> wn p' q = W.
Proof.
  intros IG P. induction P as [|[[k a] b] P IH]; intros HP HL.
  - exists 0%Z. intros k a b v1 v2 s q [].
  - assert (Same : forall v1 v2 s s' q q', nth_error (spec_segs (vtx p) (is_closed p)) k = Some (v1, v2) -> a < s < b -> a < s' < b ->
      seg_at v1 v2 s q -> seg_at v1 v2 s' q' -> wn p' q = wn p' q').
    { assert (Half : forall v1 v2 s s' q q', nth_error (spec_segs (vtx p) (is_closed p)) k = Some (v1, v2) -> a < s < b -> a < s' < b -> s <= s' ->
        seg_at v1 v2 s q -> seg_at v1 v2 s' q' -> wn p' q = wn p' q').
      { intros v1 v2 s s' q q' E Hs Hs' L Hq Hq'. destruct (okp v1 v2) as (Ok & _); [eapply nth_error_In; exact E|].
        destruct (HP k a b (or_introl eq_refl)) as (_ & A0 & _ & B1 & HA).
        apply (stretch p' v1 v2 s s' q q'); auto. intros s0 q0 H0 Hq0. apply (not_cut i t x j u y k s0 v1 v2 q0); auto; [lra|apply HA; lra]. }
      intros v1 v2 s s' q q' E Hs Hs' Hq Hq'. destruct (Rle_dec s s'); [apply (Half v1 v2 s s'); auto|symmetry; apply (Half v1 v2 s' s); auto; lra]. }
    destruct P as [|[[k' a'] b'] P'].
    + destruct (HP k a b (or_introl eq_refl)) as (Lk & A0 & AB & B1 & _).
      destruct (seg_of p vc cl okp order parts k Lk) as (v1 & v2 & E & _ & _ & Ok & _). destruct (seg_at_exists v1 v2 ((a + b) / 2) Ok) as (m & Hm).
      exists (wn p' m). intros k0 a0 b0 w1 w2 s q [I|[]] E0 Hs Hq. injection I as <- <- <-. rewrite E in E0. injection E0 as <- <-.
      apply (Same v1 v2 s ((a + b) / 2)); auto; lra.
    + cbn [linked] in HL. destruct HL as (-> & -> & Ek & HA0 & HL).
      destruct IH as (W & HW); [intros k0 a0 b0 I0; apply HP; now right|exact HL|]. exists W.
      intros k0 a0 b0 w1 w2 s q [I|I] E0 Hs Hq; [|eapply HW; eassumption]. injection I as <- <- <-.
      destruct (HP k a 1 (or_introl eq_refl)) as (Lk & A0 & AB & _ & HA).
      destruct (HP k' 0 b' (or_intror (or_introl eq_refl))) as (Lk' & _ & AB' & B1' & HA').
      destruct (seg_of p vc cl okp order parts k Lk) as (v1 & v2 & E & E1 & E2 & Ok & _). rewrite E in E0. injection E0 as <- <-.
      destruct (seg_of p vc cl okp order parts k' Lk') as (v1' & v2' & E' & E1' & _ & Ok' & _).
      assert (v1' = v2) by (rewrite Ek in E1'; unfold n in *; congruence). subst v1'.
      assert (V : ~ on_path p' (pos v2)) by (apply (not_cut i t x j u y k' 0 v2 v2' (pos v2)); auto; [lra|now apply seg_at_0]).
      destruct (seg_at_exists v2 v2' (b' / 2) Ok') as (m & Hm).
      transitivity (wn p' (pos v2)); [|transitivity (wn p' m)].
      * apply (stretch p' v1 v2 s 1 q (pos v2)); auto; [lra| |now apply seg_at_1]. intros s0 q0 H0 Hq0.
        destruct (Rlt_dec s0 1) as [L|L]; [apply (not_cut i t x j u y k s0 v1 v2 q0); auto; [lra|apply HA; lra]|].
        assert (s0 = 1) by lra. subst s0. assert (q0 = pos v2) by (apply (seg_at_unique v1 v2 1); auto; now apply seg_at_1). subst q0. exact V.
      * apply (stretch p' v2 v2' 0 (b' / 2) (pos v2) m); auto; [lra| |now apply seg_at_0]. intros s0 q0 H0 Hq0.
        destruct (Rlt_dec 0 s0) as [L|L]; [apply (not_cut i t x j u y k' s0 v2 v2' q0); auto; [lra|apply HA'; lra]|].
        assert (s0 = 0) by lra. subst s0. assert (q0 = pos v2) by (apply (seg_at_unique v2 v2' 0); auto; now apply seg_at_0). subst q0. exact V.
      * apply (HW k' 0 b' v2 v2' (b' / 2)); auto; [now left|lra].
Qed.

Lemma slice_side c w q : In c cs -> In w (vsegs p (bs_view (fst c))) -> on w q -> q <> pos (fst w) -> q <> pos (snd w) ->
  ~ on_path p' q /\ wn p' q = wn p' (snd c).
Proof.
  intros Ic Iw (s & Hs & Hq) N1 N2. destruct (gap_slice p order cs betw c Ic) as (i & t & x & j & u & y & IG & B).
  destruct (gap_ok p vc cl okp order placedp parts _ _ _ _ _ _ IG) as (L1 & B1 & L2 & B2).
  pose proof (slice_piece p vc cl okp order placedp parts _ _ _ _ _ _ _ IG B) as F2. fold n in L1, L2, F2.
  destruct (forall2_right _ _ _ _ F2 Iw) as ([[k t'] u'] & IP & a & b & E & Ok & Nd & T0 & T1 & T2 & HP & Okw).
  assert (Hs' : 0 < s < 1).
  { split; apply Rnot_le_lt; intros L.
    - assert (s = 0) by lra. subst s. apply N1. apply (seg_at_unique (fst w) (snd w) 0); auto. now apply seg_at_0.
    - assert (s = 1) by lra. subst s. apply N2. apply (seg_at_unique (fst w) (snd w) 1); auto. now apply seg_at_1. }
  assert (HM : t' < t' + s * (u' - t') < u').
  { assert (0 < s * (u' - t')) by (apply Rmult_lt_0_compat; lra). assert (s * (u' - t') < 1 * (u' - t')) by (apply Rmult_lt_compat_r; lra). lra. }
  destruct (slice_pieces_In n i t j u k t' u' L1 L2 B1 B2 IP) as (Lk & _ & _ & _ & HA).
  apply HP in Hq. split.
  - apply (not_cut i t x j u y k (t' + s * (u' - t')) a b q); auto. lra.
  - destruct (linked_side i t x j u y IG (slice_pieces n i t j u)) as (W & HW).
    + intros k0 a0 b0 I0. now apply slice_pieces_In.
    + now apply slice_linked.
    + rewrite (HW k t' u' a b (t' + s * (u' - t')) q IP E HM Hq).
      destruct B as (_ & a1 & b1 & e & E1 & E2 & Eh & Ht). fold n in Eh, E2.
      assert (I0 : In (i, t, e) (slice_pieces n i t j u)) by (destruct (slice_pieces n i t j u); [discriminate|injection Eh as ->; now left]).
      destruct (slice_pieces_In n i t j u i t e L1 L2 B1 B2 I0) as (_ & _ & Te & _ & _).
      destruct (seg_of p vc cl okp order parts i L1) as (v1 & v2 & E0 & Ea & Eb & _).
      assert (a1 = v1) by congruence. assert (b1 = v2) by (unfold n in *; congruence). subst a1 b1.
      symmetry. apply (HW i t e v1 v2 ((t + e) / 2) (snd c) I0 E0); [lra|exact Ht].
Qed.
End Side.
