(** Slices of a loop that passes a point only once (C76). *)
From Coq Require Import Reals ZArith Bool List Arith Lra Lia Psatz Permutation Sorted.
From Verif Require Import Num RNum Res ModelMath ModelSeg ModelPline ModelView ModelIntersects ModelBoolean.
From Verif Require Import Spec SpecGeom SpecBox SpecWinding SpecView SpecPruneR SpecJordan.
From Verif Require Import ProofR ProofBase ProofIter ProofArc ProofArc2 ProofSlice ProofMeasure ProofWinding ProofWinding2 ProofWinding6 ProofWinding7 ProofRegion ProofRegion2 ProofRegion3 ProofRegion4 ProofRegion5.
Import ListNotations.
Local Open Scope R_scope.

Section LoopAt.
Variable p : pline R.
Hypothesis vc : (2 <= vertex_count p)%nat.
Hypothesis cl : is_closed p = true.
Hypothesis okp : forall v1 v2, In (v1, v2) (spec_segs (vtx p) (is_closed p)) -> seg_ok v1 v2 /\ pos v1 <> pos v2.
Variable order : list place.
Hypothesis ne : order <> [].
Hypothesis placedp : Forall (placed p) order.
Hypothesis sorted : StronglySorted along order.
Hypothesis parts : forall i t x j u y, In ((i, t, x), (j, u, y)) (gaps order) -> forall k a b v, In (k, a, b) (slice_pieces (vertex_count p) i t j u) ->
  nth_error (vtx p) k = Some v -> part_ok v a b.
Variable cs : list (boolean_slice R * vec2 R).
Hypothesis betw : Forall2 (between p) (gaps order) cs.

Lemma slices_once_at (g : seg -> Z) q : (forall i j t u, point_at p i t q -> point_at p j u q -> t < 1 -> u < 1 -> i = j) -> let all := flat_map (fun c => vsegs p (bs_view (fst c))) cs in
  (forall w, In w all \/ In w (spec_segs (vtx p) (is_closed p)) -> q <> pos (fst w) /\ q <> pos (snd w) /\ (on w q -> g w = 1%Z) /\ (~ on w q -> g w = 0%Z)) ->
  (zsum (map g all) <= 1)%Z.
Proof.
  intros PO all H. unfold all. rewrite (slices_sum p vc cl okp order ne placedp sorted parts cs betw).
  - apply one_of.
    + intros w I. destruct (H w (or_intror I)) as (_ & _ & G1 & G0). destruct (Classical_Prop.classic (on w q)); auto.
    + assert (G : forall i w, nth_error (spec_segs (vtx p) (is_closed p)) i = Some w -> g w = 1%Z -> exists t, t < 1 /\ point_at p i t q).
      { intros i [a b] E Gw. assert (I : In (a, b) (spec_segs (vtx p) (is_closed p))) by (eapply nth_error_In; exact E). destruct (H (a, b) (or_intror I)) as (N1 & N2 & G1 & G0).
        destruct (Classical_Prop.classic (on (a, b) q)) as [(t & Ht & Hq)|N]; [|rewrite (G0 N) in Gw; discriminate]. cbn [fst snd] in *. exists t. split.
        - apply Rnot_le_lt. intros L. assert (t = 1) by lra. subst t. apply N2. destruct (okp a b I) as (Ok & _). apply (seg_at_unique a b 1); auto. now apply seg_at_1.
        - exists a, b. auto. }
      intros i j w w' E E' Gw Gw'. destruct (G i w E Gw) as (t & Lt & Pt). destruct (G j w' E' Gw') as (u & Lu & Pu). exact (PO i j t u Pt Pu Lt Lu).
  - intros k a b E. assert (I : In (a, b) (spec_segs (vtx p) (is_closed p))) by (eapply nth_error_In; exact E). destruct (okp a b I) as (Ok & Nd).
    destruct (Classical_Prop.classic (on (a, b) q)) as [(s0 & Hs0 & Hq0)|N].
    + cbn [fst snd] in Hq0. exists (fun t => if Rlt_dec s0 t then 1 else 0). intros t u w T0 T1 T2 HP Okw Iw. destruct (H w Iw) as (N1 & N2 & G1 & G0).
      destruct (Classical_Prop.classic (on w q)) as [Hon|Hon].
      * rewrite (G1 Hon). destruct Hon as (s & Hs & Hq).
        assert (Hs' : 0 < s < 1).
        { split; apply Rnot_le_lt; intros L.
          - assert (s = 0) by lra. subst s. apply N1. apply (seg_at_unique (fst w) (snd w) 0); auto. now apply seg_at_0.
          - assert (s = 1) by lra. subst s. apply N2. apply (seg_at_unique (fst w) (snd w) 1); auto. now apply seg_at_1. }
        assert (0 < s * (u - t)) by (apply Rmult_lt_0_compat; lra). assert (s * (u - t) < 1 * (u - t)) by (apply Rmult_lt_compat_r; lra).
        apply HP in Hq. assert (s0 = t + s * (u - t)) by (apply (seg_at_inj a b s0 (t + s * (u - t)) q); auto; lra).
        destruct (Rlt_dec s0 u), (Rlt_dec s0 t); lra.
      * rewrite (G0 Hon). destruct (Rlt_dec s0 u) as [L|L], (Rlt_dec s0 t) as [L'|L']; try lra.
        exfalso. apply Hon. exists ((s0 - t) / (u - t)). split.
        -- split; [apply Rmult_le_pos; [lra|left; apply Rinv_0_lt_compat; lra]|]. apply (Rmult_le_reg_r (u - t)); [lra|]. field_simplify; lra.
        -- apply HP. replace (t + (s0 - t) / (u - t) * (u - t)) with s0 by (field; lra). exact Hq0.
    + exists (fun _ => 0). intros t u w T0 T1 T2 HP Okw Iw. destruct (H w Iw) as (N1 & N2 & G1 & G0). rewrite G0; [lra|]. intros Hon. apply N.
      apply (piece_on a b t u (fst w) (snd w)); auto; lra.
Qed.
End LoopAt.
