(** The slices of a loop that passes no point twice, each without its first or its last point (C77). *)
From Coq Require Import Reals ZArith Bool List Arith Lra Lia Psatz Permutation Sorted.
From Verif Require Import Num RNum Res ModelMath ModelSeg ModelPline ModelView ModelIntersects ModelBoolean.
From Verif Require Import Spec SpecPline SpecGeom SpecBox SpecWinding SpecView SpecPruneR SpecJordan.
From Verif Require Import ProofR ProofBase ProofIter ProofArc ProofArc2 ProofSlice ProofMeasure ProofWinding ProofWinding2 ProofWinding6 ProofWinding7 ProofRegion ProofRegion2 ProofRegion3 ProofRegion4 ProofRegion5.
Import ListNotations.
Local Open Scope R_scope.

(** A point of a segment other than its end, or other than its beginning. *)
Definition half (first : bool) (w : seg) (q : vec2 R) : Prop := exists t, 0 <= t <= 1 /\ (if first then t < 1 else 0 < t) /\ seg_at (fst w) (snd w) t q.

Lemma half_on first w q : half first w q -> on w q.
Proof. intros (t & Ht & _ & Hq). exists t. auto. Qed.

Lemma half_in_loop p : (2 <= vertex_count p)%nat -> is_closed p = true -> pline_ok p -> passes_once p -> forall first i j a b q,
  nth_error (spec_segs (vtx p) (is_closed p)) i = Some a -> nth_error (spec_segs (vtx p) (is_closed p)) j = Some b -> half first a q -> half first b q -> i = j.
Proof.
  intros vc cl ok PO first i j [a a'] [b b'] q Ei Ej (t & Ht & Hf & Hq) (u & Hu & Hg & Hr). cbn [fst snd] in *.
  destruct first; [refine (proj1 (PO i j t u q _ _ Hf Hg)); [exists a, a'; auto|exists b, b'; auto]|].
  set (n := vertex_count p) in *.
  assert (EL : length (spec_segs (vtx p) (is_closed p)) = n).
  { rewrite spec_segs_length, cl. unfold n, vertex_count in *. destruct (Nat.ltb_spec (length (vtx p)) 2); lia. }
  assert (NX : forall k c d x, nth_error (spec_segs (vtx p) (is_closed p)) k = Some (c, d) -> seg_at c d 1 x -> (k < n)%nat /\ point_at p ((k + 1) mod n) 0 x).
  { intros k c d x E At. assert (Lk : (k < n)%nat) by (rewrite <- EL; apply nth_error_Some; congruence). split; [exact Lk|].
    destruct (spec_segs_nth (vtx p) (is_closed p) k) as (c0 & d0 & H1 & H2 & H3); [lia|]. rewrite E in H1. injection H1 as <- <-.
    assert (Lm : ((k + 1) mod n < n)%nat) by (apply Nat.mod_upper_bound; lia).
    destruct (spec_segs_nth (vtx p) (is_closed p) ((k + 1) mod n)) as (c1 & d1 & H4 & H5 & _); [lia|].
    change (length (vtx p)) with n in H3. rewrite H3 in H5. injection H5 as <-.
    exists d, d1. split; [exact H4|]. split; [lra|].
    assert (Ok : seg_ok c d) by (apply ok; eapply nth_error_In; exact E).
    assert (x = pos d) by (apply (seg_at_unique c d 1); auto; now apply seg_at_1). subst x. apply seg_at_0. apply ok. eapply nth_error_In; exact H4. }
  assert (PT : forall k c d v x, nth_error (spec_segs (vtx p) (is_closed p)) k = Some (c, d) -> 0 <= v <= 1 -> seg_at c d v x -> point_at p k v x).
  { intros k c d v x E Hv At. exists c, d. auto. }
  destruct (Rlt_dec t 1) as [Lt|Lt], (Rlt_dec u 1) as [Lu|Lu].
  - refine (proj1 (PO i j t u q _ _ Lt Lu)); eapply PT; eassumption.
  - assert (u = 1) by lra. subst u. destruct (NX j b b' q Ej Hr) as (_ & P0). exfalso.
    assert (t = 0); [|lra]. refine (proj2 (PO i ((j + 1) mod n)%nat t 0 q _ P0 Lt _)); [eapply PT; eassumption|lra].
  - assert (t = 1) by lra. subst t. destruct (NX i a a' q Ei Hq) as (_ & P0). exfalso.
    assert (0 = u); [|lra]. refine (proj2 (PO ((i + 1) mod n)%nat j 0 u q P0 _ _ Lu)); [eapply PT; eassumption|lra].
  - assert (t = 1) by lra. assert (u = 1) by lra. subst t u. destruct (NX i a a' q Ei Hq) as (Li & P0). destruct (NX j b b' q Ej Hr) as (Lj & P1).
    assert (E : ((i + 1) mod n = (j + 1) mod n)%nat) by (refine (proj1 (PO _ _ 0 0 q P0 P1 _ _)); lra).
    destruct (Nat.eq_dec (i + 1) n) as [Ei'|Ei'], (Nat.eq_dec (j + 1) n) as [Ej'|Ej']; [lia| | |].
    + rewrite Ei', Nat.mod_same, Nat.mod_small in E by lia. lia.
    + rewrite Ej', Nat.mod_same, Nat.mod_small in E by lia. lia.
    + rewrite !Nat.mod_small in E by lia. lia.
Qed.

Lemma slices_half p : (2 <= vertex_count p)%nat -> is_closed p = true ->
  (forall v1 v2, In (v1, v2) (spec_segs (vtx p) (is_closed p)) -> seg_ok v1 v2 /\ pos v1 <> pos v2) ->
  forall order, order <> [] -> Forall (placed p) order -> StronglySorted along order ->
  (forall i t x j u y, In ((i, t, x), (j, u, y)) (gaps order) -> forall k a b v, In (k, a, b) (slice_pieces (vertex_count p) i t j u) ->
    nth_error (vtx p) k = Some v -> part_ok v a b) ->
  forall cs, Forall2 (between p) (gaps order) cs -> forall (g : seg -> Z) q first, passes_once p ->
  let all := flat_map (fun c => vsegs p (bs_view (fst c))) cs in
  (forall w, In w all \/ In w (spec_segs (vtx p) (is_closed p)) -> (half first w q -> g w = 1%Z) /\ (~ half first w q -> g w = 0%Z)) ->
  (zsum (map g all) <= 1)%Z.
Proof.
  intros vc cl okp order ne placedp sorted parts cs betw g q first PO all H. unfold all.
  rewrite (slices_sum p vc cl okp order ne placedp sorted parts cs betw).
  - apply one_of.
    + intros w I. destruct (H w (or_intror I)) as (G1 & G0). destruct (Classical_Prop.classic (half first w q)); auto.
    + intros i j w w' E E' Gw Gw'.
      assert (X : forall k v, nth_error (spec_segs (vtx p) (is_closed p)) k = Some v -> g v = 1%Z -> half first v q).
      { intros k v Ev Gv. apply Classical_Prop.NNPP. intros N. destruct (H v) as (_ & G0); [right; eapply nth_error_In; exact Ev|]. rewrite (G0 N) in Gv. discriminate. }
      apply (half_in_loop p vc cl ltac:(intros v1 v2 I; now apply okp) PO first i j w w' q E E'); eauto.
  - intros k a b E. assert (I : In (a, b) (spec_segs (vtx p) (is_closed p))) by (eapply nth_error_In; exact E). destruct (okp a b I) as (Ok & Nd).
    destruct (Classical_Prop.classic (on (a, b) q)) as [(s0 & Hs0 & Hq0)|N].
    + cbn [fst snd] in Hq0. exists (fun t => if first then (if Rlt_dec s0 t then 1 else 0) else (if Rle_dec s0 t then 1 else 0)). intros t u w T0 T1 T2 HP Okw Iw. destruct (H w Iw) as (G1 & G0).
      destruct (Classical_Prop.classic (half first w q)) as [Hon|Hon].
      * rewrite (G1 Hon). destruct Hon as (s & Hs & Hf & Hq).
        assert (0 <= s * (u - t)) by (apply Rmult_le_pos; lra). assert (s * (u - t) <= 1 * (u - t)) by (apply Rmult_le_compat_r; lra).
        apply HP in Hq. assert (s0 = t + s * (u - t)) by (apply (seg_at_inj a b s0 (t + s * (u - t)) q); auto; lra).
        destruct first.
        -- assert (s * (u - t) < 1 * (u - t)) by (apply Rmult_lt_compat_r; lra). destruct (Rlt_dec s0 u), (Rlt_dec s0 t); lra.
        -- assert (0 < s * (u - t)) by (apply Rmult_lt_0_compat; lra). destruct (Rle_dec s0 u), (Rle_dec s0 t); lra.
      * rewrite (G0 Hon).
        assert (K : t <= s0 <= u -> (if first then s0 < u else t < s0) -> False).
        { intros B Hf. apply Hon. exists ((s0 - t) / (u - t)).
          assert (EM : (s0 - t) / (u - t) * (u - t) = s0 - t) by (field; lra). split; [|split].
          - split; [apply Rmult_le_pos; [lra|left; apply Rinv_0_lt_compat; lra]|]. apply (Rmult_le_reg_r (u - t)); lra.
          - destruct first; [apply (Rmult_lt_reg_r (u - t)); lra|apply Rmult_lt_0_compat; [lra|apply Rinv_0_lt_compat; lra]].
          - apply HP. rewrite EM. replace (t + (s0 - t)) with s0 by ring. exact Hq0. }
        destruct first.
        -- destruct (Rlt_dec s0 u) as [L|L], (Rlt_dec s0 t) as [L'|L']; first [lra|exfalso; apply K; lra].
        -- destruct (Rle_dec s0 u) as [L|L], (Rle_dec s0 t) as [L'|L']; first [lra|exfalso; apply K; lra].
    + exists (fun _ => 0). intros t u w T0 T1 T2 HP Okw Iw. destruct (H w Iw) as (G1 & G0). rewrite G0; [lra|]. intros Hon. apply N.
      apply (piece_on a b t u (fst w) (snd w)); auto; try lra. now apply half_on with first.
Qed.
