(** Offset results stay near the raw offset (C54): chains of slices with clearly separated vertexes. *)
From Coq Require Import Reals ZArith Bool List Arith Lra Lia.
From Verif Require Import Num RNum Res ModelMath ModelSeg ModelPline ModelView.
From Verif Require Import Spec SpecPline SpecGeom SpecBox SpecView SpecStitch SpecChain.
From Verif Require Import ProofR ProofIntr ProofSegIntr5 ProofRepeat ProofSlice ProofRawNear ProofRawNear2 ProofRegion7.
Import ListNotations.
Local Open Scope R_scope.

(** Differs by at least [g] in a coordinate. *)
Definition apart (g : R) (p q : vec2 R) : Prop := g <= Rabs (vx p - vx q) \/ g <= Rabs (vy p - vy q).
Definition spaced (g : R) (l : list (vertex R)) : Prop := forall a b, In (a, b) (pairs l) -> apart g (pos a) (pos b).
Definition beside (g : R) (p q : vec2 R) : Prop := Rabs (vx p - vx q) <= g /\ Rabs (vy p - vy q) <= g.

Lemma abs_le_inv x g : Rabs x <= g -> - g <= x <= g.
Proof. unfold Rabs. destruct (Rcase_abs x); lra. Qed.

Lemma apart_far e g p q r : apart (e + g) p q -> beside g q r -> apart e p r.
Proof.
  intros H (A & B). unfold apart in *. apply abs_le_inv in A, B.
  destruct H as [H|H]; [left|right].
  - revert H. unfold Rabs. destruct (Rcase_abs _), (Rcase_abs _); lra.
  - revert H. unfold Rabs. destruct (Rcase_abs _), (Rcase_abs _); lra.
Qed.

Lemma apart_less e g p q : e <= g -> apart g p q -> apart e p q.
Proof. intros L [H|H]; [left|right]; lra. Qed.

Lemma apart_not_close e a b : apart e (pos a) (pos b) -> close_by e a b = false.
Proof.
  intros H. unfold close_by. destruct (v2fuzzy_eq_eps (pos a) (pos b) e) eqn:F; [|reflexivity]. apply v2fuzzy_R in F. unfold apart in H. cbn [pos vx vy] in *. lra.
Qed.

Lemma beside_dist g p q : 0 <= g -> beside g p q -> dist p q <= 3 / 2 * g.
Proof.
  intros Hg (A & B). apply abs_le_inv in A, B. apply Rsqr_incr_0_var; [|lra]. unfold Rsqr. rewrite dist_sqr. nra.
Qed.

Section Chains.
Context (path : nat -> list (vertex R) -> Prop) (next : nat -> nat -> Prop) (choice : nat -> nat -> list nat -> nat -> Prop) (eps join : R).
Hypothesis eps0 : 0 < eps.
Hypothesis join0 : 0 <= join.
Hypothesis PATH : forall i l, path i l -> (2 <= length l)%nat /\ spaced (eps + 2 * join) l.
Hypothesis NEXT : forall used cur avail first b l1 v h l2, candidates next used cur avail -> choice first cur avail b ->
  path cur (l1 ++ [v]) -> path b (h :: l2) -> beside (2 * join) (pos v) (pos h).

(** The segment is a segment of a slice, up to where it ends. *)
Definition shadows (a b : vertex R) : Prop := exists i l w, path i l /\ In (a, w) (pairs l) /\ dist (pos b) (pos w) <= 3 * join.

Lemma spaced_no_repeat l : spaced (eps + 2 * join) l -> no_repeat (close_by eps) l.
Proof. intros H. apply all_pairs_no_repeat. intros (a, b) I. apply apart_not_close. apply (apart_less _ (eps + 2 * join)); [lra|]. now apply H. Qed.

Lemma two_last (l : list (vertex R)) : (2 <= length l)%nat -> exists l' k v, l = l' ++ [k; v].
Proof.
  intros L. destruct l as [|v l] using rev_ind; [cbn in L; lia|]. clear IHl. destruct l as [|k l] using rev_ind; [cbn in L; lia|]. clear IHl.
  exists l, k, v. now rewrite <- app_assoc.
Qed.

Lemma chained_clean used first c K : chained path next choice true eps used first c K ->
  exists c' cur K1 l, c = c' ++ [cur] /\ K = K1 ++ l /\ path cur l /\ no_repeat (close_by eps) K /\ (forall a b, In (a, b) (pairs K) -> shadows a b).
Proof.
  induction 1 as [l rs P R|c cur K v avail b l rs S IH CA CH P R].
  - destruct (PATH _ _ P) as (L2 & SP). pose proof (spaced_no_repeat l SP) as NR. rewrite (runs_single _ _ _ NR R).
    exists [], first, [], l. split; [reflexivity|]. split; [reflexivity|]. split; [exact P|]. split; [exact NR|].
    intros a b I. exists first, l, b. split; [exact P|]. split; [exact I|]. rewrite dist_self. lra.
  - destruct IH as (c' & cur' & K1 & lc & EC & EK & PC & NR & SH). apply app_inj_tail in EC as (<- & <-).
    destruct (PATH _ _ PC) as (L2 & SP). destruct (two_last lc L2) as (l' & k & v' & ->).
    replace (K1 ++ l' ++ [k; v']) with (((K1 ++ l') ++ [k]) ++ [v']) in EK by (rewrite <- !app_assoc; reflexivity). apply app_inj_tail in EK as (-> & <-).
    destruct (PATH _ _ P) as (M2 & SQ). destruct l as [|h l]; [cbn in M2; lia|].
    assert (KV : In (k, v) (pairs (l' ++ [k; v]))) by (rewrite pairs_app; apply in_or_app; right; left; reflexivity).
    assert (BE : beside (2 * join) (pos v) (pos h)).
    { replace (l' ++ [k; v]) with ((l' ++ [k]) ++ [v]) in PC by (rewrite <- app_assoc; reflexivity). exact (NEXT _ _ _ _ _ _ _ _ _ CA CH PC P). }
    set (A := K1 ++ l') in *. cbn iota in R.
    assert (EP : pairs ((A ++ [k]) ++ h :: l) = pairs (A ++ [k]) ++ (k, h) :: pairs (h :: l)).
    { rewrite <- app_assoc. cbn [app]. rewrite pairs_app, pairs_cons. reflexivity. }
    assert (EO : pairs ((A ++ [k]) ++ [v]) = pairs (A ++ [k]) ++ [(k, v)]).
    { rewrite <- app_assoc. cbn [app]. rewrite pairs_app. reflexivity. }
    assert (NR' : no_repeat (close_by eps) ((A ++ [k]) ++ h :: l)).
    { apply all_pairs_no_repeat. intros (x, y) I. rewrite EP in I. apply in_app_or in I as [I|[I|I]].
      - cbn [fst snd]. assert (I' : In (x, y) (pairs ((A ++ [k]) ++ [v]))) by (rewrite EO; apply in_or_app; now left).
        clear - I' NR. revert NR I'. generalize ((A ++ [k]) ++ [v]). intros m NR I. unfold pairs in I. apply In_nth_error in I as (i & Hi).
        assert (E : nth_error m i = Some x /\ nth_error m (Datatypes.S i) = Some y).
        { clear NR. revert m Hi. induction i as [|i IH]; intros [|x0 [|x1 m]] Hi; try discriminate Hi.
          - injection Hi as <- <-. auto.
          - cbn [tl] in Hi. apply (IH (x1 :: m) Hi). }
        exact (NR i x y (proj1 E) (proj2 E)).
      - injection I as <- <-. cbn [fst snd]. apply apart_not_close. apply (apart_far _ (2 * join) _ (pos v)); [|exact BE]. now apply SP.
      - cbn [fst snd]. apply apart_not_close. apply (apart_less _ (eps + 2 * join)); [lra|]. now apply SQ. }
    rewrite (runs_single _ _ _ NR' R). exists (c ++ [cur]), b, (A ++ [k]), (h :: l). split; [reflexivity|]. split; [reflexivity|]. split; [exact P|]. split; [exact NR'|].
    intros x y I. rewrite EP in I. apply in_app_or in I as [I|[I|I]].
    + apply SH. rewrite EO. apply in_or_app. now left.
    + injection I as <- <-. exists cur, (l' ++ [k; v]), v. split; [exact PC|]. split; [exact KV|].
      apply Rle_trans with (3 / 2 * (2 * join)); [|lra]. rewrite dist_sym. apply beside_dist; [lra|exact BE].
    + exists b, (h :: l), y. split; [exact P|]. split; [exact I|]. rewrite dist_self. lra.
Qed.

Lemma all_chained_clean chains Ks : all_chained path next choice true eps chains Ks -> forall K, In K Ks ->
  (2 <= length K)%nat /\ (forall a b, In (a, b) (pairs K) -> shadows a b).
Proof.
  induction 1 as [|chains Ks first c cur K AC IH NU EA CH CA]; intros K' I; [destruct I|]. apply in_app_or in I as [I|[<-|[]]]; [now apply IH|].
  destruct (chained_clean _ _ _ _ CH) as (c' & cur' & K1 & l & _ & -> & P & _ & SH). split; [|exact SH].
  destruct (PATH _ _ P) as (L & _). rewrite app_length. lia.
Qed.
End Chains.

(** ** Moved ends *)
Lemma shadow_near (a b w : vertex R) D q : Rabs (pbulge a) <= 1 -> dist (pos b) (pos w) <= D -> on_seg a b q -> exists q', on_seg a w q' /\ dist q q' <= D.
Proof.
  intros H1 HD H. destruct (seg_moves_end a w b q H1 H) as (q' & H' & L). exists q'. split; [exact H'|]. lra.
Qed.
