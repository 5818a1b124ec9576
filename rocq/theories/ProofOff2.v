(** Where moved sides that meet are cut off, and the sides of a loop (C78). *)
From Coq Require Import Reals ZArith Bool List Arith Lra Lia Psatz Classical.
From Verif Require Import Num RNum Res ModelMath ModelSeg ModelPline.
From Verif Require Import Spec SpecPline SpecGeom SpecIntr SpecBox SpecView SpecPrune SpecBoolean SpecOffset SpecOffsetJoin SpecJordan SpecPolyOff SpecRound.
From Verif Require Import ProofR ProofArc ProofRound3 ProofWinding2 ProofWinding6 ProofWinding7 ProofNest ProofOverlap ProofJordan ProofJordan2 ProofJordan5 ProofOverlap2.
From Verif Require ProofIntr ProofMeasure.
Import ListNotations.
Local Open Scope R_scope.

Lemma normal_dir a b n : left_normal a b n -> vx n * vx n + vy n * vy n = 1 /\ 0 < dist a b /\ vx b = vx a + dist a b * vy n /\ vy b = vy a - dist a b * vx n.
Proof.
  intros (U & O & C). unfold vec, cross in *. cbn [vx vy] in *. split; [exact U|].
  set (k := (vx b - vx a) * vy n - (vy b - vy a) * vx n) in *.
  assert (X : vx b - vx a = k * vy n).
  { transitivity ((vx b - vx a) * (vx n * vx n + vy n * vy n)); [rewrite U; ring|]. transitivity (vx n * ((vx b - vx a) * vx n + (vy b - vy a) * vy n) + k * vy n); [unfold k; ring|]. rewrite O. ring. }
  assert (Y : vy b - vy a = - k * vx n).
  { transitivity ((vy b - vy a) * (vx n * vx n + vy n * vy n)); [rewrite U; ring|]. transitivity (vy n * ((vx b - vx a) * vx n + (vy b - vy a) * vy n) - k * vx n); [unfold k; ring|]. rewrite O. ring. }
  assert (D : dist a b = k).
  { unfold dist. replace ((vx a - vx b) * (vx a - vx b) + (vy a - vy b) * (vy a - vy b)) with (k * k); [apply sqrt_square; lra|].
    transitivity (k * k * (vx n * vx n + vy n * vy n)); [rewrite U; ring|]. replace (vx a - vx b) with (- (k * vy n)) by lra. replace (vy a - vy b) with (k * vx n) by lra. ring. }
  rewrite D. split; [exact C|]. split; lra.
Qed.

Lemma dist_below x y d : dist x y * dist x y < d * d -> dist x y < Rabs d.
Proof.
  intros H. apply Rsqr_incrst_0; [|apply ProofIntr.dist_pos|apply Rabs_pos]. rewrite <- Rsqr_abs. exact H.
Qed.

(** The parts of two moved lines beyond where they meet are too near to the other line. *)
Section Trim.
Variables (d : R) (a b c n n' : vec2 R) (t u : R).
Hypothesis Hn : left_normal a b n.
Hypothesis Hn' : left_normal b c n'.
Hypothesis Hd : d <> 0.
Hypothesis Ht : 0 <= t <= 1.
Hypothesis Hu : 0 <= u <= 1.
Hypothesis Eq : line_pt (moved a n d) (moved b n d) t = line_pt (moved b n' d) (moved c n' d) u.
Hypothesis Hc : cross (vec a b) (vec b c) <> 0.
Let L := dist a b.
Let L' := dist b c.
Let C := vx n * vx n' + vy n * vy n'.
Let S := vx n * vy n' - vy n * vx n'.
Let l := (1 - t) * L.
Let l' := u * L'.

Lemma trim_facts : C * C + S * S = 1 /\ l = l' /\ l * (1 + C) = d * S /\ l * S = d * (1 - C) /\ cross (vec a b) (vec b c) = L * L' * S /\ 0 < 1 + C /\ 0 < d * S /\ 0 < l /\ 0 < L /\ 0 < L'.
Proof.
  destruct (normal_dir _ _ _ Hn) as (U & PL & Bx & By). destruct (normal_dir _ _ _ Hn') as (U' & PL' & Cx & Cy). fold L in PL, Bx, By. fold L' in PL', Cx, Cy.
  assert (CS : C * C + S * S = 1).
  { transitivity ((vx n * vx n + vy n * vy n) * (vx n' * vx n' + vy n' * vy n')); [unfold C, S; ring|rewrite U, U'; ring]. }
  pose proof (f_equal vx Eq) as X. pose proof (f_equal vy Eq) as Y. unfold line_pt, moved in X, Y. cbn [vx vy] in X, Y.
  assert (X1 : - l * vy n + d * vx n = l' * vy n' + d * vx n').
  { unfold l, l'. apply (f_equal (fun v => v - vx b)) in X. rewrite Cx, Bx in X. lra. }
  assert (Y1 : l * vx n + d * vy n = - l' * vx n' + d * vy n').
  { unfold l, l'. apply (f_equal (fun v => v - vy b)) in Y. rewrite Cy, By in Y. lra. }
  assert (XC : cross (vec a b) (vec b c) = L * L' * S).
  { unfold cross, vec. cbn [vx vy]. rewrite Cx, Cy, Bx, By. unfold S. ring. }
  assert (SN : S <> 0) by (intros Z; apply Hc; rewrite XC, Z; ring).
  assert (E2 : l' * S + d * C = d).
  { transitivity (vx n * (l' * vy n' + d * vx n') + vy n * (- l' * vx n' + d * vy n')); [unfold S, C; ring|]. rewrite <- X1, <- Y1.
    transitivity (d * (vx n * vx n + vy n * vy n)); [ring|rewrite U; ring]. }
  assert (E4 : l * S + d * C = d).
  { transitivity (vx n' * (- l * vy n + d * vx n) + vy n' * (l * vx n + d * vy n)); [unfold S, C; ring|]. rewrite X1, Y1.
    transitivity (d * (vx n' * vx n' + vy n' * vy n')); [ring|rewrite U'; ring]. }
  assert (EL : l = l') by (apply Rmult_eq_reg_r with S; [lra|exact SN]).
  assert (E3 : - l * C + d * S = l').
  { transitivity (vy n' * (- l * vy n + d * vx n) - vx n' * (l * vx n + d * vy n)); [unfold S, C; ring|]. rewrite X1, Y1.
    transitivity (l' * (vx n' * vx n' + vy n' * vy n')); [ring|rewrite U'; ring]. }
  assert (C1 : 0 < 1 + C). { assert (0 < S * S) by (destruct (Rdichotomy _ _ SN); nra). destruct (Rle_dec (1 + C) 0) as [N|N]; [exfalso; nra|lra]. }
  assert (L0 : 0 <= l) by (unfold l; apply Rmult_le_pos; lra).
  assert (DS : 0 < d * S).
  { assert (0 <= d * S) by (replace (d * S) with (l * (1 + C)) by lra; apply Rmult_le_pos; lra). assert (d * S <> 0) by (intros Z; apply Rmult_integral in Z as [Z|Z]; contradiction). lra. }
  assert (LP : 0 < l). { destruct L0 as [|Z]; [assumption|]. exfalso. rewrite <- Z in E3. lra. }
  repeat split; auto; lra.
Qed.

Lemma trim s : t < s <= 1 -> exists v, 0 <= v <= 1 /\ dist (moved (line_pt a b s) n d) (line_pt b c v) < Rabs d.
Proof.
  intros Hs. destruct trim_facts as (CS & EL & E1 & E2 & _ & C1 & DS & LP & PL & PL').
  destruct (normal_dir _ _ _ Hn) as (U & _ & Bx & By). destruct (normal_dir _ _ _ Hn') as (U' & _ & Cx & Cy). fold L in Bx, By. fold L' in Cx, Cy.
  pose proof (f_equal vx Eq) as X. pose proof (f_equal vy Eq) as Y. unfold line_pt, moved in X, Y. cbn [vx vy] in X, Y.
  set (k := (s - t) * L). assert (K0 : 0 < k) by (unfold k; apply Rmult_lt_0_compat; lra).
  assert (K1 : k <= l) by (unfold k, l; apply Rmult_le_compat_r; lra).
  assert (UL : l <= L') by (rewrite EL; unfold l'; rewrite <- (Rmult_1_l L') at 2; apply Rmult_le_compat_r; lra).
  assert (Zx : vx (moved (line_pt a b s) n d) = vx b + l * vy n' + d * vx n' + k * vy n).
  { unfold moved, line_pt. cbn [vx vy]. rewrite EL. unfold l', k. rewrite Cx, Bx in X. rewrite Bx. lra. }
  assert (Zy : vy (moved (line_pt a b s) n d) = vy b - l * vx n' + d * vy n' - k * vx n).
  { unfold moved, line_pt. cbn [vx vy]. rewrite EL. unfold l', k. rewrite Cy, By in Y. rewrite By. lra. }
  assert (G : forall ph, 0 <= ph <= L' -> (l - ph) * (l - ph) + k * k + 2 * (l - ph) * k * C - 2 * d * k * S < 0 ->
    exists v, 0 <= v <= 1 /\ dist (moved (line_pt a b s) n d) (line_pt b c v) < Rabs d).
  { intros ph Hph Q. exists (ph / L'). split.
    - split; [apply Rmult_le_pos; [lra|left; now apply Rinv_0_lt_compat]|]. apply Rmult_le_reg_r with L'; [exact PL'|]. unfold Rdiv. rewrite Rmult_assoc, Rinv_l by lra. lra.
    - apply dist_below. rewrite ProofIntr.dist_sqr, Zx, Zy. unfold line_pt. cbn [vx vy]. rewrite Cx, Cy.
      replace (vx b + ph / L' * (vx b + L' * vy n' - vx b)) with (vx b + ph * vy n') by (field; lra).
      replace (vy b + ph / L' * (vy b - L' * vx n' - vy b)) with (vy b - ph * vx n') by (field; lra).
      apply Rle_lt_trans with (d * d * 1 + ((l - ph) * (l - ph) * 1 + k * k * 1 + 2 * (l - ph) * k * C - 2 * d * k * S)); [|lra].
      right. rewrite <- U' at 1 2. rewrite <- U. unfold C, S. ring. }
  destruct (Rle_dec C 0) as [N|N].
  - apply (G (l + k * C)).
    + assert (k * C <= 0) by (assert (0 <= k * - C) by (apply Rmult_le_pos; lra); lra). assert (0 <= k * (1 + C)) by (apply Rmult_le_pos; lra). lra.
    + replace (l - (l + k * C)) with (- (k * C)) by ring.
      replace (- (k * C) * - (k * C) + k * k + 2 * - (k * C) * k * C - 2 * d * k * S) with (k * (k * (1 - C * C) - 2 * (d * S))) by ring. rewrite <- E1.
      replace (k * (1 - C * C) - 2 * (l * (1 + C))) with (- ((1 + C) * (2 * l - k * (1 - C)))) by ring.
      assert (k * (1 - C) < k * 2) by (apply Rmult_lt_compat_l; lra).
      assert (0 < k * ((1 + C) * (2 * l - k * (1 - C)))) by (apply Rmult_lt_0_compat; [exact K0|apply Rmult_lt_0_compat; lra]). lra.
  - apply (G l); [lra|]. replace (l - l) with 0 by ring.
    replace (0 * 0 + k * k + 2 * 0 * k * C - 2 * d * k * S) with (k * (k - 2 * (d * S))) by ring. rewrite <- E1.
    assert (l * 1 < l * (1 + C)) by (apply Rmult_lt_compat_l; lra). assert (0 < k * (2 * (l * (1 + C)) - k)) by (apply Rmult_lt_0_compat; lra). lra.
Qed.
End Trim.

Lemma normal_back a b n : left_normal a b n -> left_normal b a (V2 (- vx n) (- vy n)).
Proof. intros (U & O & C). unfold left_normal, vec, cross in *. cbn [vx vy] in *. repeat split; lra. Qed.

Lemma moved_back p n d : moved p (V2 (- vx n) (- vy n)) (- d) = moved p n d.
Proof. unfold moved. cbn [vx vy]. apply vec2_eq; cbn [vx vy]; ring. Qed.

Lemma line_back a b t : line_pt a b t = line_pt b a (1 - t).
Proof. unfold line_pt. apply vec2_eq; cbn [vx vy]; ring. Qed.

(** The same at the start of the second line. *)
Lemma trim_start d a b c n n' t u s : left_normal a b n -> left_normal b c n' -> d <> 0 -> 0 <= t <= 1 -> 0 <= u <= 1 ->
  line_pt (moved a n d) (moved b n d) t = line_pt (moved b n' d) (moved c n' d) u -> cross (vec a b) (vec b c) <> 0 -> 0 <= s < u ->
  exists v, 0 <= v <= 1 /\ dist (moved (line_pt b c s) n' d) (line_pt a b v) < Rabs d.
Proof.
  intros N N' D T U E X Hs.
  destruct (trim (- d) c b a (V2 (- vx n') (- vy n')) (V2 (- vx n) (- vy n)) (1 - u) (1 - t)) with (s := 1 - s) as (v & Hv & Dv); try lra.
  - now apply normal_back.
  - now apply normal_back.
  - rewrite !moved_back. rewrite <- !line_back. now symmetry.
  - intros Q. apply X. unfold cross, vec in *. cbn [vx vy] in *. lra.
  - exists (1 - v). split; [lra|]. rewrite moved_back, Rabs_Ropp in Dv. rewrite (line_back b c s), (line_back a b (1 - v)). replace (1 - (1 - v)) with v by ring. exact Dv.
Qed.

(** ** Sides of a loop *)
Lemma inside_left p s t q o : pline_ok p -> valid_loop p -> passes_once p -> In s (spec_segs (vtx p) (is_closed p)) ->
  0 < t < 1 -> seg_at (fst s) (snd s) t q -> (o = 1%Z \/ o = (-1)%Z) -> (forall x, ~ on_path p x -> wn p x = 0%Z \/ wn p x = o) ->
  exists r, 0 < r /\ forall x, dist q x < r -> sideof s x <> 0 ->
    ~ on_path p x /\ (inside p x = true <-> 0 < IZR o * sideof s x).
Proof.
  intros ok vl po I Ht Sq Ho W. destruct (In_nth_error _ _ I) as (i & E).
  pose proof (len p vl) as LN. assert (Li : (i < vertex_count p)%nat) by (rewrite <- LN; apply nth_error_Some; intros Q; pose proof (eq_trans (eq_sym Q) E); discriminate).
  destruct (beside_exists p ok vl po i Li) as (c & s' & l1 & l2 & E' & El & Oth & N). pose proof (eq_trans (eq_sym E') E) as ES. injection ES as ->. clear E'.
  assert (Os : okseg s) by (apply (oks_l p ok); exact I). pose proof (differ p ok po i s E) as Ds.
  destruct (N t q Ht Sq) as (r & Hr & Nz).
  assert (On : on s q) by (exists t; split; [lra|exact Sq]).
  assert (Of : forall w, dist q w < r -> sideof s w <> 0 -> ~ on_path p w).
  { intros w Dw Sw. apply offs_path. destruct (Nz w Dw) as (Oo & _). intros u Iu. rewrite El in Iu. apply in_app_iff in Iu. cbn [In] in Iu.
    destruct Iu as [Iu|[<-|Iu]]; [apply Oo, in_app_iff; auto|intros O; apply Sw, (on_side _ _ Os O)|apply Oo, in_app_iff; auto]. }
  assert (Vl : forall w, dist q w < r -> sideof s w <> 0 -> wn p w = (c + over (sideof s w))%Z).
  { intros w Dw Sw. rewrite (wn_tot p ok vl w (Of w Dw Sw)). rewrite El. now apply (Nz w Dw). }
  destruct (sides_near s q r Os Ds (on_side _ _ Os On) Hr) as (x & y & Dx & Dy & Sx & Sy).
  pose proof (W x (Of x Dx ltac:(lra))) as Wx. pose proof (W y (Of y Dy ltac:(lra))) as Wy.
  rewrite (Vl x Dx) in Wx by lra. rewrite (Vl y Dy) in Wy by lra. unfold over in Wx, Wy.
  destruct (Rlt_dec 0 (sideof s x)), (Rlt_dec 0 (sideof s y)); try lra.
  exists r. split; [exact Hr|]. intros w Dw Sw. split; [now apply Of|]. rewrite inside_iff, (Vl w Dw Sw). unfold over.
  assert (C : (c = 0%Z /\ o = 1%Z) \/ (c = (-1)%Z /\ o = (-1)%Z)) by lia.
  destruct C as [(-> & ->)|(-> & ->)]; destruct (Rlt_dec 0 (sideof s w)); split; intros; try lra; try lia.
Qed.
