(** The offset of a convex polygon to its inner side when sides vanish: the points far enough inside (C76). *)
From Coq Require Import Reals ZArith Bool List Arith Lra Lia Psatz Classical.
From Verif Require Import Num RNum Res ModelMath ModelSeg ModelPline ModelIndex ModelOffset.
From Verif Require Import Spec SpecGeom SpecIntr SpecBox SpecBoolean SpecView SpecPrune SpecIndex SpecCuts SpecOffset SpecOffNear SpecPolyOff SpecOffsetJoin SpecJordan SpecConvex.
From Verif Require Import ProofR ProofBase ProofIter ProofArc ProofIntr ProofMeasure ProofWinding2 ProofWinding7 ProofPolyOff ProofPolyOff2 ProofArea6 ProofOverlap ProofConvex ProofConvexOff ProofTarget ProofTarget6.
Import ListNotations.
Local Open Scope R_scope.

(** ** Functions that change evenly *)

Definition even (f : R -> R) : Prop := forall t, f t = (1 - t) * f 0 + t * f 1.

Lemma even_zero f : even f -> f 0 - f 1 <> 0 -> f (f 0 / (f 0 - f 1)) = 0.
Proof. intros E N. rewrite E. field. exact N. Qed.

Lemma even_between f t t' : even f -> 0 <= f 0 -> 0 <= f t' -> 0 <= t <= t' -> 0 < t' -> 0 <= f t.
Proof.
  intros E H0 H1 Ht Hp. assert (X : f t = (1 - t / t') * f 0 + t / t' * f t') by (rewrite (E t), (E t'); field; lra).
  assert (0 <= t / t' <= 1). { split; [apply Rmult_le_pos; [lra|left; now apply Rinv_0_lt_compat]|]. apply Rmult_le_reg_r with t'; [exact Hp|]. unfold Rdiv. rewrite Rmult_assoc, Rinv_l by lra. lra. }
  rewrite X. apply Rplus_le_le_0_compat; apply Rmult_le_pos; lra.
Qed.

(** Where the first of them stops being positive. *)
Lemma first_zero (l : list (R -> R)) : Forall even l -> (forall f, In f l -> 0 < f 0) ->
  (forall f, In f l -> 0 < f 1) \/ exists t f, 0 < t <= 1 /\ In f l /\ f t = 0 /\ forall g, In g l -> 0 <= g t.
Proof.
  intros EV. induction EV as [|f l Ef EV IH]; intros P; [left; intros f []|]. pose proof (proj1 (Forall_forall _ _) EV) as EVF.
  pose proof (P f (or_introl eq_refl)) as F0. specialize (IH (fun g I => P g (or_intror I))).
  destruct IH as [A|(t & g & Ht & Ig & Zg & A)].
  - destruct (Rlt_dec 0 (f 1)) as [F1|F1]; [left; intros g [<-|I]; auto|]. right.
    set (t := f 0 / (f 0 - f 1)). assert (Ht : 0 < t <= 1).
    { unfold t. split; [apply Rdiv_lt_0_compat; lra|]. apply Rmult_le_reg_r with (f 0 - f 1); [lra|]. unfold Rdiv. rewrite Rmult_assoc, Rinv_l; lra. }
    exists t, f. split; [exact Ht|]. split; [now left|]. split; [apply even_zero; [exact Ef|lra]|].
    intros g [<-|I]; [right; symmetry; apply even_zero; [exact Ef|lra]|]. specialize (P g (or_intror I)). specialize (A g I). apply (even_between g t 1); auto; lra.
  - right. destruct (Rle_dec 0 (f t)) as [F1|F1]; [exists t, g; split; [exact Ht|]; split; [now right|]; split; [exact Zg|]; intros h [<-|I]; auto|].
    set (t' := t * (f 0 / (f 0 - f t))). assert (Ht' : 0 < t' <= t).
    { unfold t'. assert (0 < f 0 / (f 0 - f t)) by (apply Rdiv_lt_0_compat; lra). assert (f 0 / (f 0 - f t) <= 1).
      { apply Rmult_le_reg_r with (f 0 - f t); [lra|]. unfold Rdiv. rewrite Rmult_assoc, Rinv_l; lra. } split; [apply Rmult_lt_0_compat; lra|].
      apply Rle_trans with (t * 1); [apply Rmult_le_compat_l; lra|lra]. }
    assert (Z : f t' = 0). { rewrite Ef. pose proof (Ef t) as Et. assert (X : f 1 = (f t - (1 - t) * f 0) / t) by (rewrite Et; field; lra). rewrite X. unfold t'. field. lra. }
    exists t', f. split; [lra|]. split; [now left|]. split; [exact Z|]. intros h [<-|I]; [lra|]. pose proof (P h (or_intror I)). apply (even_between h t' t); auto; lra.
Qed.

(** Where the first of them gets negative. *)
Lemma first_negative (l : list (R -> R)) : Forall even l -> (forall f, In f l -> 0 <= f 0) ->
  (forall f, In f l -> 0 <= f 1) \/ exists t f, 0 <= t < 1 /\ In f l /\ f t = 0 /\ f 1 < 0 /\ forall g, In g l -> 0 <= g t.
Proof.
  intros EV. induction EV as [|f l Ef EV IH]; intros P; [left; intros f []|]. pose proof (proj1 (Forall_forall _ _) EV) as EVF.
  pose proof (P f (or_introl eq_refl)) as F0. specialize (IH (fun g I => P g (or_intror I))).
  destruct IH as [A|(t & g & Ht & Ig & Zg & Ng & A)].
  - destruct (Rle_dec 0 (f 1)) as [F1|F1]; [left; intros g [<-|I]; auto|]. right.
    set (t := f 0 / (f 0 - f 1)). assert (Ht : 0 <= t < 1).
    { unfold t. split; [apply Rmult_le_pos; [lra|left; apply Rinv_0_lt_compat; lra]|]. apply Rmult_lt_reg_r with (f 0 - f 1); [lra|]. unfold Rdiv. rewrite Rmult_assoc, Rinv_l; lra. }
    exists t, f. split; [exact Ht|]. split; [now left|]. split; [apply even_zero; [exact Ef|lra]|]. split; [lra|].
    intros g [<-|I]; [right; symmetry; apply even_zero; [exact Ef|lra]|]. specialize (P g (or_intror I)). specialize (A g I). apply (even_between g t 1); auto; lra.
  - right. destruct (Rle_dec 0 (f t)) as [F1|F1]; [exists t, g; split; [exact Ht|]; split; [now right|]; split; [exact Zg|]; split; [exact Ng|]; intros h [<-|I]; auto|].
    assert (Tp : 0 < t). { destruct (Req_dec t 0) as [Z|]; [|lra]. rewrite Z in F1. contradiction. }
    set (t' := t * (f 0 / (f 0 - f t))). assert (Ht' : 0 <= t' <= t).
    { unfold t'. assert (0 <= f 0 / (f 0 - f t)) by (apply Rmult_le_pos; [lra|left; apply Rinv_0_lt_compat; lra]). assert (f 0 / (f 0 - f t) <= 1).
      { apply Rmult_le_reg_r with (f 0 - f t); [lra|]. unfold Rdiv. rewrite Rmult_assoc, Rinv_l; lra. } split; [apply Rmult_le_pos; lra|].
      apply Rle_trans with (t * 1); [apply Rmult_le_compat_l; lra|lra]. }
    assert (X : f 1 = (f t - (1 - t) * f 0) / t) by (rewrite (Ef t); field; lra).
    assert (Z : f t' = 0) by (rewrite Ef, X; unfold t'; field; lra).
    assert (N1 : f 1 < 0). { rewrite X. unfold Rdiv. assert (0 < / t) by now apply Rinv_0_lt_compat. assert (0 <= (1 - t) * f 0) by (apply Rmult_le_pos; lra).
      assert (0 < (- (f t - (1 - t) * f 0)) * / t) by (apply Rmult_lt_0_compat; lra). lra. }
    exists t', f. split; [lra|]. split; [now left|]. split; [exact Z|]. split; [exact N1|]. intros h [<-|I]; [lra|]. pose proof (P h (or_intror I)). apply (even_between h t' t); auto; lra.
Qed.

(** ** Far enough inside *)

Definition hgt (s e : R) (ab : vec2 R * vec2 R) (x : vec2 R) : R := s * cross (vec (fst ab) (snd ab)) (vec (fst ab) x) - e * dist (fst ab) (snd ab).

Lemma hgt_line s e ab x y t : hgt s e ab (line_pt x y t) = (1 - t) * hgt s e ab x + t * hgt s e ab y.
Proof. unfold hgt, cross, vec, line_pt. cbn [vx vy]. ring. Qed.

Lemma cyc_inj i j n : (i < n)%nat -> (j < n)%nat -> ((i + 1) mod n = (j + 1) mod n)%nat -> i = j.
Proof.
  intros Hi Hj E. destruct (Nat.eq_dec (i + 1) n) as [A|A], (Nat.eq_dec (j + 1) n) as [B|B]; try lia.
  - rewrite A, Nat.mod_same, Nat.mod_small in E by lia. lia.
  - rewrite B, Nat.mod_same, Nat.mod_small in E by lia. lia.
  - rewrite !Nat.mod_small in E by lia. lia.
Qed.

Section Vanish.
Variables (s e eps : R) (ps qs : list (vec2 R)).
Hypothesis Hs : s = 1 \/ s = -1.
Hypothesis He : 0 < e.
Hypothesis Heps : 0 < eps.
Hypothesis Cv : convex s ps.
Hypothesis Po : passes_once (polygon ps).
Hypothesis Ic : inner_corners (polygon ps) (s * e) eps qs.
Hypothesis N3 : (3 <= length qs)%nat.

Let n := length qs.
Local Notation sides := (spec_segs ps true).
Local Notation Hg := (hgt s e).

Lemma va_segs_len : length sides = n.
Proof.
  destruct Ic as (F & _). apply forall2_length in F. rewrite with_previous_length in F. unfold n. rewrite <- F.
  unfold polygon. cbn [vtx]. rewrite spec_segs_map. now rewrite map_length.
Qed.
Lemma va_ps_len : length ps = n.
Proof. pose proof va_segs_len as E. rewrite spec_segs_length in E. fold n in N3. destruct (Nat.ltb_spec (length ps) 2); lia. Qed.
Lemma va_qs_segs_len : length (spec_segs qs true) = n.
Proof. rewrite spec_segs_length. fold n. fold n in N3. destruct (Nat.ltb_spec n 2); lia. Qed.
Lemma va_s2 : s * s = 1. Proof. destruct Hs as [-> | ->]; ring. Qed.
Lemma va_pair i : (i < n)%nat -> exists a b q q', nth_error sides i = Some (a, b) /\ nth_error (spec_segs qs true) i = Some (q, q').
Proof.
  intros Li. destruct (nth_error sides i) as [[a b]|] eqn:E1; [|apply nth_error_None in E1; rewrite va_segs_len in E1; lia].
  destruct (nth_error (spec_segs qs true) i) as [[q q']|] eqn:E2; [|apply nth_error_None in E2; rewrite va_qs_segs_len in E2; lia]. eauto 8.
Qed.
Lemma va_len i ab : nth_error sides i = Some ab -> (i < n)%nat.
Proof. intros E. rewrite <- va_segs_len. apply nth_error_Some. congruence. Qed.
Lemma va_qlen i ab : nth_error (spec_segs qs true) i = Some ab -> (i < n)%nat.
Proof. intros E. rewrite <- va_qs_segs_len. apply nth_error_Some. congruence. Qed.

(** Side [i] of the raw offset is on the moved side [i]. *)
Lemma va_side i a b q q' : nth_error sides i = Some (a, b) -> nth_error (spec_segs qs true) i = Some (q, q') ->
  Hg (a, b) q = 0 /\ exists k, vx q' - vx q = k * (vx b - vx a) /\ vy q' - vy q = k * (vy b - vy a).
Proof.
  intros Ei Eq. pose proof (va_len _ _ Ei) as Li.
  destruct (segs_nth qs i q q' Eq) as (Q1 & Q2). fold n in Q2.
  pose proof (polygon_segs ps i) as PS. rewrite Ei in PS. cbn [option_map fst snd] in PS.
  destruct (with_previous_this _ _ _ PS) as (z & Ez). destruct (with_previous_next _ _ _ PS) as (y & Ey).
  assert (LN : length (spec_segs (vtx (polygon ps)) true) = n) by (unfold polygon; cbn [vtx]; rewrite spec_segs_map, map_length; apply va_segs_len).
  rewrite LN in Ey. destruct Ic as (F & _).
  pose proof (forall2_nth _ _ _ _ _ _ F Ez Q1) as C1. pose proof (forall2_nth _ _ _ _ _ _ F Ey Q2) as C2. cbn [fst snd] in C1, C2.
  pose proof (previous_adjacent _ _ _ (nth_error_In _ _ Ez)) as A1. pose proof (previous_adjacent _ _ _ (nth_error_In _ _ Ey)) as A2. cbn [fst snd] in A1, A2.
  rewrite A1 in C1. rewrite <- ?A2 in C2. repeat rewrite lv_pos in C1. repeat rewrite lv_pos in C2.
  destruct C1 as (n0 & n1 & t0 & u & _ & N1 & _ & Hu & _ & Eu & _).
  destruct C2 as (n1' & n2 & t & u2 & N1' & N2 & Ht & _ & Et & Eu2 & Fl).
  pose proof (normal_unique _ _ _ _ N1 N1') as <-. pose proof va_s2 as S2.
  split.
  - unfold hgt. cbn [fst snd]. rewrite Eu, moved_cross by exact N1. replace (s * (s * e * dist a b)) with (s * s * (e * dist a b)) by ring. rewrite S2. ring.
  - exists (t - u). split; rewrite Et, Eu; unfold line_pt, moved; cbn [vx vy]; ring.
Qed.

Lemma va_flat i a b c : nth_error sides i = Some (a, b) -> nth_error sides ((i + 1) mod n) = Some (b, c) -> 0 < s * cross (vec a b) (vec b c).
Proof.
  intros Ei Ej. pose proof (va_len _ _ Ei) as Li. destruct (va_pair i Li) as (a' & b' & q & q' & _ & Eq).
  destruct (segs_nth qs i q q' Eq) as (Q1 & Q2). fold n in Q2.
  pose proof (polygon_segs ps i) as PS. rewrite Ei in PS. cbn [option_map fst snd] in PS.
  destruct (with_previous_next _ _ _ PS) as (y & Ey).
  assert (LN : length (spec_segs (vtx (polygon ps)) true) = n) by (unfold polygon; cbn [vtx]; rewrite spec_segs_map, map_length; apply va_segs_len).
  rewrite LN in Ey. pose proof (polygon_segs ps ((i + 1) mod n)) as PJ. rewrite Ej in PJ. cbn [option_map fst snd] in PJ.
  destruct (with_previous_this _ _ _ PJ) as (z & Ez). rewrite Ey in Ez. injection Ez as _ ->.
  destruct Ic as (F & _). pose proof (forall2_nth _ _ _ _ _ _ F Ey Q2) as C2. cbn [fst snd] in C2. rewrite !lv_pos in C2.
  destruct C2 as (_ & _ & _ & _ & _ & _ & _ & _ & _ & _ & Fl).
  pose proof (Cv a b c (nth_error_In _ _ Ei) (proj2 (spec_segs_In_both _ _ _ _ (nth_error_In _ _ Ej)))) as P.
  replace (cross (vec a b) (vec a c)) with (cross (vec a b) (vec b c)) in P by (unfold cross, vec; cbn [vx vy]; ring).
  destruct (Req_dec (cross (vec a b) (vec b c)) 0) as [Z|Z]; [rewrite Z, Rabs_R0 in Fl; lra|]. destruct P as [P|P]; [exact P|]. exfalso. apply Z.
  destruct Hs as [E|E]; rewrite E in P; lra.
Qed.

Lemma va_next i a b : nth_error sides i = Some (a, b) -> exists c, nth_error sides ((i + 1) mod n) = Some (b, c).
Proof.
  intros Ei. pose proof (va_len _ _ Ei) as Li. fold n in N3. assert (Lj : ((i + 1) mod n < n)%nat) by (apply Nat.mod_upper_bound; lia).
  destruct (va_pair _ Lj) as (b' & c & _ & _ & Ej & _). exists c. rewrite Ej. f_equal. f_equal.
  apply segs_nth in Ei as (_ & Ei). apply segs_nth in Ej as (Ej & _). rewrite va_ps_len in Ei. congruence.
Qed.

Lemma va_prev i a b : nth_error sides i = Some (a, b) -> exists j z, ((j + 1) mod n)%nat = i /\ (j < n)%nat /\ nth_error sides j = Some (z, a).
Proof.
  intros Ei. pose proof (va_len _ _ Ei) as Li. fold n in N3.
  assert (X : exists j, (j < n)%nat /\ ((j + 1) mod n)%nat = i).
  { destruct i as [|i]; [exists (n - 1)%nat; split; [lia|]; replace (n - 1 + 1)%nat with n by lia; apply Nat.mod_same; lia|]. exists i. split; [lia|]. rewrite Nat.add_1_r. apply Nat.mod_small. lia. }
  destruct X as (j & Lj & Ej). destruct (va_pair j Lj) as (z & a' & _ & _ & E & _). exists j, z. split; [exact Ej|]. split; [exact Lj|].
  rewrite E. f_equal. f_equal. apply segs_nth in Ei as (Ei & _). apply segs_nth in E as (_ & E). rewrite va_ps_len, Ej in E. congruence.
Qed.

Lemma va_qnext i q q' : nth_error (spec_segs qs true) i = Some (q, q') -> exists q2, nth_error (spec_segs qs true) ((i + 1) mod n) = Some (q', q2).
Proof.
  intros Ei. pose proof (va_qlen _ _ Ei) as Li. fold n in N3. assert (Lj : ((i + 1) mod n < n)%nat) by (apply Nat.mod_upper_bound; lia).
  destruct (va_pair _ Lj) as (_ & _ & b' & c & _ & Ej). exists c. rewrite Ej. f_equal. f_equal.
  apply segs_nth in Ei as (_ & Ei). apply segs_nth in Ej as (Ej & _). fold n in Ei. congruence.
Qed.

Lemma va_end i a b q q' : nth_error sides i = Some (a, b) -> nth_error (spec_segs qs true) i = Some (q, q') -> Hg (a, b) q' = 0.
Proof.
  intros Ei Eq. destruct (va_side i a b q q' Ei Eq) as (Z & k & Dx & Dy). rewrite <- Z. unfold hgt, cross, vec. cbn [fst snd vx vy].
  replace (vx q') with (vx q + k * (vx b - vx a)) by lra. replace (vy q') with (vy q + k * (vy b - vy a)) by lra. ring.
Qed.

Lemma va_differ i q q' : nth_error (spec_segs qs true) i = Some (q, q') -> q <> q'.
Proof.
  intros Eq E. destruct Ic as (_ & F & _). pose proof (proj1 (Forall_forall _ _) F) as FF. destruct (segs_nth qs i q q' Eq) as (Q1 & Q2).
  destruct (with_previous_next _ _ _ Q1) as (z & Ez). destruct (with_previous_this _ _ _ Q2) as (y & Ey). rewrite Ez in Ey. injection Ey as _ ->.
  specialize (FF _ (nth_error_In _ _ Ez)). cbn [fst snd] in FF. apply FF. rewrite E. unfold is_point. rewrite !Rminus_diag_eq, Rabs_R0 by reflexivity. lra.
Qed.

Lemma va_side_differ i a b : nth_error sides i = Some (a, b) -> a <> b.
Proof. intros Ei. exact (sides_apart ps Po a b (nth_error_In _ _ Ei)). Qed.

(** A point far enough inside on the moved side [i] is on side [i] of the raw offset, which runs the same way. *)
Lemma va_on i a b q q' x : nth_error sides i = Some (a, b) -> nth_error (spec_segs qs true) i = Some (q, q') -> (forall ab, In ab sides -> 0 <= Hg ab x) -> Hg (a, b) x = 0 ->
  exists k t, 0 < k /\ vx q' - vx q = k * (vx b - vx a) /\ vy q' - vy q = k * (vy b - vy a) /\ 0 <= t <= 1 /\ x = line_pt q q' t.
Proof.
  intros Ei Eq Fx Zx. pose proof (va_side_differ _ _ _ Ei) as Nab. pose proof (va_differ _ _ _ Eq) as Nq.
  destruct (va_side i a b q q' Ei Eq) as (Z & k & Dx & Dy). pose proof (va_end i a b q q' Ei Eq) as Z'.
  destruct (va_next i a b Ei) as (c & Ec). pose proof (va_flat i a b c Ei Ec) as Fl.
  destruct (va_prev i a b Ei) as (j & z & Ej & Lj & Ez). pose proof Ei as Ei'. rewrite <- Ej in Ei'. pose proof (va_flat j z a b Ez Ei') as Fl'.
  (* the ends are on the neighbours *)
  destruct (va_qnext _ _ _ Eq) as (q2 & Eq2). destruct (va_side _ _ _ _ _ Ec Eq2) as (Zn & _).
  destruct (va_pair j Lj) as (_ & _ & q0 & q0' & _ & Eq0). destruct (va_qnext _ _ _ Eq0) as (q1 & Eq1). rewrite Ej, Eq in Eq1. injection Eq1 as <- <-.
  pose proof (va_end _ _ _ _ _ Ez Eq0) as Zp.
  (* along the line *)
  set (w := (vx b - vx a) * (vx b - vx a) + (vy b - vy a) * (vy b - vy a)).
  assert (Hw : 0 < w). { unfold w. destruct (Req_dec (vx b - vx a) 0) as [E1|E1]; [destruct (Req_dec (vy b - vy a) 0) as [E2|E2]|].
    - exfalso. apply Nab. apply vec2_eq; lra.
    - rewrite E1. assert (0 < (vy b - vy a) * (vy b - vy a)) by (apply Rsqr_pos_lt; exact E2). lra.
    - assert (0 < (vx b - vx a) * (vx b - vx a)) by (apply Rsqr_pos_lt; exact E1). assert (0 <= (vy b - vy a) * (vy b - vy a)) by apply Rle_0_sqr. lra. }
  assert (CR : (vx b - vx a) * (vy x - vy q) - (vy b - vy a) * (vx x - vx q) = 0).
  { assert (X : s * ((vx b - vx a) * (vy x - vy q) - (vy b - vy a) * (vx x - vx q)) = 0).
    { replace 0 with (Hg (a, b) x - Hg (a, b) q) by lra. unfold hgt, cross, vec. cbn [fst snd vx vy]. ring. }
    destruct Hs as [E|E]; rewrite E in X; lra. }
  set (l := ((vx b - vx a) * (vx x - vx q) + (vy b - vy a) * (vy x - vy q)) / w).
  assert (Lx : vx x = vx q + l * (vx b - vx a)).
  { apply Rmult_eq_reg_r with w; [|lra]. unfold l. replace ((vx q + ((vx b - vx a) * (vx x - vx q) + (vy b - vy a) * (vy x - vy q)) / w * (vx b - vx a)) * w)
      with (vx q * w + ((vx b - vx a) * (vx x - vx q) + (vy b - vy a) * (vy x - vy q)) * (vx b - vx a)) by (field; lra).
    unfold w. replace (vx x * _) with (vx q * ((vx b - vx a) * (vx b - vx a) + (vy b - vy a) * (vy b - vy a)) + ((vx b - vx a) * (vx x - vx q) + (vy b - vy a) * (vy x - vy q)) * (vx b - vx a) - (vy b - vy a) * ((vx b - vx a) * (vy x - vy q) - (vy b - vy a) * (vx x - vx q))) by ring.
    rewrite CR. ring. }
  assert (Ly : vy x = vy q + l * (vy b - vy a)).
  { apply Rmult_eq_reg_r with w; [|lra]. unfold l. replace ((vy q + ((vx b - vx a) * (vx x - vx q) + (vy b - vy a) * (vy x - vy q)) / w * (vy b - vy a)) * w)
      with (vy q * w + ((vx b - vx a) * (vx x - vx q) + (vy b - vy a) * (vy x - vy q)) * (vy b - vy a)) by (field; lra).
    unfold w. replace (vy x * _) with (vy q * ((vx b - vx a) * (vx b - vx a) + (vy b - vy a) * (vy b - vy a)) + ((vx b - vx a) * (vx x - vx q) + (vy b - vy a) * (vy x - vy q)) * (vy b - vy a) + (vx b - vx a) * ((vx b - vx a) * (vy x - vy q) - (vy b - vy a) * (vx x - vx q))) by ring.
    rewrite CR. ring. }
  pose proof (Fx _ (nth_error_In _ _ Ez)) as Gp. pose proof (Fx _ (nth_error_In _ _ Ec)) as Gn.
  assert (Pp : Hg (z, a) x = l * (s * cross (vec z a) (vec a b))).
  { replace (Hg (z, a) x) with (Hg (z, a) x - Hg (z, a) q) by lra. unfold hgt, cross, vec. cbn [fst snd vx vy]. rewrite Lx, Ly. ring. }
  assert (Pn : Hg (b, c) x = (k - l) * (s * cross (vec a b) (vec b c))).
  { replace (Hg (b, c) x) with (Hg (b, c) x - Hg (b, c) q') by lra. assert (Qx : vx q' = vx q + k * (vx b - vx a)) by lra. assert (Qy : vy q' = vy q + k * (vy b - vy a)) by lra.
    unfold hgt, cross, vec. cbn [fst snd vx vy]. rewrite Lx, Ly, Qx, Qy. ring. }
  assert (L0 : 0 <= l). { destruct (Rle_dec 0 l) as [|L]; [assumption|]. assert (0 < (- l) * (s * cross (vec z a) (vec a b))) by (apply Rmult_lt_0_compat; lra). lra. }
  assert (L1 : l <= k). { destruct (Rle_dec l k) as [|L]; [assumption|]. assert (0 < (l - k) * (s * cross (vec a b) (vec b c))) by (apply Rmult_lt_0_compat; lra). lra. }
  assert (K0 : k <> 0). { intros E. apply Nq. rewrite E in Dx, Dy. apply vec2_eq; lra. }
  exists k, (l / k). split; [lra|]. split; [exact Dx|]. split; [exact Dy|]. split.
  - split; [apply Rmult_le_pos; [lra|left; apply Rinv_0_lt_compat; lra]|]. apply Rmult_le_reg_r with k; [lra|]. unfold Rdiv. rewrite Rmult_assoc, Rinv_l; lra.
  - unfold line_pt. apply vec2_eq; cbn [vx vy]; rewrite ?Dx, ?Dy; [rewrite Lx|rewrite Ly]; field; exact K0.
Qed.

Definition far (x : vec2 R) : bool := forallb (fun ab => if Rle_dec 0 (Hg ab x) then true else false) sides.
Definition deep (x : vec2 R) : bool := forallb (fun ab => if Rlt_dec 0 (Hg ab x) then true else false) sides.
Definition zs : Z := if Rlt_dec 0 s then 1%Z else (-1)%Z.
Definition target (x : vec2 R) : Z := if deep x then zs else 0%Z.

Lemma far_iff x : far x = true <-> forall ab, In ab sides -> 0 <= Hg ab x.
Proof.
  unfold far. rewrite forallb_forall. split; intros A ab I; specialize (A ab I); cbv beta in *; destruct (Rle_dec 0 (Hg ab x)); auto; try discriminate; try contradiction.
Qed.
Lemma deep_iff x : deep x = true <-> forall ab, In ab sides -> 0 < Hg ab x.
Proof.
  unfold deep. rewrite forallb_forall. split; intros A ab I; specialize (A ab I); cbv beta in *; destruct (Rlt_dec 0 (Hg ab x)); auto; try discriminate; try contradiction.
Qed.
Lemma far_not x : far x = false -> exists ab, In ab sides /\ Hg ab x < 0.
Proof.
  intros F. destruct (classic (exists ab, In ab sides /\ Hg ab x < 0)) as [E|E]; [exact E|]. exfalso. assert (far x = true); [|congruence].
  apply far_iff. intros ab I. destruct (Rle_dec 0 (Hg ab x)) as [|L]; [assumption|]. exfalso. apply E. exists ab. split; [exact I|lra].
Qed.

(** On the raw offset. *)
Lemma va_path ab x : In ab sides -> far x = true -> Hg ab x = 0 -> on_path (polygon qs) x.
Proof.
  intros I F Z. apply In_nth_error in I as (i & Ei). destruct ab as [a b]. destruct (va_pair i (va_len _ _ Ei)) as (a' & b' & q & q' & Ei' & Eq).
  rewrite Ei in Ei'. injection Ei' as <- <-. destruct (va_on i a b q q' x Ei Eq (proj1 (far_iff x) F) Z) as (k & t & _ & _ & _ & Ht & E).
  apply polygon_path. exists q, q', t. split; [eapply nth_error_In; exact Eq|]. auto.
Qed.

Lemma va_evens x y : Forall even (map (fun ab t => Hg ab (line_pt x y t)) sides).
Proof.
  apply Forall_forall. intros f I. apply in_map_iff in I as (ab & <- & _). intros t. rewrite (hgt_line s e ab x y t), (hgt_line s e ab x y 0), (hgt_line s e ab x y 1). ring.
Qed.

Lemma va_deep x y : (forall t, 0 <= t <= 1 -> ~ on_path (polygon qs) (line_pt x y t)) -> deep x = true -> deep y = true.
Proof.
  intros O Dx. destruct (line_pt_ends x y) as (X0 & X1). pose proof (proj1 (deep_iff x) Dx) as P.
  destruct (first_zero _ (va_evens x y)) as [A|(t & f & Ht & I & Z & A)].
  - intros f I. apply in_map_iff in I as (ab & <- & I). cbv beta. rewrite X0. now apply P.
  - apply deep_iff. intros ab I. specialize (A _ (in_map (fun ab t => Hg ab (line_pt x y t)) _ _ I)). cbv beta in A. now rewrite X1 in A.
  - exfalso. apply in_map_iff in I as (ab & <- & I). cbv beta in Z. apply (O t); [lra|]. apply (va_path ab); [exact I| |exact Z].
    apply far_iff. intros ab' I'. exact (A _ (in_map (fun ab t => Hg ab (line_pt x y t)) _ _ I')).
Qed.

Lemma va_local x y : (forall t, 0 <= t <= 1 -> ~ on_path (polygon qs) (line_pt x y t)) -> target x = target y.
Proof.
  intros O. unfold target. assert (Q : deep x = deep y); [|now rewrite Q]. destruct (deep x) eqn:Dx.
  - symmetry. now apply (va_deep x y).
  - destruct (deep y) eqn:Dy; [|reflexivity]. rewrite <- Dx. apply (va_deep y x); [|exact Dy]. intros t Ht.
    replace (line_pt y x t) with (line_pt x y (1 - t)) by (unfold line_pt; apply vec2_eq; cbn [vx vy]; ring). apply O. lra.
Qed.

Lemma va_ends a b : (forall t, 0 < t < 1 -> far (line_pt a b t) = true) -> far a = true /\ far b = true.
Proof.
  intros F. assert (K : forall u v, (forall t, 0 < t < 1 -> 0 <= (1 - t) * u + t * v) -> 0 <= u).
  { intros u v P. destruct (Rle_dec 0 u) as [|L]; [assumption|]. exfalso. pose proof (Rabs_pos v) as Pv. pose proof (Rle_abs v) as Av.
    set (m := - u + Rabs v + 1). assert (Hm : 0 < m) by (unfold m; lra). set (t := - u / (2 * m)).
    assert (T : t * m = - u / 2) by (unfold t; field; lra).
    assert (T0 : 0 < t) by (apply Rdiv_lt_0_compat; lra). assert (T1 : t < 1). { apply Rmult_lt_reg_r with m; [exact Hm|]. rewrite T. unfold m. lra. }
    specialize (P t (conj T0 T1)). assert (t * v <= t * Rabs v) by (apply Rmult_le_compat_l; lra).
    assert (t * m = t * (- u) + t * Rabs v + t) by (unfold m; ring). lra. }
  split; apply far_iff; intros ab I.
  - apply (K _ (Hg ab b)). intros t Ht. rewrite <- hgt_line. apply far_iff; [now apply F|exact I].
  - apply (K _ (Hg ab a)). intros t Ht. replace ((1 - t) * Hg ab b + t * Hg ab a) with (Hg ab (line_pt a b (1 - t))) by (rewrite hgt_line; ring). apply far_iff; [apply F; lra|exact I].
Qed.

(** ** Places on the raw offset *)

Lemma va_point k q q' t : nth_error (spec_segs qs true) k = Some (q, q') -> 0 <= t <= 1 -> point_at (polygon qs) k t (line_pt q q' t).
Proof.
  intros E Ht. exists (lv q), (lv q'). change (is_closed (polygon qs)) with true. rewrite polygon_segs, E. split; [reflexivity|]. split; [exact Ht|].
  apply seg_at_line; [reflexivity|]. now rewrite !lv_pos.
Qed.

Lemma va_place k q q' t : nth_error (spec_segs qs true) k = Some (q, q') -> 0 <= t <= 1 ->
  exists k' t', t' < 1 /\ point_at (polygon qs) k' t' (line_pt q q' t) /\ ((t < 1 /\ k' = k /\ t' = t) \/ (t = 1 /\ k' = ((k + 1) mod n)%nat /\ t' = 0)).
Proof.
  intros E Ht. destruct (Rlt_dec t 1) as [L|L].
  - exists k, t. split; [exact L|]. split; [now apply va_point|]. left. auto.
  - assert (t = 1) by lra. subst t. destruct (va_qnext _ _ _ E) as (q2 & E2). exists ((k + 1) mod n)%nat, 0. split; [lra|]. split; [|right; auto].
    destruct (line_pt_ends q q') as (_ & ->). destruct (line_pt_ends q' q2) as (E0 & _). rewrite <- E0. apply va_point; [exact E2|lra].
Qed.

Lemma va_same k j q q' r r' t u : nth_error (spec_segs qs true) k = Some (q, q') -> nth_error (spec_segs qs true) j = Some (r, r') -> 0 <= t <= 1 -> 0 <= u <= 1 ->
  line_pt q q' t = line_pt r r' u -> lone_at (polygon qs) (line_pt q q' t) -> k <> j ->
  (t = 1 /\ j = ((k + 1) mod n)%nat /\ u = 0) \/ (u = 1 /\ k = ((j + 1) mod n)%nat /\ t = 0).
Proof.
  intros Ek Ej Ht Hu E Lo N. destruct (va_place _ _ _ _ Ek Ht) as (k1 & t1 & T1 & P1 & C1). destruct (va_place _ _ _ _ Ej Hu) as (j1 & u1 & U1 & P2 & C2).
  rewrite <- E in P2. pose proof (Lo _ _ _ _ P1 P2 T1 U1) as Q. pose proof (va_qlen _ _ Ek) as Lk. pose proof (va_qlen _ _ Ej) as Lj.
  destruct C1 as [(A1 & A2 & A3)|(A1 & A2 & A3)], C2 as [(B1 & B2 & B3)|(B1 & B2 & B3)].
  - congruence.
  - right. split; [exact B1|]. assert (X : k = ((j + 1) mod n)%nat) by congruence. split; [exact X|]. destruct (va_qnext _ _ _ Ej) as (r2 & Er). rewrite <- X, Ek in Er. injection Er as -> ->.
    destruct (line_pt_ends r' r2) as (E0 & _). destruct (line_pt_ends r r') as (_ & E1). rewrite B1, E1 in E. rewrite <- E0 in E at 2. apply line_pt_inj in E; [exact E|]. exact (va_differ _ _ _ Ek).
  - left. split; [exact A1|]. assert (X : j = ((k + 1) mod n)%nat) by congruence. split; [exact X|]. destruct (va_qnext _ _ _ Ek) as (r2 & Er). rewrite <- X, Ej in Er. injection Er as -> ->.
    destruct (line_pt_ends q' r2) as (E0 & _). destruct (line_pt_ends q q') as (_ & E1). rewrite A1, E1 in E. rewrite <- E0 in E at 1. symmetry in E. apply line_pt_inj in E; [exact E|]. exact (va_differ _ _ _ Ej).
  - exfalso. apply N. apply (cyc_inj k j n); auto. congruence.
Qed.

Lemma va_match i ab : nth_error sides i = Some ab -> exists q q', nth_error (spec_segs qs true) i = Some (q, q').
Proof. intros E. destruct (va_pair i (va_len _ _ E)) as (_ & _ & q & q' & _ & Eq). eauto. Qed.
Lemma va_match' i q : nth_error (spec_segs qs true) i = Some q -> exists a b, nth_error sides i = Some (a, b).
Proof. intros E. destruct (va_pair i (va_qlen _ _ E)) as (a & b & _ & _ & Eq & _). eauto. Qed.

(** Along a side between places where the raw offset passes once, the points are all far enough or all not. *)
Lemma va_status1 k q q' s0 s1 : nth_error (spec_segs qs true) k = Some (q, q') -> 0 <= s0 <= 1 -> 0 <= s1 <= 1 ->
  (forall t, 0 <= t <= 1 -> lone_at (polygon qs) (line_pt q q' (s0 + t * (s1 - s0)))) -> far (line_pt q q' s0) = true -> far (line_pt q q' s1) = true.
Proof.
  intros Ek H0 H1 Lo F. set (x := line_pt q q' s0). set (y := line_pt q q' s1).
  assert (XY : forall t, line_pt x y t = line_pt q q' (s0 + t * (s1 - s0))) by (intros t; unfold x, y, line_pt; apply vec2_eq; cbn [vx vy]; ring).
  destruct (line_pt_ends x y) as (X0 & X1). pose proof (proj1 (far_iff x) F) as P.
  destruct (first_negative _ (va_evens x y)) as [A|(t & f & Ht & I & Z & Neg & A)].
  - intros f I. apply in_map_iff in I as (ab & <- & I). cbv beta. rewrite X0. now apply P.
  - apply far_iff. intros ab I. specialize (A _ (in_map (fun ab t => Hg ab (line_pt x y t)) _ _ I)). cbv beta in A. now rewrite X1 in A.
  - exfalso. apply in_map_iff in I as ([c d] & <- & I). cbv beta in Z, Neg. rewrite X1 in Neg.
    set (r := s0 + t * (s1 - s0)). assert (Hr : 0 <= r <= 1).
    { unfold r. replace (s0 + t * (s1 - s0)) with ((1 - t) * s0 + t * s1) by ring. assert (0 <= (1 - t) * s0) by (apply Rmult_le_pos; lra). assert (0 <= t * s1) by (apply Rmult_le_pos; lra).
      assert ((1 - t) * s0 <= (1 - t) * 1) by (apply Rmult_le_compat_l; lra). assert (t * s1 <= t * 1) by (apply Rmult_le_compat_l; lra). lra. }
    rewrite XY in Z. fold r in Z. assert (FA : forall ab, In ab sides -> 0 <= Hg ab (line_pt q q' r)).
    { intros ab' I'. specialize (A _ (in_map (fun ab t => Hg ab (line_pt x y t)) _ _ I')). cbv beta in A. rewrite XY in A. exact A. }
    destruct (va_match' _ _ Ek) as (a & b & Ea). destruct (va_side _ _ _ _ _ Ea Ek) as (Zq & _). pose proof (va_end _ _ _ _ _ Ea Ek) as Zq'.
    assert (Zk : forall u, Hg (a, b) (line_pt q q' u) = 0) by (intros u; rewrite hgt_line, Zq, Zq'; ring).
    apply In_nth_error in I as (j & Ej). destruct (va_match _ _ Ej) as (g & g' & Eg).
    assert (N : k <> j). { intros <-. rewrite Ea in Ej. injection Ej as <- <-. unfold y in Neg. rewrite Zk in Neg. lra. }
    destruct (va_on _ _ _ _ _ _ Ej Eg FA Z) as (_ & u & _ & _ & _ & Hu & Eu).
    destruct (va_on _ _ _ _ _ _ Ea Ek FA (Zk r)) as (kk & _ & Kp & Dx & Dy & _).
    assert (Lr : lone_at (polygon qs) (line_pt q q' r)) by (apply Lo; lra).
    destruct (va_same k j q q' g g' r u Ek Eg Hr Hu Eu Lr N) as [(R1 & Jk & _)|(R1 & Jk & _)].
    + destruct (va_next _ _ _ Ea) as (c' & Ec). rewrite <- Jk, Ej in Ec. injection Ec as -> ->. pose proof Ej as Ej'. rewrite Jk in Ej'. pose proof (va_flat _ _ _ _ Ea Ej') as Fl.
      destruct (va_qnext _ _ _ Ek) as (g2 & Eg2). rewrite <- Jk, Eg in Eg2. injection Eg2 as -> ->. destruct (va_side _ _ _ _ _ Ej Eg) as (Zn & _).
      assert (V : Hg (b, c') q = kk * (s * cross (vec a b) (vec b c'))).
      { replace (Hg (b, c') q) with (Hg (b, c') q - Hg (b, c') q') by lra. assert (Qx : vx q' = vx q + kk * (vx b - vx a)) by lra. assert (Qy : vy q' = vy q + kk * (vy b - vy a)) by lra.
        unfold hgt, cross, vec. cbn [fst snd vx vy]. rewrite Qx, Qy. ring. }
      unfold y in Neg. rewrite hgt_line, V, Zn in Neg. assert (0 < kk * (s * cross (vec a b) (vec b c'))) by (apply Rmult_lt_0_compat; lra).
      assert (0 <= (1 - s1) * (kk * (s * cross (vec a b) (vec b c')))) by (apply Rmult_le_pos; lra). lra.
    + assert (Ed : d = a). { destruct (va_next _ _ _ Ej) as (c' & Ec). rewrite <- Jk, Ea in Ec. injection Ec as -> _. reflexivity. } subst d.
      pose proof Ea as Ea'. rewrite Jk in Ea'. pose proof (va_flat _ _ _ _ Ej Ea') as Fl.
      destruct (va_qnext _ _ _ Eg) as (g2 & Eg2). rewrite <- Jk, Ek in Eg2. injection Eg2 as -> ->. pose proof (va_end _ _ _ _ _ Ej Eg) as Zn.
      assert (V : Hg (c, a) g2 = kk * (s * cross (vec c a) (vec a b))).
      { replace (Hg (c, a) g2) with (Hg (c, a) g2 - Hg (c, a) g') by lra. assert (Qx : vx g2 = vx g' + kk * (vx b - vx a)) by lra. assert (Qy : vy g2 = vy g' + kk * (vy b - vy a)) by lra.
        unfold hgt, cross, vec. cbn [fst snd vx vy]. rewrite Qx, Qy. ring. }
      unfold y in Neg. rewrite hgt_line, V, Zn in Neg. assert (0 < kk * (s * cross (vec c a) (vec a b))) by (apply Rmult_lt_0_compat; lra).
      assert (0 <= s1 * (kk * (s * cross (vec c a) (vec a b)))) by (apply Rmult_le_pos; lra). lra.
Qed.

Lemma va_status k q q' s0 s1 : nth_error (spec_segs qs true) k = Some (q, q') -> 0 <= s0 -> s0 < s1 -> s1 <= 1 ->
  (forall x, s0 <= x <= s1 -> lone_at (polygon qs) (line_pt q q' x)) -> far (line_pt q q' s0) = far (line_pt q q' s1).
Proof.
  intros Ek H0 H1 H2 Lo. assert (B : forall t d, 0 <= t <= 1 -> 0 <= d -> 0 <= t * d <= d). { intros t d Ht Hd. split; [apply Rmult_le_pos; lra|]. rewrite <- (Rmult_1_l d) at 2. apply Rmult_le_compat_r; lra. }
  assert (F1 : far (line_pt q q' s0) = true -> far (line_pt q q' s1) = true).
  { apply (va_status1 k q q' s0 s1 Ek); try lra. intros t Ht. apply Lo. pose proof (B t (s1 - s0) Ht). lra. }
  assert (F2 : far (line_pt q q' s1) = true -> far (line_pt q q' s0) = true).
  { apply (va_status1 k q q' s1 s0 Ek); try lra. intros t Ht. apply Lo. pose proof (B t (s1 - s0) Ht). lra. }
  destruct (far (line_pt q q' s0)) eqn:E0, (far (line_pt q q' s1)) eqn:E1; try reflexivity; [symmetry; exact (F1 eq_refl)|exact (F2 eq_refl)].
Qed.

(** ** Near a place *)

Lemma hgt_near ab x y : Rabs (Hg ab x - Hg ab y) <= dist (fst ab) (snd ab) * dist x y.
Proof.
  replace (Hg ab x - Hg ab y) with (s * cross (vec (fst ab) (snd ab)) (vec y x)) by (unfold hgt, cross, vec; cbn [fst snd vx vy]; ring).
  rewrite Rabs_mult. replace (Rabs s) with 1; [rewrite Rmult_1_l; apply ProofConvex.cross_dist|].
  destruct Hs as [-> | ->]; [rewrite Rabs_right; lra|rewrite Rabs_left; lra].
Qed.

Lemma hgt_sign ab q : exists r, 0 < r /\ forall x, dist q x < r -> (0 < Hg ab q -> 0 < Hg ab x) /\ (Hg ab q < 0 -> Hg ab x < 0).
Proof.
  pose proof (ProofIntr.dist_pos (fst ab) (snd ab)) as Dp. destruct (Req_dec (Hg ab q) 0) as [Z|Z].
  - exists 1. split; [lra|]. intros x _. split; intros; lra.
  - pose proof (Rabs_pos_lt _ Z) as Az. exists (Rabs (Hg ab q) / (dist (fst ab) (snd ab) + 1)). split; [apply Rdiv_lt_0_compat; lra|]. intros x Hx.
    assert (X : dist q x * (dist (fst ab) (snd ab) + 1) < Rabs (Hg ab q)).
    { apply Rmult_lt_reg_r with (/ (dist (fst ab) (snd ab) + 1)); [apply Rinv_0_lt_compat; lra|]. rewrite Rmult_assoc, Rinv_r by lra. unfold Rdiv in Hx. lra. }
    pose proof (hgt_near ab q x) as L. pose proof (ProofIntr.dist_pos q x). assert (L' : Rabs (Hg ab q - Hg ab x) < Rabs (Hg ab q)) by lra. clear - L'.
    revert L'. generalize (Hg ab q) (Hg ab x). intros u v L'. unfold Rabs in L'. destruct (Rcase_abs (u - v)), (Rcase_abs u); lra.
Qed.

Lemma hgt_signs (l : list (vec2 R * vec2 R)) q : exists r, 0 < r /\ forall x ab, dist q x < r -> In ab l -> (0 < Hg ab q -> 0 < Hg ab x) /\ (Hg ab q < 0 -> Hg ab x < 0).
Proof.
  induction l as [|ab l (r & Hr & A)]; [exists 1; split; [lra|]; intros x ab _ []|].
  destruct (hgt_sign ab q) as (r1 & Hr1 & A1). exists (Rmin r r1). split; [now apply Rmin_glb_lt|]. intros x ab' Hx [<-|I].
  - apply A1. pose proof (Rmin_r r r1). lra.
  - apply A; [|exact I]. pose proof (Rmin_l r r1). lra.
Qed.

Lemma zs_cases : (s = 1 /\ zs = 1%Z) \/ (s = -1 /\ zs = (-1)%Z).
Proof. unfold zs. destruct Hs as [E|E]; [left|right]; (split; [exact E|]); rewrite E; destruct (Rlt_dec 0 _) as [L|L]; try reflexivity; exfalso; lra. Qed.

Lemma va_near k a b t q : nth_error (spec_segs (vtx (polygon qs)) true) k = Some (a, b) -> 0 < t < 1 -> seg_at a b t q -> lone_at (polygon qs) q ->
  exists r, 0 < r /\ forall x x', dist q x < r -> dist q x' < r -> ~ on_path (polygon qs) x -> ~ on_path (polygon qs) x' ->
    (target x' - target x = if far q then lr (a, b) x' - lr (a, b) x else 0)%Z.
Proof.
  intros Ek Ht At Lo. rewrite polygon_segs in Ek. destruct (nth_error (spec_segs qs true) k) as [[g g']|] eqn:Eg; [|discriminate]. cbn [option_map fst snd] in Ek. injection Ek as <- <-.
  apply seg_at_line in At; [|reflexivity]. rewrite !lv_pos in At. destruct (hgt_signs sides q) as (r & Hr & A). exists r. split; [exact Hr|]. intros x x' Hx Hx' Ox Ox'.
  destruct (far q) eqn:Fq.
  - destruct (va_match' _ _ Eg) as (c & d & Ec). destruct (va_side _ _ _ _ _ Ec Eg) as (Zq & _). pose proof (va_end _ _ _ _ _ Ec Eg) as Zq'.
    assert (Zk : Hg (c, d) q = 0) by (rewrite At, hgt_line, Zq, Zq'; ring). pose proof (proj1 (far_iff q) Fq) as FA.
    destruct (va_on _ _ _ _ _ _ Ec Eg FA Zk) as (kk & _ & Kp & Dx & Dy & _).
    assert (Others : forall ab, In ab sides -> ab = (c, d) \/ 0 < Hg ab q).
    { intros [c' d'] I. destruct (FA _ I) as [P|Z]; [now right|]. left. apply In_nth_error in I as (j & Ej). destruct (Nat.eq_dec k j) as [<-|N]; [congruence|]. exfalso.
      destruct (va_match _ _ Ej) as (h & h' & Eh). destruct (va_on _ _ _ _ _ _ Ej Eh FA (eq_sym Z)) as (_ & u & _ & _ & _ & Hu & Eu).
      assert (Hte : 0 <= t <= 1) by lra. assert (Eq : line_pt g g' t = line_pt h h' u) by congruence. rewrite At in Lo.
      destruct (va_same k j g g' h h' t u Eg Eh Hte Hu Eq Lo N) as [(X & _)|(_ & _ & X)]; lra. }
    assert (S1 : forall y, dist q y < r -> ~ on_path (polygon qs) y -> Hg (c, d) y <> 0 /\ (deep y = true <-> 0 < Hg (c, d) y)).
    { intros y Hy Oy. assert (Dp : 0 <= Hg (c, d) y -> far y = true).
      { intros P. apply far_iff. intros ab I. destruct (Others ab I) as [-> |Q]; [exact P|]. left. now apply (A y ab Hy I). }
      split; [intros Z; apply Oy; apply (va_path (c, d)); [eapply nth_error_In; exact Ec|apply Dp; lra|exact Z]|]. rewrite deep_iff. split.
      - intros P. apply P. eapply nth_error_In; exact Ec.
      - intros P ab I. destruct (Others ab I) as [-> |Q]; [exact P|]. now apply (A y ab Hy I). }
    assert (Pp : forall y, s * perp (lv g) (lv g') y = kk * Hg (c, d) y).
    { intros y. replace (kk * Hg (c, d) y) with (kk * (Hg (c, d) y - Hg (c, d) g)) by (rewrite Zq; ring). unfold perp, hgt, cross, vec, lv, vertex_at. cbn [fst snd vx vy px py]. rewrite Dx, Dy. ring. }
    assert (T : forall y, dist q y < r -> ~ on_path (polygon qs) y -> (target y = lr (lv g, lv g') y + (if Rlt_dec 0 s then 0 else -1))%Z).
    { intros y Hy Oy. destruct (S1 y Hy Oy) as (Nz & Dq). specialize (Pp y). unfold target, lr. cbn [fst snd].
      assert (Q : 0 < Hg (c, d) y <-> 0 < kk * Hg (c, d) y). { split; intros Q; [apply Rmult_lt_0_compat; lra|]. apply Rmult_lt_reg_l with kk; lra. }
      assert (Q0 : kk * Hg (c, d) y <> 0) by (apply Rmult_integral_contrapositive; split; [lra|exact Nz]).
      set (hh := kk * Hg (c, d) y) in *.
      destruct zs_cases as [(Es & Ez)|(Es & Ez)]; rewrite Ez; rewrite Es in Pp at 1.
      - destruct (Rlt_dec 0 s) as [_|L]; [|exfalso; lra]. destruct (deep y) eqn:Dy'.
        + pose proof (proj1 Q (proj1 Dq eq_refl)). destruct (Rlt_dec 0 (perp (lv g) (lv g') y)) as [_|L]; [reflexivity|exfalso; lra].
        + destruct (Rlt_dec 0 (perp (lv g) (lv g') y)) as [L|L]; [|reflexivity]. exfalso. assert (X : 0 < hh) by lra. apply Q, Dq in X. discriminate.
      - destruct (Rlt_dec 0 s) as [L|_]; [exfalso; lra|]. destruct (deep y) eqn:Dy'.
        + pose proof (proj1 Q (proj1 Dq eq_refl)). destruct (Rlt_dec 0 (perp (lv g) (lv g') y)) as [L|_]; [exfalso; lra|reflexivity].
        + destruct (Rlt_dec 0 (perp (lv g) (lv g') y)) as [_|L]; [reflexivity|]. exfalso. assert (X : 0 < hh) by lra. apply Q, Dq in X. discriminate. }
    rewrite (T x Hx Ox), (T x' Hx' Ox'). ring.
  - destruct (far_not q Fq) as (ab & I & Neg). assert (T : forall y, dist q y < r -> target y = 0%Z).
    { intros y Hy. unfold target. destruct (deep y) eqn:Dy; [|reflexivity]. exfalso. pose proof (proj1 (deep_iff y) Dy ab I). pose proof (proj2 (A y ab Hy I) Neg). lra. }
    rewrite (T x Hx), (T x' Hx'). reflexivity.
Qed.

(** ** Far away, and clear of the polygon *)

Lemma va_vl : valid_loop (polygon ps).
Proof. split; [|reflexivity]. unfold vertex_count, polygon. cbn [vtx]. rewrite map_length, va_ps_len. fold n in N3. lia. Qed.

Lemma far_off x : far x = true -> ~ on_path (polygon ps) x.
Proof.
  intros F O. apply polygon_path in O as (a & b & t & I & Ht & ->). pose proof (proj1 (far_iff _) F _ I) as P. pose proof (ProofConvex.dist_pos a b (sides_apart ps Po a b I)) as L.
  unfold hgt in P. cbn [fst snd] in P. rewrite ProofConvex.cross_line in P. destruct (ProofConvex.cross_at a b) as (C1 & C2). rewrite C1, C2 in P.
  assert (0 < e * dist a b) by (apply Rmult_lt_0_compat; lra). lra.
Qed.

Lemma deep_far x : deep x = true -> far x = true.
Proof. intros D. apply far_iff. intros ab I. left. exact (proj1 (deep_iff x) D ab I). Qed.

Lemma deep_inside x : deep x = true <-> ~ on_path (polygon ps) x /\ inside (polygon ps) x = true /\ forall q, on_path (polygon ps) q -> e < dist x q.
Proof.
  split.
  - intros D. pose proof (far_off x (deep_far x D)) as O. split; [exact O|]. pose proof (proj1 (deep_iff x) D) as P.
    assert (I : inside (polygon ps) x = true).
    { apply (convex_inside s ps Hs Cv va_vl Po x O). intros a b I. specialize (P _ I). unfold hgt in P. cbn [fst snd] in P. pose proof (ProofConvex.dist_pos a b (sides_apart ps Po a b I)) as L.
      assert (0 < e * dist a b) by (apply Rmult_lt_0_compat; lra). lra. }
    split; [exact I|]. apply (convex_depth s ps Hs Cv va_vl Po x e O); auto; [lra|]. intros a b J. specialize (P _ J). unfold hgt in P. cbn [fst snd] in P. lra.
  - intros (O & I & D). apply deep_iff. intros [a b] J. unfold hgt. cbn [fst snd]. pose proof (proj1 (convex_depth s ps Hs Cv va_vl Po x e O (Rlt_le _ _ He) I) D a b J). lra.
Qed.

Lemma va_far h : exists M, forall u, M <= u -> target (V2 u h) = 0%Z.
Proof.
  destruct (polygon_bounded ps) as (M & B). exists M. intros u Hu. unfold target. destruct (deep (V2 u h)) eqn:D; [|reflexivity]. exfalso.
  apply deep_inside in D as (_ & I & _). apply inside_iff in I. apply I. apply (far_outside _ M); auto using polygon_ok, va_vl.
Qed.

Lemma far_dist q x : far q = true -> on_path (polygon ps) x -> e <= dist q x.
Proof.
  intros F P. apply polygon_path in P as (a & b & t & Jab & Ht & Ex).
  pose proof (proj1 (far_iff q) F _ Jab) as W. unfold hgt in W. cbn [fst snd] in W. pose proof (ProofConvex.dist_pos a b (sides_apart ps Po a b Jab)) as L.
  pose proof (ProofConvex.cross_dist a b q x) as CD.
  assert (E : cross (vec a b) (vec x q) = cross (vec a b) (vec a q)) by (rewrite Ex; unfold cross, vec, line_pt; cbn [vx vy]; ring).
  rewrite E in CD. assert (K : s * cross (vec a b) (vec a q) <= Rabs (cross (vec a b) (vec a q))).
  { destruct Hs as [-> | ->]; [rewrite Rmult_1_l; apply Rle_abs|]. rewrite <- Rabs_Ropp. replace (-1 * _) with (- cross (vec a b) (vec a q)) by ring. apply Rle_abs. }
  apply Rmult_le_reg_l with (dist a b); [exact L|]. lra.
Qed.

Lemma va_abs : Rabs (s * e) = e.
Proof. destruct Hs as [-> | ->]; [rewrite Rmult_1_l; apply Rabs_right; lra|replace (-1 * e) with (- e) by ring; rewrite Rabs_Ropp; apply Rabs_right; lra]. Qed.

Lemma va_polygon : is_polygon (polygon ps).
Proof. split; [reflexivity|]. intros v I. unfold polygon in I. cbn [vtx] in I. apply in_map_iff in I as (x & <- & _). reflexivity. Qed.

Lemma va_clear q o : oo_pos_equal_eps o = eps -> 0 < oo_offset_dist_eps o < 2 * e -> far q = true -> clear_point (polygon ps) (s * e) o q.
Proof.
  intros Eo D F. apply clear_lies; [exact va_polygon|lra|]. intros v1 v2 x J On.
  assert (P : on_path (polygon ps) x) by (exists v1, v2; auto). pose proof (far_dist q x F P). rewrite va_abs.
  assert (Rabs (e - oo_offset_dist_eps o) < e) by (apply Rabs_def1; lra). lra.
Qed.

Lemma va_clear_seg o w1 w2 : oo_pos_equal_eps o = eps -> eps <= e -> (forall a b, In (a, b) sides -> eps <= e * dist a b) -> pbulge w1 = 0 ->
  far (pos w1) = true -> far (pos w2) = true -> clear_seg (polygon ps) o w1 w2.
Proof.
  intros Eo Le Ls Z F1 F2 v1 v2 I _. apply side_polygon in I as (a & b & I & -> & ->). apply lines_apart; [lra|exact Z|reflexivity|]. right. rewrite !pos_vertex, Eo.
  exists s. split; [exact Hs|]. intros w Hw. assert (F : far w = true) by (destruct Hw; subst; assumption). pose proof (proj1 (far_iff w) F _ I) as P. unfold hgt in P. cbn [fst snd] in P.
  specialize (Ls a b I). pose proof (ProofIntr.dist_pos a b). assert (eps * dist a b <= e * dist a b) by (apply Rmult_le_compat_r; lra). lra.
Qed.
End Vanish.
