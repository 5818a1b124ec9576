(** What the kept pieces of a loop of lines go around (C76). *)
From Coq Require Import Reals ZArith Bool List Arith Lra Lia Psatz Permutation Sorted.
From Verif Require Import Num RNum Res ModelMath ModelSeg ModelPline ModelView.
From Verif Require Import Spec SpecPline SpecGeom SpecIntr SpecBox SpecView.
From Verif Require Import ProofR ProofBase ProofIter ProofArc ProofSlice ProofWinding2 ProofWinding6 ProofWinding7 ProofRegion ProofRegion2 ProofRegion4 ProofPolyOff ProofTarget ProofTarget2.
Import ListNotations.
Local Open Scope R_scope.

(** The loop passes [q] only once. *)
Definition lone_at (p : pline R) (q : vec2 R) : Prop := forall i j t u, point_at p i t q -> point_at p j u q -> t < 1 -> u < 1 -> i = j.

Section LineTarget.
Variables (raw : pline R) (L : list marked) (D : vec2 R -> Z) (far : vec2 R -> bool).
Hypothesis lines : forall v, In v (vtx raw) -> pbulge v = 0.
Hypothesis okp : forall v1 v2, In (v1, v2) (spec_segs (vtx raw) (is_closed raw)) -> seg_ok v1 v2 /\ pos v1 <> pos v2.
Definition piece_of (e : marked) : Prop := exists k a b t u, nth_error (spec_segs (vtx raw) (is_closed raw)) k = Some (a, b)
  /\ 0 <= t /\ t < u /\ u <= 1 /\ piece a b t u (fst (fst e)) (snd (fst e)).
Hypothesis pieces : forall e, In e L -> piece_of e.
Hypothesis cover : forall q, on_path raw q -> exists e, In e L /\ on (fst e) q.
Hypothesis once : forall L1 e L2 q, L = L1 ++ e :: L2 -> on (fst e) q -> q <> pos (fst (fst e)) -> q <> pos (snd (fst e)) -> off (L1 ++ L2) q /\ lone_at raw q.
Hypothesis marks : forall e q, In e L -> on (fst e) q -> q <> pos (fst (fst e)) -> q <> pos (snd (fst e)) -> snd e = far q.
Hypothesis Dlocal : forall x x', (forall t, 0 <= t <= 1 -> ~ on_path raw (line_pt x x' t)) -> D x = D x'.
Hypothesis Dnear : forall k a b s q, nth_error (spec_segs (vtx raw) (is_closed raw)) k = Some (a, b) -> 0 < s < 1 -> seg_at a b s q -> lone_at raw q ->
  exists r, 0 < r /\ forall x x', dist q x < r -> dist q x' < r -> ~ on_path raw x -> ~ on_path raw x' ->
    (D x' - D x = if far q then lr (a, b) x' - lr (a, b) x else 0)%Z.
Hypothesis Dfar : forall h, exists M, forall u, M <= u -> D (level h u) = 0%Z.

Lemma piece_data e : piece_of e -> exists k a b t u, nth_error (spec_segs (vtx raw) (is_closed raw)) k = Some (a, b) /\ pbulge a = 0
  /\ 0 <= t /\ t < u /\ u <= 1 /\ piece a b t u (fst (fst e)) (snd (fst e)) /\ pbulge (fst (fst e)) = 0 /\ pos a <> pos b
  /\ pos (fst (fst e)) = line_pt (pos a) (pos b) t /\ pos (snd (fst e)) = line_pt (pos a) (pos b) u.
Proof.
  intros (k & a & b & t & u & E & H0 & H1 & H2 & P). destruct (okp a b (nth_error_In _ _ E)) as (Ok & Nd).
  assert (Za : pbulge a = 0) by (apply lines; apply (spec_segs_In_both _ _ _ _ (nth_error_In _ _ E))).
  assert (Zw : pbulge (fst (fst e)) = 0) by (destruct (piece_facts a b t u _ _ Ok Nd H0 H1 H2 P) as (_ & [Z|(Z & _)]); [exact Z|contradiction]).
  exists k, a, b, t, u. split; [exact E|]. split; [exact Za|]. do 3 (split; [assumption|]). split; [exact P|]. split; [exact Zw|]. split; [exact Nd|]. split.
  - assert (S0 : seg_at a b (t + 0 * (u - t)) (pos (fst (fst e)))). { apply P. apply seg_at_line; [exact Zw|]. unfold line_pt. destruct (fst (fst e)); cbn. apply vec2_eq; cbn; ring. }
    apply seg_at_line in S0; [|exact Za]. rewrite S0. f_equal. ring.
  - assert (S1 : seg_at a b (t + 1 * (u - t)) (pos (snd (fst e)))). { apply P. apply seg_at_line; [exact Zw|]. unfold line_pt. destruct (snd (fst e)); cbn. apply vec2_eq; cbn; ring. }
    apply seg_at_line in S1; [|exact Za]. rewrite S1. f_equal. ring.
Qed.

Lemma piece_lr (e : marked) a b t u x : t < u -> pos (fst (fst e)) = line_pt (pos a) (pos b) t -> pos (snd (fst e)) = line_pt (pos a) (pos b) u -> lr (fst e) x = lr (a, b) x.
Proof.
  intros H E1 E2. unfold lr. cbn [fst snd]. assert (EP : perp (fst (fst e)) (snd (fst e)) x = (u - t) * perp a b x).
  { pose proof (f_equal vx E1) as A1. pose proof (f_equal vy E1) as A2. pose proof (f_equal vx E2) as A3. pose proof (f_equal vy E2) as A4.
    cbn [pos vx vy line_pt] in A1, A2, A3, A4. unfold perp. rewrite A1, A2, A3, A4. ring. }
  rewrite EP. destruct (Rlt_dec 0 (perp a b x)) as [G|G], (Rlt_dec 0 ((u - t) * perp a b x)) as [G'|G']; try reflexivity; exfalso.
  - apply G'. apply Rmult_lt_0_compat; lra.
  - apply G. apply (Rmult_lt_reg_l (u - t)); [lra|]. rewrite Rmult_0_r. exact G'.
Qed.

Lemma on_raw e q : In e L -> on (fst e) q -> on_path raw q.
Proof.
  intros I (s & Hs & Q). destruct (pieces e I) as (k & a & b & t & u & E & H0 & H1 & H2 & P). exists a, b. split; [eapply nth_error_In; exact E|]. apply P in Q.
  exists (t + s * (u - t)). split; [|exact Q]. assert (0 <= s * (u - t)) by (apply Rmult_le_pos; lra). assert (s * (u - t) <= 1 * (u - t)) by (apply Rmult_le_compat_r; lra). lra.
Qed.

Lemma off_raw x : off L x <-> ~ on_path raw x.
Proof.
  split; [intros H O; destruct (cover x O) as (e & I & On); exact (H e I On)|]. intros H e I On. apply H. now apply (on_raw e).
Qed.

Lemma line_okL : ok_all L.
Proof. intros e I. destruct (piece_data e (pieces e I)) as (k & a & b & t & u & _ & _ & _ & _ & _ & _ & Z & _). split; [left; exact Z|]. intros N. contradiction. Qed.

Lemma line_cross L1 e L2 q : L = L1 ++ e :: L2 -> on (fst e) q -> q <> pos (fst (fst e)) -> q <> pos (snd (fst e)) ->
  off (L1 ++ L2) q /\ exists r, 0 < r /\ forall x x', dist q x < r -> dist q x' < r -> off L x -> off L x' ->
    (D x' - D x = if snd e then lr (fst e) x' - lr (fst e) x else 0)%Z.
Proof.
  intros E On N1 N2. destruct (once L1 e L2 q E On N1 N2) as (Of & Lo). split; [exact Of|].
  assert (I : In e L) by (rewrite E; apply in_or_app; right; now left).
  destruct (piece_data e (pieces e I)) as (k & a & b & t & u & Ek & Za & H0 & H1 & H2 & P & Zw & Nd & E1 & E2). destruct On as (s & Hs & Q). apply P in Q.
  assert (Hs' : 0 < s < 1).
  { pose proof Q as Q'. apply seg_at_line in Q'; [|exact Za]. split; apply Rnot_le_lt; intros X.
    - apply N1. rewrite E1, Q'. f_equal. replace s with 0 by lra. ring.
    - apply N2. rewrite E2, Q'. f_equal. replace s with 1 by lra. ring. }
  assert (0 < s * (u - t)) by (apply Rmult_lt_0_compat; lra). assert (s * (u - t) < 1 * (u - t)) by (apply Rmult_lt_compat_r; lra).
  destruct (Dnear k a b (t + s * (u - t)) q Ek ltac:(lra) Q Lo) as (r & Hr & HD). exists r. split; [exact Hr|].
  intros x x' Dx Dx' Ox Ox'. rewrite (HD x x' Dx Dx' (proj1 (off_raw x) Ox) (proj1 (off_raw x') Ox')).
  rewrite (marks e q I); [|exists s; split; [exact Hs|apply P; exact Q]|exact N1|exact N2]. destruct (far q); [|reflexivity].
  rewrite !(piece_lr e a b t u) by assumption. reflexivity.
Qed.

Lemma line_side_level e q h : In e L -> on (fst e) q -> vy q = h -> py (fst (fst e)) <> h -> py (snd (fst e)) <> h ->
  exists r, 0 < r /\ forall u u', Rabs (u - vx q) < r -> Rabs (u' - vx q) < r -> ~ on (fst e) (level h u) -> ~ on (fst e) (level h u') ->
    (nw (level h u') (fst e) - nw (level h u) (fst e) = lr (fst e) (level h u') - lr (fst e) (level h u))%Z.
Proof.
  intros I On Ey N1 N2. destruct (piece_data e (pieces e I)) as (k & a & b & t & u & _ & _ & _ & _ & _ & _ & Z & _).
  exists 1. split; [lra|]. intros u1 u2 _ _ _ _. now apply (line_level_lr (fst e) q h).
Qed.

Lemma line_side_jump e u h : In e L -> on (fst e) (V2 u h) -> px (fst (fst e)) <> u -> px (snd (fst e)) <> u ->
  exists r, 0 < r /\ forall d, 0 < d < r -> ~ on (fst e) (V2 u (h + d)) -> ~ on (fst e) (V2 u (h - d)) ->
    (forall v, v = fst (fst e) \/ v = snd (fst e) -> py v = h \/ py v < h - d \/ h + d < py v) ->
    jump u h d (fst e) = (lr (fst e) (V2 u (h + d)%R) - lr (fst e) (V2 u (h - d)%R))%Z.
Proof.
  intros I On N1 N2. destruct (piece_data e (pieces e I)) as (k & a & b & t & u' & _ & _ & _ & _ & _ & _ & Z & _).
  exists 1. split; [lra|]. intros d Hd _ _ Hv. apply line_jump_lr; auto; lra.
Qed.

Lemma line_local x x' : (forall t, 0 <= t <= 1 -> off L (line_pt x x' t)) -> D x = D x'.
Proof. intros H. apply Dlocal. intros t Ht. apply off_raw. now apply H. Qed.

Theorem line_target x : ends_off (vy x) L -> ~ on_path raw x -> ProofRegion.kept L x = D x.
Proof.
  intros E O. apply (target_at L D lr); [exact line_side_level|exact line_side_jump|exact line_local|exact line_cross|exact Dfar|exact E|now apply off_raw].
Qed.

Theorem line_balance c : kept_ends (here c) L = 0%Z.
Proof.
  apply (point_target L D lr); [exact line_okL|exact line_side_level|exact line_side_jump|exact line_local|exact line_cross|exact Dfar].
Qed.
End LineTarget.
