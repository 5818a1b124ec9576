(** Two inward offsets of a convex polygon one after the other are the offset by the sum (C82). *)
From Coq Require Import Reals ZArith Bool List Arith Lra Lia.
From Verif Require Import Num RNum Res ModelMath ModelSeg ModelPline ModelIndex ModelOffset.
From Verif Require Import Spec SpecGeom SpecIntr SpecBox SpecBoolean SpecView SpecPrune SpecIndex SpecCuts SpecOffset SpecOffNear SpecPolyOff SpecOffsetJoin SpecJordan SpecConvex.
From Verif Require Import ProofR ProofBase ProofIter ProofArc ProofIntr ProofIndex2 ProofPolyOff ProofPolyOff2 ProofPolyOff3 ProofCircleOff ProofArea6 ProofConvex ProofConvexOff ProofConvexEx.
Import ListNotations.
Local Open Scope R_scope.

Lemma forall2_from_nth {A B} (P : A -> B -> Prop) l m : length l = length m -> (forall i x y, nth_error l i = Some x -> nth_error m i = Some y -> P x y) -> Forall2 P l m.
Proof.
  revert m. induction l as [|a l IH]; intros [|b m] L H; try discriminate; [constructor|]. constructor; [apply (H 0%nat); reflexivity|]. apply IH; [cbn in L; lia|].
  intros i x y. apply (H (S i)).
Qed.

Lemma previous_at {A} (l : list A) i j x y : nth_error l j = Some x -> nth_error l i = Some y -> ((j + 1) mod length l = i)%nat -> nth_error (with_previous l) i = Some (x, y).
Proof.
  intros Ej Ei E. destruct (with_previous_next l j x Ej) as (z & Z). rewrite E in Z. destruct (with_previous_this l i y Ei) as (w & W). rewrite Z in W. injection W as -> ->. exact Z.
Qed.

(** The corner between sides [j] and [i]. *)
Lemma corner_at ps d eps qs i j a b b' c q : inner_corners (polygon ps) d eps qs -> nth_error (spec_segs ps true) j = Some (a, b) -> nth_error (spec_segs ps true) i = Some (b', c) ->
  ((j + 1) mod length (spec_segs ps true) = i)%nat -> nth_error qs i = Some q -> corner_met d eps a b c q.
Proof.
  intros (F & _) Ej Ei E Q. pose proof (polygon_segs ps j) as Pj. pose proof (polygon_segs ps i) as Pi_. rewrite Ej in Pj. rewrite Ei in Pi_. cbn [option_map fst snd] in Pj, Pi_.
  assert (L : length (spec_segs (vtx (polygon ps)) true) = length (spec_segs ps true)) by (unfold polygon; cbn [vtx]; rewrite spec_segs_map; apply map_length).
  rewrite <- L in E. pose proof (forall2_nth _ _ _ _ _ _ F (previous_at _ i j _ _ Pj Pi_ E) Q) as C. cbn [fst snd] in C. rewrite !lv_pos in C. exact C.
Qed.

Lemma before_in n i : (0 < n)%nat -> (i < n)%nat -> exists j, (j < n)%nat /\ ((j + 1) mod n = i)%nat.
Proof.
  intros N L. destruct i as [|i].
  - exists (n - 1)%nat. split; [lia|]. replace (n - 1 + 1)%nat with n by lia. apply Nat.mod_same. lia.
  - exists i. split; [lia|]. rewrite Nat.mod_small; lia.
Qed.

Section Compose.
Variables (s e1 e2 eps : R) (ps qs rs : list (vec2 R)).
Hypothesis Hs : s = 1 \/ s = -1.
Hypothesis He1 : 0 < e1.
Hypothesis Heps : 0 < eps.
Hypothesis Cv : convex s ps.
Hypothesis Po : passes_once (polygon ps).
Hypothesis Ic : inner_corners (polygon ps) (s * e1) eps qs.
Hypothesis Lq : lone_polygon eps qs.
Hypothesis Wi : forall q, In q qs -> within_by s e1 ps q.
Hypothesis Ir : inner_corners (polygon qs) (s * e2) eps rs.
Hypothesis Wr : forall r, In r rs -> within_by s e2 qs r.

Let n := length qs.
Let d := s * (e1 + e2).

Lemma co_n : (3 <= n)%nat. Proof. exact (off_n3 eps qs Lq). Qed.
Lemma co_ps : length (spec_segs ps true) = n. Proof. exact (off_segs_len s e1 eps ps qs Ic). Qed.
Lemma co_qs : length (spec_segs qs true) = n. Proof. exact (off_qs_segs_len eps qs Lq). Qed.
Lemma co_rs : length rs = n.
Proof.
  destruct Ir as (F & _). apply forall2_length in F. rewrite with_previous_length in F. rewrite <- F, <- co_qs.
  unfold polygon. cbn [vtx]. rewrite spec_segs_map. apply map_length.
Qed.

(** Where the ends of side [i] of the first result are along the moved side [i]. *)
Lemma co_side i a b q q' : nth_error (spec_segs ps true) i = Some (a, b) -> nth_error (spec_segs qs true) i = Some (q, q') ->
  exists m u t, left_normal a b m /\ left_normal q q' m /\ 0 <= u /\ u < t /\ t <= 1
    /\ q = line_pt (moved a m (s * e1)) (moved b m (s * e1)) u /\ q' = line_pt (moved a m (s * e1)) (moved b m (s * e1)) t.
Proof.
  intros Ei Eq. pose proof co_n as N3. pose proof co_ps as LP. assert (Li : (i < n)%nat) by (rewrite <- LP; apply nth_error_Some; congruence).
  destruct (segs_nth qs i q q' Eq) as (Q1 & Q2). fold n in Q2.
  destruct (before_in n i ltac:(lia) Li) as (j & Lj & Ej). destruct (nth_error (spec_segs ps true) j) as [[z a']|] eqn:Sj; [|apply nth_error_None in Sj; lia].
  pose proof (Nat.mod_upper_bound (i + 1) n ltac:(lia)) as Lk. destruct (nth_error (spec_segs ps true) ((i + 1) mod n)) as [[b' c]|] eqn:Sk; [|apply nth_error_None in Sk; lia].
  assert (a' = a). { destruct (segs_nth ps j z a' Sj) as (_ & A1). destruct (segs_nth ps i a b Ei) as (A2 & _). rewrite (ProofConvexOff.off_ps_len s e1 eps ps qs Ic Lq) in A1. fold n in A1. rewrite Ej in A1. congruence. } subst a'.
  pose proof (corner_at ps _ eps qs i j z a a b q Ic Sj Ei ltac:(rewrite LP; exact Ej) Q1) as C1.
  pose proof (corner_at ps _ eps qs ((i + 1) mod n)%nat i a b b' c q' Ic Ei Sk ltac:(rewrite LP; reflexivity) Q2) as C2.
  destruct C1 as (n0 & n1 & t0 & u & _ & N1 & _ & Hu & _ & Eu & _). destruct C2 as (n1' & n2 & t & u2 & N1' & N2 & Ht & _ & Et & _).
  pose proof (normal_unique _ _ _ _ N1 N1') as <-. exists n1, u, t. split; [exact N1|].
  destruct (off_side s e1 eps ps qs Hs Heps Cv Ic Lq Wi i a b q q' Ei Eq) as (_ & k & Hk & Dx & Dy).
  assert (K : t - u = k).
  { assert (X : (t - u - k) * (vx b - vx a) = 0) by (rewrite Et, Eu in Dx; unfold line_pt, moved in Dx; cbn [vx vy] in Dx; lra).
    assert (Y : (t - u - k) * (vy b - vy a) = 0) by (rewrite Et, Eu in Dy; unfold line_pt, moved in Dy; cbn [vx vy] in Dy; lra).
    apply Rmult_integral in X as [X|X]; [lra|]. apply Rmult_integral in Y as [Y|Y]; [lra|]. exfalso. apply (sides_apart ps Po a b (nth_error_In _ _ Ei)). apply vec2_eq; lra. }
  split; [|repeat split; try lra; assumption].
  destruct N1 as (A & B & C). unfold left_normal, cross, vec in *. cbn [vx vy] in *. rewrite Dx, Dy. split; [exact A|]. split.
  - transitivity (k * (vx n1 * (vx b - vx a) + vy n1 * (vy b - vy a))); [ring|]. match type of B with ?l = 0 => replace (vx n1 * (vx b - vx a) + vy n1 * (vy b - vy a)) with l by ring end. rewrite B. ring.
  - match type of C with 0 < ?l => assert (0 < k * l) by (apply Rmult_lt_0_compat; assumption) end. lra.
Qed.

Lemma co_line a b m u t x : line_pt (moved (line_pt (moved a m (s * e1)) (moved b m (s * e1)) u) m (s * e2)) (moved (line_pt (moved a m (s * e1)) (moved b m (s * e1)) t) m (s * e2)) x
  = line_pt (moved a m d) (moved b m d) (u + x * (t - u)).
Proof. unfold d, line_pt, moved. apply vec2_eq; cbn [vx vy]; ring. Qed.

Lemma co_between u t x : 0 <= u -> u < t -> t <= 1 -> 0 <= x <= 1 -> u <= u + x * (t - u) /\ u + x * (t - u) <= 1.
Proof. intros. assert (0 <= x * (t - u)) by (apply Rmult_le_pos; lra). assert (x * (t - u) <= 1 * (t - u)) by (apply Rmult_le_compat_r; lra). lra. Qed.

Lemma co_segs i : (i < n)%nat -> exists a b q q', nth_error (spec_segs ps true) i = Some (a, b) /\ nth_error (spec_segs qs true) i = Some (q, q').
Proof. intros Li. eapply (seg_pair s e1 eps ps qs); eassumption. Qed.

(** The corner [i] of the second result. *)
Lemma co_corner i j a b b' c r : nth_error (spec_segs ps true) j = Some (a, b) -> nth_error (spec_segs ps true) i = Some (b', c) -> b' = b ->
  ((j + 1) mod n = i)%nat -> nth_error rs i = Some r -> corner_met d eps a b c r.
Proof.
  intros Ej Ei -> E R_. pose proof co_ps as LP. pose proof co_qs as LQ. assert (Li : (i < n)%nat) by (rewrite <- LP; apply nth_error_Some; congruence). assert (Lj : (j < n)%nat) by (rewrite <- LP; apply nth_error_Some; congruence).
  destruct (co_segs j Lj) as (a0 & b0 & q & q' & E0 & Qj). rewrite Ej in E0. injection E0 as <- <-.
  destruct (co_segs i Li) as (a0 & b0 & q2 & q3 & E0 & Qi). rewrite Ei in E0. injection E0 as <- <-.
  assert (q2 = q'). { destruct (segs_nth qs j q q' Qj) as (_ & A1). destruct (segs_nth qs i q2 q3 Qi) as (A2 & _). fold n in A1. rewrite E in A1. congruence. } subst q2.
  assert (HQ : exists w, nth_error qs i = Some w) by (destruct (nth_error qs i) eqn:X; [eauto|apply nth_error_None in X; fold n in X; lia]). destruct HQ as (w & Hw).
  pose proof (corner_at ps _ eps qs i j a b b c w Ic Ej Ei ltac:(rewrite LP; exact E) Hw) as (_ & _ & _ & _ & _ & _ & _ & _ & _ & _ & Fl).
  pose proof (corner_at qs _ eps rs i j q q' q' q3 r Ir Qj Qi ltac:(rewrite LQ; exact E) R_) as (m & m' & x & y & M1 & M2 & Hx & Hy & Ex & Ey & _).
  destruct (co_side j a b q q' Ej Qj) as (m1 & u & t & N1 & N1' & U1 & U2 & U3 & Q1 & Q1'). destruct (co_side i b c q' q3 Ei Qi) as (m2 & u2 & t2 & N2 & N2' & V1 & V2' & V3 & Q2 & Q2').
  rewrite (normal_unique _ _ _ _ M1 N1') in *. rewrite (normal_unique _ _ _ _ M2 N2') in *.
  exists m1, m2, (u + x * (t - u)), (u2 + y * (t2 - u2)). split; [exact N1|]. split; [exact N2|].
  pose proof (co_between u t x U1 U2 U3 Hx). pose proof (co_between u2 t2 y V1 V2' V3 Hy). split; [lra|]. split; [lra|]. split; [|split; [|exact Fl]].
  - rewrite Ex. rewrite <- co_line, <- Q1, <- Q1'. reflexivity.
  - rewrite Ey. rewrite <- co_line, <- Q2, <- Q2'. reflexivity.
Qed.

Lemma co_inner : inner_corners (polygon ps) d eps rs.
Proof.
  pose proof co_n as N3. pose proof co_ps as LP. pose proof co_qs as LQ. pose proof co_rs as LR.
  assert (LS : length (spec_segs (vtx (polygon ps)) true) = n) by (unfold polygon; cbn [vtx]; rewrite spec_segs_map, map_length; exact LP).
  split; [|split].
  - apply forall2_from_nth; [rewrite with_previous_length; lia|]. intros i x r Ex Er.
    assert (Li : (i < n)%nat) by (rewrite <- LR; apply nth_error_Some; congruence).
    destruct (before_in n i ltac:(lia) Li) as (j & Lj & Ej). destruct (co_segs j Lj) as (a & b & _ & _ & Sj & _). destruct (co_segs i Li) as (b' & c & _ & _ & Si & _).
    pose proof (polygon_segs ps j) as Pj. pose proof (polygon_segs ps i) as Pi_. rewrite Sj in Pj. rewrite Si in Pi_. cbn [option_map fst snd] in Pj, Pi_.
    rewrite (previous_at _ i j _ _ Pj Pi_ ltac:(rewrite LS; exact Ej)) in Ex. injection Ex as <-. cbn [fst snd]. rewrite !lv_pos.
    apply (co_corner i j a b b' c r Sj Si); [|exact Ej|exact Er].
    destruct (segs_nth ps j a b Sj) as (_ & A1). destruct (segs_nth ps i b' c Si) as (A2 & _). rewrite (ProofConvexOff.off_ps_len s e1 eps ps qs Ic Lq) in A1. fold n in A1. rewrite Ej in A1. congruence.
  - apply Ir.
  - intros a b m r E LN ER IP. assert (S0 : nth_error (spec_segs (vtx (polygon ps)) true) 0 = Some (a, b)) by (destruct (spec_segs (vtx (polygon ps)) true); [discriminate|exact E]).
    rewrite polygon_segs in S0. destruct (co_segs 0 ltac:(lia)) as (a0 & b0 & q & q' & E0 & Q0). rewrite E0 in S0. cbn [option_map fst snd] in S0. injection S0 as <- <-. rewrite !lv_pos in *.
    destruct (co_side 0 a0 b0 q q' E0 Q0) as (m1 & u & t & N1 & N1' & U1 & U2 & U3 & Q1 & Q1'). pose proof (normal_unique _ _ _ _ LN N1) as ->.
    destruct (co_segs 1 ltac:(lia)) as (_ & _ & q2 & q3 & _ & Q4).
    pose proof (corner_at qs _ eps rs 1 0 q q' q2 q3 r Ir Q0 Q4 ltac:(rewrite LQ; apply Nat.mod_small; lia) ER) as (m & m' & x & y & M1 & _ & Hx & _ & Ex & _).
    pose proof (normal_unique _ _ _ _ M1 N1') as ->.
    destruct Ir as (_ & _ & I3). apply (I3 (vertex_at q 0) (vertex_at q' 0) m1 r).
    + pose proof (polygon_segs qs 0) as P0. rewrite Q0 in P0. cbn [option_map fst snd] in P0. destruct (spec_segs (vtx (polygon qs)) true); [discriminate|exact P0].
    + change (vertex_at q 0) with (lv q). change (vertex_at q' 0) with (lv q'). rewrite !lv_pos. exact N1'.
    + exact ER.
    + change (vertex_at q 0) with (lv q). rewrite lv_pos. rewrite Q1, Q1', co_line in Ex. destruct IP as (A & B). pose proof (co_between u t x U1 U2 U3 Hx) as (W1 & W2).
      assert (G : forall z, Rabs ((u + x * (t - u)) * z) < eps -> Rabs ((u + x * (t - u) - u) * z) < eps).
      { intros z. rewrite !Rabs_mult. rewrite (Rabs_pos_eq (u + x * (t - u))), (Rabs_pos_eq (u + x * (t - u) - u)) by lra. intros Z. apply Rle_lt_trans with (2 := Z). apply Rmult_le_compat_r; [apply Rabs_pos|lra]. }
      split.
      * replace (vx r - _) with ((u + x * (t - u) - u) * (vx b0 - vx a0)) by (rewrite Ex, Q1; unfold d, line_pt, moved; cbn [vx vy]; ring). apply G.
        replace ((u + x * (t - u)) * (vx b0 - vx a0)) with (vx r - vx (moved a0 m1 d)) by (rewrite Ex; unfold d, line_pt, moved; cbn [vx vy]; ring). exact A.
      * replace (vy r - _) with ((u + x * (t - u) - u) * (vy b0 - vy a0)) by (rewrite Ex, Q1; unfold d, line_pt, moved; cbn [vx vy]; ring). apply G.
        replace ((u + x * (t - u)) * (vy b0 - vy a0)) with (vy r - vy (moved a0 m1 d)) by (rewrite Ex; unfold d, line_pt, moved; cbn [vx vy]; ring). exact B.
Qed.

Lemma co_within r : In r rs -> within_by s (e1 + e2) ps r.
Proof.
  intros I a b J. apply In_nth_error in J as (i & Ei). assert (Li : (i < n)%nat) by (rewrite <- co_ps; apply nth_error_Some; congruence).
  destruct (co_segs i Li) as (a0 & b0 & q & q' & E0 & Qi). rewrite Ei in E0. injection E0 as <- <-.
  destruct (off_side s e1 eps ps qs Hs Heps Cv Ic Lq Wi i a b q q' Ei Qi) as (O & k & Hk & Dx & Dy).
  pose proof (Wr r I q q' (nth_error_In _ _ Qi)) as W.
  assert (D : dist q q' = k * dist a b).
  { apply Rsqr_inj; [apply sqrt_pos|apply Rmult_le_pos; [lra|apply sqrt_pos]|]. unfold Rsqr. rewrite dist_sqr. replace (k * dist a b * (k * dist a b)) with (k * k * (dist a b * dist a b)) by ring. rewrite dist_sqr.
    replace (vx q - vx q') with (- (k * (vx b - vx a))) by lra. replace (vy q - vy q') with (- (k * (vy b - vy a))) by lra. ring. }
  assert (C : s * cross (vec q q') (vec q r) = k * (s * cross (vec a b) (vec a r) - e1 * dist a b)) by (rewrite <- O; unfold cross, vec; cbn [vx vy]; rewrite Dx, Dy; ring).
  rewrite D, C in W. assert (e2 * dist a b <= s * cross (vec a b) (vec a r) - e1 * dist a b) by (apply Rmult_le_reg_l with k; [exact Hk|]; lra). lra.
Qed.
End Compose.

Theorem convex_compose mk s ps qs rs e1 e2 o idx idx' : makes_index mk -> s = 1 \/ s = -1 -> 0 < e1 -> 0 < e2 ->
  0 < oo_pos_equal_eps o -> 0 < oo_slice_join_eps o -> 0 < oo_offset_dist_eps o -> oo_offset_dist_eps o < 2 * e1 -> oo_offset_dist_eps o < 2 * e2 -> oo_handle_self_intersects o = false ->
  convex s ps -> passes_once (polygon ps) -> pline_index (polygon ps) idx -> pline_index (polygon qs) idx' ->
  inner_corners (polygon ps) (s * e1) (oo_pos_equal_eps o) qs -> lone_polygon (oo_pos_equal_eps o) qs -> (forall q, In q qs -> within_by s e1 ps q) ->
  inner_corners (polygon qs) (s * e2) (oo_pos_equal_eps o) rs -> lone_polygon (oo_pos_equal_eps o) rs -> (forall r, In r rs -> within_by s e2 qs r) ->
  parallel_offset mk (polygon ps) idx (s * e1) o = Ret [polygon qs]
  /\ parallel_offset mk (polygon qs) idx' (s * e2) o = Ret [polygon rs]
  /\ parallel_offset mk (polygon ps) idx (s * (e1 + e2)) o = Ret [polygon rs].
Proof.
  intros MK Hs H1 H2 E1 E2 E3 E4 E5 HS Cv Po PI1 PI2 Ic Lq Wi Ir Lr Wr. split; [|split].
  - apply (convex_offset mk s ps qs e1 o idx); auto.
  - apply (convex_offset mk s qs rs e2 o idx'); auto.
    + exact (off_convex s e1 (oo_pos_equal_eps o) ps qs Hs E1 Cv Ic Lq Wi).
    + exact (lone_once (oo_pos_equal_eps o) qs E1 Lq).
  - apply (convex_offset mk s ps rs (e1 + e2) o idx); auto; try lra.
    + eapply (co_inner s e1 e2 (oo_pos_equal_eps o) ps qs rs); eassumption.
    + intros r I. eapply (co_within s e1 e2 (oo_pos_equal_eps o) ps qs rs); eassumption.
Qed.

Definition tri_in2 : list (vec2 R) := [V2 (3 / 2) (3 / 2); V2 (7 / 2) (3 / 2); V2 (3 / 2) 3].

Lemma tri2_lone eps : 0 < eps <= 3 -> lone_polygon eps tri_in2.
Proof.
  intros He. split; [cbn; lia|split].
  - intros i a b c; do 3 (destruct i as [|i]; [cbn; intros [= <- <-] [= <-]; unfold cross, vec; cbn [vx vy]; rewrite Rabs_pos_eq by lra; lra|]); cbn; destruct i; discriminate.
  - intros i j a b c e; do 3 (destruct i as [|i]; [cbn -[Nat.modulo]; intros [= <- <-]; do 3 (destruct j as [|j];
      [cbn; intros [= <- <-] N1 N2 N3; exfalso; (now apply N1) || (now apply N2) || (now apply N3)|]); cbn; destruct j; discriminate|]); cbn; destruct i; discriminate.
Qed.

Lemma tri2_inner eps : 0 < eps <= 1 -> inner_corners (polygon tri_in) (1 * (1 / 2)) eps tri_in2.
Proof.
  intros He.
  assert (LN : left_normal (V2 1 1) (V2 5 1) (V2 0 1)) by (unfold left_normal, cross, vec; cbn [vx vy]; lra).
  assert (LN2 : left_normal (V2 5 1) (V2 1 4) (V2 (-3/5) (-4/5))) by (unfold left_normal, cross, vec; cbn [vx vy]; lra).
  assert (LN3 : left_normal (V2 1 4) (V2 1 1) (V2 1 0)) by (unfold left_normal, cross, vec; cbn [vx vy]; lra).
  split; [|split].
  - unfold polygon, tri_in, tri_in2. cbn [map vtx spec_segs combine tl app with_previous last].
    constructor; [|constructor; [|constructor; [|constructor]]]; cbn [fst snd]; unfold pos, vertex_at; cbn [px py vx vy].
    + exists (V2 1 0), (V2 0 1), (5/6), (1/8). split; [exact LN3|]. split; [exact LN|]. split; [lra|]. split; [lra|].
      split; [apply vec2_eq; unfold line_pt, moved; cbn [vx vy]; lra|]. split; [apply vec2_eq; unfold line_pt, moved; cbn [vx vy]; lra|].
      unfold cross, vec. cbn [vx vy]. rewrite Rabs_pos_eq; lra.
    + exists (V2 0 1), (V2 (-3/5) (-4/5)), (5/8), (3/10). split; [exact LN|]. split; [exact LN2|]. split; [lra|]. split; [lra|].
      split; [apply vec2_eq; unfold line_pt, moved; cbn [vx vy]; lra|]. split; [apply vec2_eq; unfold line_pt, moved; cbn [vx vy]; lra|].
      unfold cross, vec. cbn [vx vy]. rewrite Rabs_pos_eq; lra.
    + exists (V2 (-3/5) (-4/5)), (V2 1 0), (4/5), (1/3). split; [exact LN2|]. split; [exact LN3|]. split; [lra|]. split; [lra|].
      split; [apply vec2_eq; unfold line_pt, moved; cbn [vx vy]; lra|]. split; [apply vec2_eq; unfold line_pt, moved; cbn [vx vy]; lra|].
      unfold cross, vec. cbn [vx vy]. rewrite Rabs_pos_eq; lra.
  - unfold tri_in2. cbn [with_previous last combine].
    constructor; [|constructor; [|constructor; [|constructor]]]; cbn [fst snd]; intros (A & B); cbn [vx vy] in *; apply Rabs_def2 in A; apply Rabs_def2 in B; lra.
  - intros a b n q E N Q. cbn in E. injection E as <- <-. cbn in Q. injection Q as <-.
    change (pos (vertex_at (V2 1 1) 0)) with (V2 1 1) in *. change (pos (vertex_at (V2 5 1) 0)) with (V2 5 1) in *.
    rewrite (normal_unique _ _ _ _ N LN). intros (A & _). cbn [vx vy moved] in A. apply Rabs_def2 in A. lra.
Qed.

Lemma tri2_within q : In q tri_in2 -> within_by 1 (1 / 2) tri_in q.
Proof.
  intros J a b I.
  assert (D1 : dist (V2 1 1) (V2 5 1) = 4) by (unfold dist; cbn [vx vy]; replace (_ + _) with (4 * 4) by ring; apply sqrt_square; lra).
  assert (D2 : dist (V2 5 1) (V2 1 4) = 5) by (unfold dist; cbn [vx vy]; replace (_ + _) with (5 * 5) by ring; apply sqrt_square; lra).
  assert (D3 : dist (V2 1 4) (V2 1 1) = 3) by (unfold dist; cbn [vx vy]; replace (_ + _) with (3 * 3) by ring; apply sqrt_square; lra).
  cbn in I, J. destruct I as [I|[I|[I|[]]]]; injection I as <- <-; rewrite ?D1, ?D2, ?D3; destruct J as [<-|[<-|[<-|[]]]]; unfold cross, vec; cbn [vx vy]; lra.
Qed.

Lemma tri_compose :
  parallel_offset_constructed (@list_index R _) (polygon tri) 1 rect_ex_opts = Ret [polygon tri_in]
  /\ parallel_offset_constructed (@list_index R _) (polygon tri_in) (1 / 2) rect_ex_opts = Ret [polygon tri_in2]
  /\ parallel_offset_constructed (@list_index R _) (polygon tri) (3 / 2) rect_ex_opts = Ret [polygon tri_in2].
Proof.
  assert (K : forall idx idx', pline_index (polygon tri) idx -> pline_index (polygon tri_in) idx' ->
    parallel_offset (@list_index R _) (polygon tri) idx (1 * 1) rect_ex_opts = Ret [polygon tri_in]
    /\ parallel_offset (@list_index R _) (polygon tri_in) idx' (1 * (1 / 2)) rect_ex_opts = Ret [polygon tri_in2]
    /\ parallel_offset (@list_index R _) (polygon tri) idx (1 * (1 + 1 / 2)) rect_ex_opts = Ret [polygon tri_in2]).
  { intros idx idx' P1 P2. apply (convex_compose (@list_index R _) 1 tri tri_in tri_in2 1 (1 / 2) rect_ex_opts idx idx' list_index_ok (or_introl eq_refl)); auto using tri_convex, tri_once, tri_within, tri2_within; try (cbn; lra).
    - apply tri_inner. cbn. lra.
    - apply tri_lone; [cbn; lra|auto].
    - apply tri2_inner. cbn. lra.
    - apply tri2_lone. cbn. lra. }
  split; [exact (proj1 tri_offset)|].
  assert (I1 : forall p : pline R, exists idx, pline_index p idx) by (intros p; eexists; apply (list_index_ok)).
  split.
  - apply (offsets_to_intro (@list_index R _) _ (1 / 2) rect_ex_opts _ list_index_ok); [cbn; lia|]. intros idx' P2. destruct (I1 (polygon tri)) as (idx & P1).
    destruct (K idx idx' P1 P2) as (_ & E & _). now rewrite Rmult_1_l in E.
  - apply (offsets_to_intro (@list_index R _) _ (3 / 2) rect_ex_opts _ list_index_ok); [cbn; lia|]. intros idx P1. destruct (I1 (polygon tri_in)) as (idx' & P2).
    destruct (K idx idx' P1 P2) as (_ & _ & E). replace (1 * (1 + 1 / 2)) with (3 / 2) in E by lra. exact E.
Qed.
