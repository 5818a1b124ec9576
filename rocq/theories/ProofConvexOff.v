(** The offset of a convex polygon to its inner side (C69). *)
From Coq Require Import Reals ZArith Bool List Arith Lra Lia Psatz Classical.
From Verif Require Import Num RNum Res ModelMath ModelSeg ModelPline ModelIndex ModelOffset.
From Verif Require Import Spec SpecGeom SpecIntr SpecBox SpecBoolean SpecView SpecPrune SpecIndex SpecCuts SpecOffset SpecOffNear SpecPolyOff SpecOffsetJoin SpecJordan SpecConvex.
From Verif Require Import ProofR ProofBase ProofIter ProofArc ProofMeasure ProofPolyOff ProofPolyOff2 ProofArea6 ProofConvex.
Import ListNotations.
Local Open Scope R_scope.

Lemma with_previous_length {A} (l : list A) : length (with_previous l) = length l.
Proof. destruct l as [|x t]; [reflexivity|]. cbn [with_previous length]. rewrite combine_length. cbn [length]. lia. Qed.

Lemma combine_nth_error {A B} (l : list A) (m : list B) i x y : nth_error l i = Some x -> nth_error m i = Some y -> nth_error (combine l m) i = Some (x, y).
Proof.
  revert m i. induction l as [|a l IH]; intros m [|i]; try discriminate; destruct m as [|b m]; try discriminate; cbn.
  - now intros [= ->] [= ->].
  - apply IH.
Qed.

Lemma with_previous_next {A} (l : list A) i y : nth_error l i = Some y -> exists z, nth_error (with_previous l) ((i + 1) mod length l) = Some (y, z).
Proof.
  intros E. assert (L : (i < length l)%nat) by (apply nth_error_Some; congruence).
  destruct l as [|x t]; [cbn in L; lia|]. destruct (Nat.eq_dec (i + 1) (length (x :: t))) as [Q|Q].
  - rewrite Q, Nat.mod_same by (cbn; lia). cbn [with_previous nth_error]. exists x. f_equal. f_equal.
    assert (i = length t) by (cbn in Q; lia). subst i. clear - E. revert x E. induction t as [|b t IH]; intros x E; [cbn in *; congruence|].
    cbn in E. rewrite <- (IH b E). destruct t; [reflexivity|]. cbn [last]. clear. revert a. induction t as [|c t IH]; intros a; [reflexivity|]. exact (IH c).
  - rewrite Nat.mod_small by lia. rewrite Nat.add_1_r. cbn [with_previous nth_error].
    destruct (nth_error t i) as [z|] eqn:Et; [|exfalso; apply nth_error_None in Et; cbn in L, Q; lia].
    exists z. now apply combine_nth_error.
Qed.

Lemma with_previous_this {A} (l : list A) i y : nth_error l i = Some y -> exists x, nth_error (with_previous l) i = Some (x, y).
Proof.
  intros E. destruct l as [|x t]; [destruct i; discriminate|]. destruct i as [|i].
  - cbn in E. injection E as ->. cbn. eauto.
  - cbn [with_previous nth_error] in *. destruct (nth_error (x :: t) i) as [z|] eqn:Ez.
    + exists z. now apply combine_nth_error.
    + exfalso. apply nth_error_None in Ez. assert (i < length t)%nat by (apply nth_error_Some; congruence). cbn in Ez. lia.
Qed.

Lemma forall2_nth {A B} (P : A -> B -> Prop) l m i x y : Forall2 P l m -> nth_error l i = Some x -> nth_error m i = Some y -> P x y.
Proof.
  intros F. revert i. induction F as [|a b l m Hab F IH]; intros [|i]; try discriminate; cbn.
  - now intros [= ->] [= ->].
  - apply IH.
Qed.

Lemma forall2_length {A B} (P : A -> B -> Prop) l m : Forall2 P l m -> length l = length m.
Proof. induction 1; cbn; congruence. Qed.

Lemma normal_cross a b n : left_normal a b n -> cross (vec a b) n = dist a b.
Proof.
  intros (N1 & N2 & N3). assert (E : dist a b = sqrt (Rsqr (cross (vec a b) n))).
  { unfold dist. f_equal. unfold Rsqr, cross, vec in *. cbn [vx vy] in *.
    replace ((vx a - vx b) * (vx a - vx b) + (vy a - vy b) * (vy a - vy b)) with (((vx b - vx a) * (vx b - vx a) + (vy b - vy a) * (vy b - vy a)) * (vx n * vx n + vy n * vy n)) by (rewrite N1; ring).
    assert (N22 : ((vx b - vx a) * vx n + (vy b - vy a) * vy n) * ((vx b - vx a) * vx n + (vy b - vy a) * vy n) = 0) by (rewrite N2; ring). lra. }
  rewrite E. symmetry. apply sqrt_Rsqr. lra.
Qed.

Lemma normal_unique a b n n' : left_normal a b n -> left_normal a b n' -> n = n'.
Proof.
  intros H H'. pose proof (normal_cross a b n H) as C. pose proof (normal_cross a b n' H') as C'.
  destruct H as (N1 & N2 & N3), H' as (M1 & M2 & M3). unfold cross, vec in *. cbn [vx vy] in *.
  set (x := vx b - vx a) in *. set (y := vy b - vy a) in *.
  assert (L : 0 < dist a b) by lra. assert (LL : dist a b * dist a b = x * x + y * y).
  { unfold dist. rewrite sqrt_sqrt by (apply Rplus_le_le_0_compat; apply Rle_0_sqr). unfold x, y. ring. }
  assert (K : forall u v, x * u + y * v = 0 -> x * v - y * u = dist a b -> u = - y / dist a b /\ v = x / dist a b).
  { intros u v E1 E2. split; apply Rmult_eq_reg_r with (dist a b * dist a b); try (apply Rgt_not_eq, Rmult_lt_0_compat; lra).
    - replace (- y / dist a b * (dist a b * dist a b)) with (- y * dist a b) by (field; lra). rewrite LL, <- E2. replace (u * (x * x + y * y)) with (x * (x * u + y * v) - y * (x * v - y * u)) by ring. rewrite E1. ring.
    - replace (x / dist a b * (dist a b * dist a b)) with (x * dist a b) by (field; lra). rewrite LL, <- E2. replace (v * (x * x + y * y)) with (y * (x * u + y * v) + x * (x * v - y * u)) by ring. rewrite E1. ring. }
  destruct (K _ _ N2 C) as (X1 & Y1). destruct (K _ _ M2 C') as (X2 & Y2). apply vec2_eq; congruence.
Qed.

(** A point of the line moved by [d]. *)
Lemma moved_cross a b n d t : left_normal a b n -> cross (vec a b) (vec a (line_pt (moved a n d) (moved b n d) t)) = d * dist a b.
Proof. intros N. rewrite <- (normal_cross a b n N). unfold cross, vec, line_pt, moved. cbn [vx vy]. ring. Qed.

Section Off.
Variables (s e eps : R) (ps qs : list (vec2 R)).
Hypothesis Hs : s = 1 \/ s = -1.
Hypothesis He : 0 < e.
Hypothesis Heps : 0 < eps.
Hypothesis Cv : convex s ps.
Hypothesis Po : passes_once (polygon ps).
Hypothesis Ic : inner_corners (polygon ps) (s * e) eps qs.
Hypothesis Lq : lone_polygon eps qs.
Hypothesis Wi : forall q, In q qs -> within_by s e ps q.

Let n := length qs.
Lemma off_n3 : (3 <= n)%nat. Proof. apply Lq. Qed.

Lemma off_segs_len : length (spec_segs ps true) = n.
Proof.
  destruct Ic as (F & _). apply forall2_length in F. rewrite with_previous_length in F. unfold n. rewrite <- F.
  unfold polygon. cbn [vtx]. rewrite spec_segs_map. now rewrite map_length.
Qed.

Lemma off_ps_len : length ps = n.
Proof. pose proof off_segs_len as E. rewrite spec_segs_length in E. pose proof off_n3. destruct (Nat.ltb_spec (length ps) 2); lia. Qed.

Lemma off_qs_segs_len : length (spec_segs qs true) = n.
Proof. rewrite spec_segs_length. fold n. pose proof off_n3. destruct (Nat.ltb_spec n 2); lia. Qed.

Lemma off_vl : valid_loop (polygon ps) /\ valid_loop (polygon qs).
Proof.
  pose proof off_n3. split; (split; [|reflexivity]); unfold vertex_count, polygon; cbn [vtx]; rewrite map_length; [rewrite off_ps_len|fold n]; lia.
Qed.

Lemma off_once : passes_once (polygon qs). Proof. exact (lone_once eps qs Heps Lq). Qed.

(** Side [i] of the result is a part of the moved side [i], in the same direction. *)
Lemma off_side i a b q q' : nth_error (spec_segs ps true) i = Some (a, b) -> nth_error (spec_segs qs true) i = Some (q, q') ->
  s * cross (vec a b) (vec a q) = e * dist a b /\ exists k, 0 < k /\ vx q' - vx q = k * (vx b - vx a) /\ vy q' - vy q = k * (vy b - vy a).
Proof.
  intros Ei Eq. pose proof off_n3 as N3. assert (Li : (i < n)%nat) by (rewrite <- off_segs_len; apply nth_error_Some; congruence).
  destruct (segs_nth qs i q q' Eq) as (Q1 & Q2). fold n in Q2.
  pose proof (polygon_segs ps i) as PS. rewrite Ei in PS. cbn [option_map fst snd] in PS.
  destruct (with_previous_this _ _ _ PS) as (z & Ez). destruct (with_previous_next _ _ _ PS) as (y & Ey).
  assert (LN : length (spec_segs (vtx (polygon ps)) true) = n) by (unfold polygon; cbn [vtx]; rewrite spec_segs_map, map_length; apply off_segs_len).
  rewrite LN in Ey. destruct Ic as (F & _).
  pose proof (forall2_nth _ _ _ _ _ _ F Ez Q1) as C1. pose proof (forall2_nth _ _ _ _ _ _ F Ey Q2) as C2. cbn [fst snd] in C1, C2.
  pose proof (previous_adjacent _ _ _ (nth_error_In _ _ Ez)) as A1. pose proof (previous_adjacent _ _ _ (nth_error_In _ _ Ey)) as A2. cbn [fst snd] in A1, A2.
  rewrite A1 in C1. rewrite <- ?A2 in C2. repeat rewrite lv_pos in C1. repeat rewrite lv_pos in C2.
  destruct C1 as (n0 & n1 & t0 & u & _ & N1 & _ & Hu & _ & Eu & _).
  destruct C2 as (n1' & n2 & t & u2 & N1' & N2 & Ht & _ & Et & Eu2 & Fl).
  pose proof (normal_unique _ _ _ _ N1 N1') as <-.
  (* the next side *)
  assert (IN : exists c, In (b, c) (spec_segs ps true) /\ pos (snd y) = c).
  { assert (Iy : In y (spec_segs (vtx (polygon ps)) true)).
    { destruct (nth_error (spec_segs (vtx (polygon ps)) true) ((i + 1) mod n)) as [y'|] eqn:Ey'.
      - destruct (with_previous_this _ _ _ Ey') as (x' & Ex'). rewrite Ey in Ex'. injection Ex' as _ ->. eapply nth_error_In. exact Ey'.
      - exfalso. apply nth_error_None in Ey'. rewrite LN in Ey'. pose proof (Nat.mod_upper_bound (i + 1) n). lia. }
    destruct y as [y1 y2]. cbn [fst snd] in *. subst y1. apply (side_polygon ps) in Iy as (b' & c & I & Eb & Ec). exists c. split.
    - assert (b' = b). { rewrite <- (pos_vertex b 0), <- (pos_vertex b' 0). now rewrite <- Eb. } subst b'. exact I.
    - rewrite Ec. apply pos_vertex. }
  destruct IN as (c & Ibc & Ec). rewrite Ec in *.
  assert (S2 : s * s = 1) by (destruct Hs as [-> | ->]; ring).
  assert (Oq : s * cross (vec a b) (vec a q) = e * dist a b).
  { rewrite Eu, moved_cross by exact N1. replace (s * (s * e * dist a b)) with (s * s * (e * dist a b)) by ring. rewrite S2. ring. }
  split; [exact Oq|]. exists (t - u).
  assert (Dx : vx q' - vx q = (t - u) * (vx b - vx a)) by (rewrite Et, Eu; unfold line_pt, moved; cbn [vx vy]; ring).
  assert (Dy : vy q' - vy q = (t - u) * (vy b - vy a)) by (rewrite Et, Eu; unfold line_pt, moved; cbn [vx vy]; ring).
  split; [|auto].
  assert (Oq' : s * cross (vec b c) (vec b q') = e * dist b c).
  { rewrite Eu2, moved_cross by exact N2. replace (s * (s * e * dist b c)) with (s * s * (e * dist b c)) by ring. rewrite S2. ring. }
  pose proof (Wi q (nth_error_In _ _ Q1) b c Ibc) as W.
  assert (K : 0 <= (t - u) * (s * cross (vec a b) (vec b c))).
  { replace ((t - u) * (s * cross (vec a b) (vec b c))) with (s * cross (vec b c) (vec b q) - s * cross (vec b c) (vec b q')); [lra|].
    assert (Qx : vx q = vx q' - (t - u) * (vx b - vx a)) by lra. assert (Qy : vy q = vy q' - (t - u) * (vy b - vy a)) by lra.
    unfold cross, vec. cbn [vx vy]. rewrite Qx, Qy. ring. }
  assert (C0 : 0 < s * cross (vec a b) (vec b c)).
  { pose proof (Cv a b c (nth_error_In _ _ Ei) (proj2 (spec_segs_In_both _ _ _ _ Ibc))) as P.
    replace (cross (vec a b) (vec a c)) with (cross (vec a b) (vec b c)) in P by (unfold cross, vec; cbn [vx vy]; ring).
    destruct (Req_dec (cross (vec a b) (vec b c)) 0) as [Z|Z]; [rewrite Z, Rabs_R0 in Fl; lra|]. destruct P as [P|P]; [exact P|]. exfalso. apply Z.
    destruct Hs as [E|E]; rewrite E in P; lra. }
  destruct (Rtotal_order (t - u) 0) as [L|[Z|G]]; [|exfalso|exact G].
  - exfalso. assert (0 < (u - t) * (s * cross (vec a b) (vec b c))) by (apply Rmult_lt_0_compat; lra). lra.
  - apply (sides_apart qs off_once q q' (nth_error_In _ _ Eq)). rewrite Z in Dx, Dy. apply vec2_eq; lra.
Qed.

Lemma off_cross i a b q q' x : nth_error (spec_segs ps true) i = Some (a, b) -> nth_error (spec_segs qs true) i = Some (q, q') ->
  exists k, 0 < k /\ s * cross (vec q q') (vec q x) = k * (s * cross (vec a b) (vec a x) - e * dist a b).
Proof.
  intros Ei Eq. destruct (off_side i a b q q' Ei Eq) as (O & k & Hk & Dx & Dy). exists k. split; [exact Hk|]. rewrite <- O.
  unfold cross, vec. cbn [vx vy]. rewrite Dx, Dy. ring.
Qed.

Lemma seg_pair i : (i < n)%nat -> exists a b q q', nth_error (spec_segs ps true) i = Some (a, b) /\ nth_error (spec_segs qs true) i = Some (q, q').
Proof.
  intros Li. destruct (nth_error (spec_segs ps true) i) as [[a b]|] eqn:E1; [|apply nth_error_None in E1; rewrite off_segs_len in E1; lia].
  destruct (nth_error (spec_segs qs true) i) as [[q q']|] eqn:E2; [|apply nth_error_None in E2; rewrite off_qs_segs_len in E2; lia]. eauto 8.
Qed.

Lemma off_convex : convex s qs.
Proof.
  intros q q' c I J. apply In_nth_error in I as (i & Eq). assert (Li : (i < n)%nat) by (rewrite <- off_qs_segs_len; apply nth_error_Some; congruence).
  destruct (seg_pair i Li) as (a & b & q1 & q2 & Ei & Eq'). rewrite Eq in Eq'. injection Eq' as <- <-.
  destruct (off_cross i a b q q' c Ei Eq) as (k & Hk & ->). apply Rmult_le_pos; [lra|]. pose proof (Wi c J a b (nth_error_In _ _ Ei)). lra.
Qed.

Theorem off_region x : ~ on_path (polygon ps) x -> ~ on_path (polygon qs) x ->
  (inside (polygon qs) x = true <-> inside (polygon ps) x = true /\ forall q, on_path (polygon ps) q -> e < dist x q).
Proof.
  intros O1 O2. destruct off_vl as (V1 & V2'). rewrite (convex_inside s qs Hs off_convex V2' off_once x O2).
  assert (EQ : (forall a b, In (a, b) (spec_segs qs true) -> 0 < s * cross (vec a b) (vec a x))
    <-> forall a b, In (a, b) (spec_segs ps true) -> e * dist a b < s * cross (vec a b) (vec a x)).
  { split; intros H a b I; apply In_nth_error in I as (i & E).
    - assert (Li : (i < n)%nat) by (rewrite <- off_segs_len; apply nth_error_Some; congruence).
      destruct (seg_pair i Li) as (a' & b' & q & q' & Ei & Eq). rewrite E in Ei. injection Ei as <- <-.
      destruct (off_cross i a b q q' x E Eq) as (k & Hk & K). specialize (H q q' (nth_error_In _ _ Eq)). rewrite K in H.
      apply Rmult_lt_reg_l with k; [exact Hk|]. lra.
    - assert (Li : (i < n)%nat) by (rewrite <- off_qs_segs_len; apply nth_error_Some; congruence).
      destruct (seg_pair i Li) as (a' & b' & q & q' & Ei & Eq). rewrite E in Eq. injection Eq as <- <-.
      destruct (off_cross i a' b' a b x Ei E) as (k & Hk & ->). specialize (H a' b' (nth_error_In _ _ Ei)). apply Rmult_lt_0_compat; lra. }
  rewrite EQ. split.
  - intros H. assert (I : inside (polygon ps) x = true).
    { apply (convex_inside s ps Hs Cv V1 Po x O1). intros a b I. specialize (H a b I). pose proof (dist_pos a b (sides_apart ps Po a b I)). assert (0 < e * dist a b) by (apply Rmult_lt_0_compat; lra). lra. }
    split; [exact I|]. apply (convex_depth s ps Hs Cv V1 Po x e O1); auto; lra.
  - intros (I & D). apply (convex_depth s ps Hs Cv V1 Po x e O1); auto; lra.
Qed.

Lemma off_clear q dd : In q qs -> 0 < dd < 2 * e -> lies_clear (polygon ps) (Rabs (Rabs (s * e) - dd)) q.
Proof.
  intros I D v1 v2 x J On.
  assert (P : on_path (polygon ps) x) by (exists v1, v2; auto). apply polygon_path in P as (a & b & t & Jab & Ht & Ex).
  pose proof (Wi q I a b Jab) as W. pose proof (dist_pos a b (sides_apart ps Po a b Jab)) as L.
  pose proof (cross_dist a b q x) as CD.
  assert (E : cross (vec a b) (vec x q) = cross (vec a b) (vec a q)) by (rewrite Ex; unfold cross, vec, line_pt; cbn [vx vy]; ring).
  rewrite E in CD. assert (K : s * cross (vec a b) (vec a q) <= Rabs (cross (vec a b) (vec a q))).
  { destruct Hs as [-> | ->]; [rewrite Rmult_1_l; apply Rle_abs|]. rewrite <- Rabs_Ropp. replace (-1 * _) with (- cross (vec a b) (vec a q)) by ring. apply Rle_abs. }
  assert (e <= dist q x). { apply Rmult_le_reg_l with (dist a b); [exact L|]. lra. }
  assert (A : Rabs (s * e) = e) by (destruct Hs as [-> | ->]; [rewrite Rmult_1_l; apply Rabs_right; lra|replace (-1 * e) with (- e) by ring; rewrite Rabs_Ropp; apply Rabs_right; lra]).
  rewrite A. assert (Rabs (e - dd) < e) by (apply Rabs_def1; lra). lra.
Qed.
End Off.

Theorem convex_offset mk s ps qs e o idx : makes_index mk -> s = 1 \/ s = -1 -> 0 < e ->
  0 < oo_pos_equal_eps o -> 0 < oo_slice_join_eps o -> 0 < oo_offset_dist_eps o < 2 * e -> oo_handle_self_intersects o = false ->
  convex s ps -> passes_once (polygon ps) -> pline_index (polygon ps) idx ->
  inner_corners (polygon ps) (s * e) (oo_pos_equal_eps o) qs -> lone_polygon (oo_pos_equal_eps o) qs -> (forall q, In q qs -> within_by s e ps q) ->
  parallel_offset mk (polygon ps) idx (s * e) o = Ret [polygon qs]
  /\ forall x, ~ on_path (polygon ps) x -> ~ on_path (polygon qs) x ->
     (inside (polygon qs) x = true <-> inside (polygon ps) x = true /\ forall q, on_path (polygon ps) q -> e < dist x q).
Proof.
  intros MK Hs He E1 E2 E3 HS Cv Po PI Ic Lq Wi. split.
  - destruct qs as [|q qs']; [destruct Lq as (L & _); cbn in L; lia|].
    apply (poly_whole mk (polygon ps) idx (s * e) o (q :: qs') q); auto.
    + split; [reflexivity|]. intros v I. unfold polygon in I. cbn [vtx] in I. apply in_map_iff in I as (x & <- & _). reflexivity.
    + eapply off_clear; eauto. now left.
  - exact (off_region s e (oo_pos_equal_eps o) ps qs Hs He E1 Cv Po Ic Lq Wi).
Qed.
