(** Around a vertex, and all around a loop that passes no point twice (C64). *)
From Coq Require Import Reals ZArith Bool List Arith Lra Lia Psatz Classical.
From Verif Require Import Num RNum Res ModelMath ModelSeg ModelPline Spec SpecGeom SpecBox SpecWinding SpecView SpecBoolean SpecJordan.
From Verif Require Import ProofR ProofBase ProofIter ProofArc ProofArc2 ProofSlice ProofMeasure ProofWalk ProofIntr ProofWinding ProofWinding2 ProofWinding3 ProofWinding4 ProofWinding6 ProofWinding7 ProofSegIntr5 ProofPolyOff2 ProofNest ProofJordan ProofJordan2 ProofJordan3.
From Verif Require ProofRegion11.
Import ListNotations.
Local Open Scope R_scope.

Lemma tot_curve l (x y : R -> R) a b : oks l -> looped l -> continuity x -> continuity y -> a <= b ->
  (forall t, a <= t <= b -> offs l (V2 (x t) (y t))) -> tot l (V2 (x a) (y a)) = tot l (V2 (x b) (y b)).
Proof.
  intros Ok Lp Cx Cy L Off. set (g := fun u => a + u * (b - a)).
  assert (Gr : forall u, 0 <= u <= 1 -> a <= g u <= b).
  { intros u Hu. unfold g. assert (0 <= u * (b - a)) by (apply Rmult_le_pos; lra). assert (u * (b - a) <= 1 * (b - a)) by (apply Rmult_le_compat_r; lra). lra. }
  assert (E : tot l (V2 (x (g 0)) (y (g 0))) = tot l (V2 (x (g 1)) (y (g 1)))).
  { apply (locally_constant (fun u => tot l (V2 (x (g u)) (y (g u))))). intros u Hu.
    destruct (tot_local l _ Ok Lp (Off (g u) (Gr u Hu))) as (e & He & K).
    assert (K1 : continuity_pt (fun u => x (g u)) u) by (apply (continuity_pt_comp g x); [apply continuity_affine|apply Cx]).
    assert (K2 : continuity_pt (fun u => y (g u)) u) by (apply (continuity_pt_comp g y); [apply continuity_affine|apply Cy]).
    destruct (K1 (e / 2) ltac:(lra)) as (d1 & Hd1 & D1). destruct (K2 (e / 2) ltac:(lra)) as (d2 & Hd2 & D2).
    exists (Rmin d1 d2). split; [now apply Rmin_pos|]. intros v _ Hv. destruct (Req_dec u v) as [->|NE]; [reflexivity|]. apply K.
    assert (A1 : Rabs (x (g v) - x (g u)) < e / 2) by (apply (D1 v); split; [split; [exact I|exact NE]|]; cbn; unfold R_dist; eapply Rlt_le_trans; [exact Hv|apply Rmin_l]).
    assert (A2 : Rabs (y (g v) - y (g u)) < e / 2) by (apply (D2 v); split; [split; [exact I|exact NE]|]; cbn; unfold R_dist; eapply Rlt_le_trans; [exact Hv|apply Rmin_r]).
    unfold dist. cbn [vx vy]. replace e with (sqrt (e * e)) by (apply sqrt_square; lra). apply sqrt_lt_1_alt.
    split; [apply Rplus_le_le_0_compat; apply Rle_0_sqr|]. apply Rabs_def2 in A1. apply Rabs_def2 in A2.
    assert ((x (g u) - x (g v)) * (x (g u) - x (g v)) <= e / 2 * (e / 2)) by (apply neg_pos_Rsqr_le; lra).
    assert ((y (g u) - y (g v)) * (y (g u) - y (g v)) <= e / 2 * (e / 2)) by (apply neg_pos_Rsqr_le; lra). nra. }
  unfold g in E. replace (a + 0 * (b - a)) with a in E by ring. replace (a + 1 * (b - a)) with b in E by ring. exact E.
Qed.

Lemma circle_near z rho th k : 0 < rho -> 0 < k < 1 -> dist (circle_pt z rho th) (circle_pt z rho (th + k)) <= 2 * rho * k /\ dist (circle_pt z rho th) (circle_pt z rho (th - k)) <= 2 * rho * k.
Proof.
  intros Hr Hk. pose proof PI2_1 as HP1. pose proof PI_RGT_0.
  assert (S0 : 0 < sin k) by (apply sin_gt_0; lra). assert (Sk : sin k < k) by (apply sin_lt_x; lra).
  assert (C0 : 0 < cos k) by (apply cos_gt_0; lra). assert (C1 : cos k < 1) by (apply cos_under; lra).
  pose proof (sin2_cos2 k) as S. unfold Rsqr in S.
  assert (Q : 1 - cos k <= k * k) by nra.
  assert (G : forall w, (cos w = cos k) -> dist (circle_pt z rho th) (circle_pt z rho (th + w)) <= 2 * rho * k).
  { intros w Hw. unfold dist, circle_pt. cbn [vx vy]. rewrite cos_plus, sin_plus. pose proof (sin2_cos2 th) as S1. pose proof (sin2_cos2 w) as S2. unfold Rsqr in S1, S2. rewrite Hw in *.
    replace ((vx z + rho * cos th - (vx z + rho * (cos th * cos k - sin th * sin w))) * (vx z + rho * cos th - (vx z + rho * (cos th * cos k - sin th * sin w)))
      + (vy z + rho * sin th - (vy z + rho * (sin th * cos k + cos th * sin w))) * (vy z + rho * sin th - (vy z + rho * (sin th * cos k + cos th * sin w))))
      with (rho * rho * ((sin th * sin th + cos th * cos th) * (1 - 2 * cos k + (sin w * sin w + cos k * cos k)))) by ring.
    rewrite S1, S2. rewrite <- (sqrt_square (2 * rho * k)) by (apply Rmult_le_pos; [|lra]; apply Rmult_le_pos; lra). apply sqrt_le_1_alt.
    replace (2 * rho * k * (2 * rho * k)) with (rho * rho * (4 * (k * k))) by ring. apply Rmult_le_compat_l; [apply Rle_0_sqr|]. nra. }
  split; [apply G; reflexivity|]. replace (th - k) with (th + - k) by ring. apply G. apply cos_neg.
Qed.

(** The two sides of a segment that crosses a circle. *)
Lemma arm_sides l1 l2 s z rho th c : oks (l1 ++ s :: l2) -> 0 < rho -> arm s z rho th -> near l1 l2 s (circle_pt z rho th) c ->
  exists d, 0 < d /\ forall k, 0 < k < d ->
    (tot (l1 ++ s :: l2) (circle_pt z rho (th + k)) + tot (l1 ++ s :: l2) (circle_pt z rho (th - k)) = 2 * c + 1)%Z
    /\ (tot (l1 ++ s :: l2) (circle_pt z rho (th + k)) = c \/ tot (l1 ++ s :: l2) (circle_pt z rho (th + k)) = (c + 1)%Z).
Proof.
  intros Ok Hr (_ & _ & (d & g & Hd & Hg & K)) (r & Hr0 & N).
  set (d' := Rmin (Rmin d 1) (r / (4 * rho))). assert (P : 0 < r / (4 * rho)) by (apply Rdiv_lt_0_compat; lra).
  exists d'. split; [unfold d'; repeat apply Rmin_pos; lra|]. intros k Hk.
  assert (B1 : k < d) by (unfold d' in Hk; pose proof (Rmin_l (Rmin d 1) (r / (4 * rho))); pose proof (Rmin_l d 1); lra).
  assert (B2 : k < 1) by (unfold d' in Hk; pose proof (Rmin_l (Rmin d 1) (r / (4 * rho))); pose proof (Rmin_r d 1); lra).
  assert (B3 : k < r / (4 * rho)) by (unfold d' in Hk; pose proof (Rmin_r (Rmin d 1) (r / (4 * rho))); lra).
  assert (D : 2 * rho * k < r). { apply Rlt_le_trans with (2 * rho * (r / (4 * rho))); [apply Rmult_lt_compat_l; lra|]. replace (2 * rho * (r / (4 * rho))) with (r / 2) by (field; lra). lra. }
  destruct (circle_near z rho th k Hr ltac:(lra)) as (C1 & C2). destruct (K k ltac:(lra)) as (K1 & K2).
  destruct (N _ (Rle_lt_trans _ _ _ C1 D)) as (_ & N1). destruct (N _ (Rle_lt_trans _ _ _ C2 D)) as (_ & N2).
  assert (S1 : sideof s (circle_pt z rho (th + k)) <> 0) by (intros E; rewrite E in K1; lra).
  assert (S2 : sideof s (circle_pt z rho (th - k)) <> 0) by (intros E; rewrite E in K2; lra).
  rewrite (N1 S1), (N2 S2). unfold over. destruct Hg as [-> | ->];
    destruct (Rlt_dec 0 (sideof s (circle_pt z rho (th + k)))), (Rlt_dec 0 (sideof s (circle_pt z rho (th - k)))); try lra; lia.
Qed.

Section Vertex.
Variables (l l1 l2 m1 m2 o : list seg) (s1 s2 : seg) (z : vec2 R) (c1 c2 : Z).
Hypothesis E1 : l = l1 ++ s1 :: l2.
Hypothesis E2 : l = m1 ++ s2 :: m2.
Hypothesis Ok : oks l.
Hypothesis Lp : looped l.
Hypothesis D1 : ends_differ s1.
Hypothesis D2 : ends_differ s2.
Hypothesis Z1 : z = pos (snd s1).
Hypothesis Z2 : z = pos (fst s2).
Hypothesis Oo : oks o.
Hypothesis Oz : offs o z.
Hypothesis Ol : forall q, offs o q -> ~ on s1 q -> ~ on s2 q -> offs l q.
Hypothesis N1 : forall t q, 0 < t < 1 -> seg_at (fst s1) (snd s1) t q -> near l1 l2 s1 q c1.
Hypothesis N2 : forall t q, 0 < t < 1 -> seg_at (fst s2) (snd s2) t q -> near m1 m2 s2 q c2.
Hypothesis A12 : forall t q, 0 < t < 1 -> seg_at (fst s1) (snd s1) t q -> ~ on s2 q.

Lemma vertex_values : c1 = c2 /\ exists r, 0 < r /\ forall x, x <> z -> dist z x < r -> offs l x -> tot l x = c1 \/ tot l x = (c1 + 1)%Z.
Proof.
  assert (O1 : okseg s1) by (apply Ok; rewrite E1; apply in_elt). assert (O2 : okseg s2) by (apply Ok; rewrite E2; apply in_elt).
  destruct (offs_room o z Oo Oz) as (e & He & K).
  assert (L1 : 0 < dist (pos (fst s1)) (pos (snd s1))).
  { unfold dist. apply sqrt_lt_R0. pose proof (chord2_pos _ _ D1) as C. unfold chord2 in C. lra. }
  assert (L2 : 0 < dist (pos (fst s2)) (pos (snd s2))).
  { unfold dist. apply sqrt_lt_R0. pose proof (chord2_pos _ _ D2) as C. unfold chord2 in C. lra. }
  set (r0 := Rmin e (Rmin (dist (pos (fst s1)) (pos (snd s1))) (dist (pos (fst s2)) (pos (snd s2))))).
  assert (R0 : 0 < r0) by (unfold r0; repeat apply Rmin_pos; assumption).
  assert (Main : forall rho, 0 < rho < r0 -> c1 = c2 /\ forall th, offs l (circle_pt z rho th) -> tot l (circle_pt z rho th) = c1 \/ tot l (circle_pt z rho th) = (c1 + 1)%Z).
  { intros rho Hrho.
    assert (B : rho < e /\ rho < dist (pos (fst s1)) (pos (snd s1)) /\ rho < dist (pos (fst s2)) (pos (snd s2))).
    { unfold r0 in Hrho. pose proof (Rmin_l e (Rmin (dist (pos (fst s1)) (pos (snd s1))) (dist (pos (fst s2)) (pos (snd s2))))).
      pose proof (Rmin_r e (Rmin (dist (pos (fst s1)) (pos (snd s1))) (dist (pos (fst s2)) (pos (snd s2))))).
      pose proof (Rmin_l (dist (pos (fst s1)) (pos (snd s1))) (dist (pos (fst s2)) (pos (snd s2)))). pose proof (Rmin_r (dist (pos (fst s1)) (pos (snd s1))) (dist (pos (fst s2)) (pos (snd s2)))). lra. }
    destruct (end_arm s1 rho O1 D1 ltac:(lra)) as (tA & A). rewrite <- Z1 in A.
    destruct (start_arm s2 rho O2 D2 ltac:(lra)) as (tB & Bm). rewrite <- Z2 in Bm.
    pose proof PI_RGT_0 as HP.
    set (P := fun k => circle_pt z rho (tA + k)).
    (* the angle from A to B *)
    assert (XB : forall th, exists k, 0 < k <= 2 * PI /\ circle_pt z rho th = P k).
    { intros th. set (q := circle_pt (V2 0 0) 1 (th - tA)). assert (Nq : q <> V2 0 0).
      { intros E. unfold q, circle_pt in E. injection E as EX EY. pose proof (sin2_cos2 (th - tA)) as S. unfold Rsqr in S. nra. }
      destruct (br_spec (V2 0 0) q Nq) as (r & Hr & Eq & Hk). set (k := br (V2 0 0) q) in *. exists k. split; [exact Hk|].
      assert (r = 1). { unfold q, circle_pt in Eq. injection Eq as EX EY. pose proof (sin2_cos2 (th - tA)) as S. pose proof (sin2_cos2 k) as S'. unfold Rsqr in S, S'.
        assert (r * r = 1); [|nra]. rewrite Rplus_0_l, Rmult_1_l in EX, EY. rewrite ?Rplus_0_l, ?Rmult_1_l in EX, EY. rewrite EX, EY in S.
        transitivity (r * r * (sin k * sin k + cos k * cos k)); [rewrite S'; ring|lra]. }
      subst r. apply circle_pt_inj in Eq; [|lra]. unfold P. apply circle_pt_congr.
      replace th with (tA + (th - tA)) at 1 by ring. apply congr_plus; [apply congr_refl|exact Eq]. }
    assert (PI2 : forall k k', - (2 * PI) < k - k' < 2 * PI -> P k = P k' -> k = k').
    { intros k k' Hk E. unfold P in E. apply circle_pt_inj in E; [|lra]. apply congr_range_eq in E; lra. }
    assert (Per : forall k, P (k - 2 * PI) = P k).
    { intros k. unfold P. apply circle_pt_congr. exists (-1)%Z. ring. }
    destruct (XB tB) as (b & Hb & Eb).
    pose proof A as ((t1 & Ht1 & St1) & U1 & _). pose proof Bm as ((t2 & Ht2 & St2) & U2 & _).
    assert (EA : circle_pt z rho tA = P 0) by (unfold P; f_equal; ring).
    assert (Hb2 : b <> 2 * PI).
    { intros ->. apply (A12 t1 _ Ht1 St1). rewrite EA, <- (Per 0). replace (0 - 2 * PI) with (2 * PI - 2 * PI - 2 * PI) by ring. rewrite !Per, <- Eb. exists t2. split; [lra|exact St2]. }
    assert (DP : forall k, dist z (P k) = rho).
    { intros k. unfold P, dist, circle_pt. cbn [vx vy]. pose proof (sin2_cos2 (tA + k)) as S. unfold Rsqr in S. set (g := tA + k) in *.
      replace ((vx z - (vx z + rho * cos g)) * (vx z - (vx z + rho * cos g)) + (vy z - (vy z + rho * sin g)) * (vy z - (vy z + rho * sin g))) with (rho * rho * (sin g * sin g + cos g * cos g)) by ring.
      rewrite S, Rmult_1_r. apply sqrt_square. lra. }
    assert (Off : forall k, 0 < k < 2 * PI -> k <> b -> offs l (P k)).
    { intros k Hk Nb. apply Ol.
      - intros s I O. specialize (K s _ I O). rewrite DP in K. lra.
      - intros O. specialize (U1 _ O (DP k)). rewrite EA in U1. apply PI2 in U1; lra.
      - intros O. specialize (U2 _ O (DP k)). rewrite Eb in U2. apply PI2 in U2; lra. }
    assert (Const : forall a a', 0 < a <= a' -> a' < 2 * PI -> (forall k, a <= k <= a' -> k <> b) -> tot l (P a) = tot l (P a')).
    { intros a a' Ha Ha' Nb. destruct (continuity_circle (vx z) rho tA 1) as (Cx & _). destruct (continuity_circle (vy z) rho tA 1) as (_ & Cy).
      assert (EP : forall k, P k = V2 (vx z + rho * cos (tA + k * 1)) (vy z + rho * sin (tA + k * 1))) by (intros k; unfold P, circle_pt; rewrite !Rmult_1_r; reflexivity).
      rewrite !EP. apply (tot_curve l (fun t => vx z + rho * cos (tA + t * 1)) (fun t => vy z + rho * sin (tA + t * 1)) a a' Ok Lp Cx Cy); [lra|].
      intros t Ht. rewrite <- EP. apply Off; [lra|]. apply Nb. exact Ht. }
    set (u := tot l (P (b / 2))). set (v := tot l (P ((b + 2 * PI) / 2))).
    assert (VU : forall k, 0 < k < b -> tot l (P k) = u).
    { intros k Hk. unfold u. destruct (Rle_dec k (b / 2)); [apply Const; try lra|symmetry; apply Const; try lra]; intros; lra. }
    assert (VV : forall k, b < k < 2 * PI -> tot l (P k) = v).
    { intros k Hk. unfold v. destruct (Rle_dec k ((b + 2 * PI) / 2)); [apply Const; try lra|symmetry; apply Const; try lra]; intros; lra. }
    (* both sides of the two segments *)
    destruct (arm_sides l1 l2 s1 z rho tA c1) as (dA & HdA & SA); [rewrite <- E1; exact Ok|lra|exact A|apply (N1 t1); auto|].
    destruct (arm_sides m1 m2 s2 z rho tB c2) as (dB & HdB & SB); [rewrite <- E2; exact Ok|lra|exact Bm|apply (N2 t2); auto|].
    rewrite <- E1 in SA. rewrite <- E2 in SB.
    assert (HA : (u + v = 2 * c1 + 1)%Z /\ (u = c1 \/ u = (c1 + 1)%Z)).
    { set (k := Rmin (dA / 2) (Rmin (b / 2) ((2 * PI - b) / 2))). assert (M : 0 < k) by (unfold k; repeat apply Rmin_pos; lra).
      assert (Hk : k <= dA / 2 /\ k <= b / 2 /\ k <= (2 * PI - b) / 2).
      { unfold k. pose proof (Rmin_l (dA / 2) (Rmin (b / 2) ((2 * PI - b) / 2))). pose proof (Rmin_r (dA / 2) (Rmin (b / 2) ((2 * PI - b) / 2))).
        pose proof (Rmin_l (b / 2) ((2 * PI - b) / 2)). pose proof (Rmin_r (b / 2) ((2 * PI - b) / 2)). lra. }
      destruct (SA k ltac:(lra)) as (S1 & S2).
      assert (Q1 : circle_pt z rho (tA + k) = P k) by reflexivity.
      assert (Q2 : circle_pt z rho (tA - k) = P (2 * PI - k)). { rewrite <- (Per (2 * PI - k)). unfold P. f_equal. ring. }
      rewrite Q1, Q2 in *. rewrite (VU k ltac:(lra)), (VV (2 * PI - k) ltac:(lra)) in S1. rewrite (VU k ltac:(lra)) in S2. auto. }
    assert (HB : (v + u = 2 * c2 + 1)%Z).
    { set (k := Rmin (dB / 2) (Rmin (b / 2) ((2 * PI - b) / 2))). assert (M : 0 < k) by (unfold k; repeat apply Rmin_pos; lra).
      assert (Hk : k <= dB / 2 /\ k <= b / 2 /\ k <= (2 * PI - b) / 2).
      { unfold k. pose proof (Rmin_l (dB / 2) (Rmin (b / 2) ((2 * PI - b) / 2))). pose proof (Rmin_r (dB / 2) (Rmin (b / 2) ((2 * PI - b) / 2))).
        pose proof (Rmin_l (b / 2) ((2 * PI - b) / 2)). pose proof (Rmin_r (b / 2) ((2 * PI - b) / 2)). lra. }
      destruct (SB k ltac:(lra)) as (S1 & _).
      assert (CG : congr tB (tA + b)) by (apply (circle_pt_inj z rho); [lra|exact Eb]).
      assert (Q1 : circle_pt z rho (tB + k) = P (b + k)). { unfold P. apply circle_pt_congr. replace (tA + (b + k)) with (tA + b + k) by ring. apply congr_plus; [exact CG|apply congr_refl]. }
      assert (Q2 : circle_pt z rho (tB - k) = P (b - k)). { unfold P. apply circle_pt_congr. replace (tA + (b - k)) with (tA + b - k) by ring. apply congr_minus; [exact CG|apply congr_refl]. }
      rewrite Q1, Q2 in S1. rewrite (VV (b + k) ltac:(lra)), (VU (b - k) ltac:(lra)) in S1. exact S1. }
    split; [lia|]. intros th Oth. destruct (XB th) as (k & Hk & Ek). rewrite Ek in *.
    destruct (Req_dec k b) as [->|Nb].
    { exfalso. rewrite <- Eb in Oth. apply (Oth s2); [rewrite E2; apply in_elt|]. exists t2. split; [lra|exact St2]. }
    destruct (Req_dec k (2 * PI)) as [->|N2P].
    { exfalso. rewrite <- (Per (2 * PI)) in Oth. replace (2 * PI - 2 * PI) with 0 in Oth by ring. rewrite <- EA in Oth. apply (Oth s1); [rewrite E1; apply in_elt|]. exists t1. split; [lra|exact St1]. }
    destruct (Rlt_dec k b) as [L|L]; [rewrite (VU k) by lra|rewrite (VV k) by lra]; lia. }
  split; [apply (Main (r0 / 2)); lra|]. exists r0. split; [exact R0|]. intros x Nx Dx Ox.
  destruct (br_spec z x Nx) as (r & Hr & Ex & _).
  assert (r = dist z x).
  { rewrite Ex. unfold dist, circle_pt. cbn [vx vy]. set (g := br z x). pose proof (sin2_cos2 g) as S. unfold Rsqr in S.
    replace ((vx z - (vx z + r * cos g)) * (vx z - (vx z + r * cos g)) + (vy z - (vy z + r * sin g)) * (vy z - (vy z + r * sin g))) with (r * r * (sin g * sin g + cos g * cos g)) by ring.
    rewrite S, Rmult_1_r. symmetry. apply sqrt_square. lra. }
  destruct (Main r ltac:(lra)) as (_ & V). rewrite Ex in Ox |- *. apply V. exact Ox.
Qed.
End Vertex.
