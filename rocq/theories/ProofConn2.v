(** Off a loop that passes no point twice, points it goes around equally often can be joined (C67). *)
From Coq Require Import Reals ZArith Bool List Arith Lra Lia Psatz Classical.
From Verif Require Import Num RNum Res ModelMath ModelSeg ModelPline Spec SpecGeom SpecBox SpecWinding SpecView SpecBoolean SpecJordan.
From Verif Require Import ProofR ProofBase ProofIter ProofArc ProofArc2 ProofSlice ProofMeasure ProofWalk ProofIntr ProofWinding ProofWinding2 ProofWinding3 ProofWinding4 ProofWinding6 ProofWinding7 ProofSegIntr5 ProofPolyOff2 ProofNest ProofJordan ProofJordan2 ProofJordan3 ProofJordan4 ProofJordan5 ProofConn.
Import ListNotations.
Local Open Scope R_scope.

Section Vertex.
Variables (l o : list seg) (s1 s2 : seg) (z : vec2 R).
Hypothesis I1 : In s1 l.
Hypothesis I2 : In s2 l.
Hypothesis Ok : oks l.
Hypothesis D1 : ends_differ s1.
Hypothesis D2 : ends_differ s2.
Hypothesis Z1 : z = pos (snd s1).
Hypothesis Z2 : z = pos (fst s2).
Hypothesis Oo : oks o.
Hypothesis Oz : offs o z.
Hypothesis Ol : forall q, offs o q -> ~ on s1 q -> ~ on s2 q -> offs l q.
Hypothesis A12 : forall t q, 0 < t < 1 -> seg_at (fst s1) (snd s1) t q -> ~ on s2 q.

(** Along a small circle around the vertex to the end of the first segment. *)
Lemma vertex_arm : exists r, 0 < r /\ forall x, x <> z -> dist z x < r -> offs l x ->
  exists t q, 0 < t < 1 /\ seg_at (fst s1) (snd s1) t q /\ forall e, 0 < e -> exists y, dist q y < e /\ offs l y /\ linked l x y.
Proof.
  assert (O1 : okseg s1) by (now apply Ok). assert (O2 : okseg s2) by (now apply Ok).
  destruct (offs_room o z Oo Oz) as (e & He & K).
  assert (L1 : 0 < dist (pos (fst s1)) (pos (snd s1))).
  { unfold dist. apply sqrt_lt_R0. pose proof (chord2_pos _ _ D1) as C. unfold chord2 in C. lra. }
  assert (L2 : 0 < dist (pos (fst s2)) (pos (snd s2))).
  { unfold dist. apply sqrt_lt_R0. pose proof (chord2_pos _ _ D2) as C. unfold chord2 in C. lra. }
  set (r0 := Rmin e (Rmin (dist (pos (fst s1)) (pos (snd s1))) (dist (pos (fst s2)) (pos (snd s2))))).
  assert (R0 : 0 < r0) by (unfold r0; repeat apply Rmin_pos; assumption).
  assert (Main : forall rho, 0 < rho < r0 -> forall th, offs l (circle_pt z rho th) ->
    exists t q, 0 < t < 1 /\ seg_at (fst s1) (snd s1) t q /\ forall e, 0 < e -> exists y, dist q y < e /\ offs l y /\ linked l (circle_pt z rho th) y).
  { intros rho Hrho.
    assert (B : rho < e /\ rho < dist (pos (fst s1)) (pos (snd s1)) /\ rho < dist (pos (fst s2)) (pos (snd s2))).
    { unfold r0 in Hrho. pose proof (Rmin_l e (Rmin (dist (pos (fst s1)) (pos (snd s1))) (dist (pos (fst s2)) (pos (snd s2))))).
      pose proof (Rmin_r e (Rmin (dist (pos (fst s1)) (pos (snd s1))) (dist (pos (fst s2)) (pos (snd s2))))).
      pose proof (Rmin_l (dist (pos (fst s1)) (pos (snd s1))) (dist (pos (fst s2)) (pos (snd s2)))). pose proof (Rmin_r (dist (pos (fst s1)) (pos (snd s1))) (dist (pos (fst s2)) (pos (snd s2)))). lra. }
    destruct (end_arm s1 rho O1 D1 ltac:(lra)) as (tA & A). rewrite <- Z1 in A.
    destruct (start_arm s2 rho O2 D2 ltac:(lra)) as (tB & Bm). rewrite <- Z2 in Bm.
    pose proof PI_RGT_0 as HP.
    set (P := fun k => circle_pt z rho (tA + k)).
    assert (XB : forall th, exists k, 0 < k <= 2 * PI /\ circle_pt z rho th = P k).
    { intros th. set (q := circle_pt (V2 0 0) 1 (th - tA)). assert (Nq : q <> V2 0 0).
      { intros E. unfold q, circle_pt in E. injection E as EX EY. pose proof (sin2_cos2 (th - tA)) as S. unfold Rsqr in S. nra. }
      destruct (br_spec (V2 0 0) q Nq) as (r & Hr & Eq & Hk). set (k := br (V2 0 0) q) in *. exists k. split; [exact Hk|].
      assert (r = 1). { unfold q, circle_pt in Eq. injection Eq as EX EY. pose proof (sin2_cos2 (th - tA)) as S. pose proof (sin2_cos2 k) as S'. unfold Rsqr in S, S'.
        assert (r * r = 1); [|nra]. rewrite Rplus_0_l, Rmult_1_l in EX, EY. rewrite ?Rplus_0_l, ?Rmult_1_l in EX, EY. rewrite EX, EY in S.
        transitivity (r * r * (sin k * sin k + cos k * cos k)); [rewrite S'; ring|lra]. }
      subst r. apply circle_pt_inj in Eq; [|lra]. unfold P. apply circle_pt_congr.
      replace th with (tA + (th - tA)) at 1 by ring. apply congr_plus; [apply congr_refl|exact Eq]. }
    assert (PI2 : forall k k', - (2 * PI) < k - k' < 2 * PI -> P k = P k' -> k = k').
    { intros k k' Hk E. unfold P in E. apply circle_pt_inj in E; [|lra]. apply congr_range_eq in E; lra. }
    assert (Per : forall k, P (k - 2 * PI) = P k).
    { intros k. unfold P. apply circle_pt_congr. exists (-1)%Z. ring. }
    destruct (XB tB) as (b & Hb & Eb).
    pose proof A as ((t1 & Ht1 & St1) & U1 & _). pose proof Bm as ((t2 & Ht2 & St2) & U2 & _).
    assert (EA : circle_pt z rho tA = P 0) by (unfold P; f_equal; ring).
    assert (Hb2 : b <> 2 * PI).
    { intros ->. apply (A12 t1 _ Ht1 St1). rewrite EA, <- (Per 0). replace (0 - 2 * PI) with (2 * PI - 2 * PI - 2 * PI) by ring. rewrite !Per, <- Eb. exists t2. split; [lra|exact St2]. }
    assert (DP : forall k, dist z (P k) = rho).
    { intros k. unfold P, dist, circle_pt. cbn [vx vy]. pose proof (sin2_cos2 (tA + k)) as S. unfold Rsqr in S. set (g := tA + k) in *.
      replace ((vx z - (vx z + rho * cos g)) * (vx z - (vx z + rho * cos g)) + (vy z - (vy z + rho * sin g)) * (vy z - (vy z + rho * sin g))) with (rho * rho * (sin g * sin g + cos g * cos g)) by ring.
      rewrite S, Rmult_1_r. apply sqrt_square. lra. }
    assert (Off : forall k, 0 < k < 2 * PI -> k <> b -> offs l (P k)).
    { intros k Hk Nb. apply Ol.
      - intros s I O. specialize (K s _ I O). rewrite DP in K. lra.
      - intros O. specialize (U1 _ O (DP k)). rewrite EA in U1. apply PI2 in U1; lra.
      - intros O. specialize (U2 _ O (DP k)). rewrite Eb in U2. apply PI2 in U2; lra. }
    assert (Const : forall a a', 0 < a <= a' -> a' < 2 * PI -> (forall k, a <= k <= a' -> k <> b) -> linked l (P a) (P a')).
    { intros a a' Ha Ha' Nb. destruct (continuity_circle (vx z) rho tA 1) as (Cx & _). destruct (continuity_circle (vy z) rho tA 1) as (_ & Cy).
      assert (EP : forall k, P k = V2 (vx z + rho * cos (tA + k * 1)) (vy z + rho * sin (tA + k * 1))) by (intros k; unfold P, circle_pt; rewrite !Rmult_1_r; reflexivity).
      rewrite !EP. apply (linked_curve l (fun t => vx z + rho * cos (tA + t * 1)) (fun t => vy z + rho * sin (tA + t * 1)) a a' Cx Cy); [lra|].
      intros t Ht. rewrite <- EP. apply Off; [lra|]. apply Nb. exact Ht. }
    intros th Oth. destruct (XB th) as (k & Hk & Ek). rewrite Ek in *.
    destruct (Req_dec k b) as [->|Nb].
    { exfalso. rewrite <- Eb in Oth. apply (Oth s2 I2). exists t2. split; [lra|exact St2]. }
    destruct (Req_dec k (2 * PI)) as [->|N2P].
    { exfalso. rewrite <- (Per (2 * PI)) in Oth. replace (2 * PI - 2 * PI) with 0 in Oth by ring. rewrite <- EA in Oth. apply (Oth s1 I1). exists t1. split; [lra|exact St1]. }
    exists t1, (P 0). split; [exact Ht1|]. split; [rewrite <- EA; exact St1|]. intros d Hd.
    set (j := Rmin (Rmin (k / 2) ((2 * PI - k) / 2)) (Rmin (1 / 2) (d / (4 * rho)))). assert (Pd : 0 < d / (4 * rho)) by (apply Rdiv_lt_0_compat; lra).
    assert (Hj : 0 < j) by (unfold j; repeat apply Rmin_pos; lra).
    assert (Bj : j <= k / 2 /\ j <= (2 * PI - k) / 2 /\ j <= 1 / 2 /\ j <= d / (4 * rho)).
    { unfold j. pose proof (Rmin_l (Rmin (k / 2) ((2 * PI - k) / 2)) (Rmin (1 / 2) (d / (4 * rho)))). pose proof (Rmin_r (Rmin (k / 2) ((2 * PI - k) / 2)) (Rmin (1 / 2) (d / (4 * rho)))).
      pose proof (Rmin_l (k / 2) ((2 * PI - k) / 2)). pose proof (Rmin_r (k / 2) ((2 * PI - k) / 2)). pose proof (Rmin_l (1 / 2) (d / (4 * rho))). pose proof (Rmin_r (1 / 2) (d / (4 * rho))). lra. }
    assert (Dj : 2 * rho * j < d). { apply Rle_lt_trans with (2 * rho * (d / (4 * rho))); [apply Rmult_le_compat_l; lra|]. replace (2 * rho * (d / (4 * rho))) with (d / 2) by (field; lra). lra. }
    destruct (circle_near z rho (tA + 0) j ltac:(lra) ltac:(lra)) as (C1 & C2).
    destruct (Rlt_dec k b) as [L|L].
    - exists (P j). split; [|split].
      + unfold P at 1. eapply Rle_lt_trans; [|exact Dj]. unfold P. replace (tA + j) with (tA + 0 + j) by ring. exact C1.
      + apply Off; lra.
      + apply linked_sym. apply Const; lra || (intros; lra).
    - exists (P (2 * PI - j)). split; [|split].
      + eapply Rle_lt_trans; [|exact Dj]. rewrite <- (Per (2 * PI - j)). unfold P. replace (tA + (2 * PI - j - 2 * PI)) with (tA + 0 - j) by ring. exact C2.
      + apply Off; lra.
      + apply Const; lra || (intros; lra). }
  exists r0. split; [exact R0|]. intros x Nx Dx Ox.
  destruct (br_spec z x Nx) as (r & Hr & Ex & _).
  assert (r = dist z x).
  { rewrite Ex. unfold dist, circle_pt. cbn [vx vy]. set (g := br z x). pose proof (sin2_cos2 g) as S. unfold Rsqr in S.
    replace ((vx z - (vx z + r * cos g)) * (vx z - (vx z + r * cos g)) + (vy z - (vy z + r * sin g)) * (vy z - (vy z + r * sin g))) with (r * r * (sin g * sin g + cos g * cos g)) by ring.
    rewrite S, Rmult_1_r. symmetry. apply sqrt_square. lra. }
  rewrite Ex in Ox |- *. apply (Main r ltac:(lra)). exact Ox.
Qed.
End Vertex.

Section Loop.
Variable p : pline R.
Hypothesis ok : pline_ok p.
Hypothesis vl : valid_loop p.
Hypothesis po : passes_once p.
Let l : list seg := spec_segs (vtx p) (is_closed p).
Let n := vertex_count p.

Lemma conn_sym z z' : conn l z z' -> conn l z' z.
Proof. intros (r & r' & Hr & Hr' & H). exists r', r. split; [exact Hr'|]. split; [exact Hr|]. intros x y Dx Dy Ox Oy E. apply linked_sym, H; auto. Qed.

Lemma conn_trans z q z' : on_path p q -> conn l z q -> conn l q z' -> conn l z z'.
Proof.
  intros On (r1 & r2 & P1 & P2 & H) (r3 & r4 & P3 & P4 & H'). destruct (loop_sides p ok vl po) as (o & Ho & W & Sd).
  exists r1, r4. split; [exact P1|]. split; [exact P4|]. intros x y Dx Dy Ox Oy E.
  destruct (Sd q (Rmin r2 r3) On) as ((u & Ou & Du & Wu) & (v & Ov & Dv & Wv)); [now apply Rmin_pos|].
  pose proof (Rmin_l r2 r3). pose proof (Rmin_r r2 r3).
  assert (M : exists m, ~ on_path p m /\ dist q m < Rmin r2 r3 /\ wn p m = wn p x).
  { destruct (W x) as [Q|Q]; [now apply offs_path|exists u|exists v]; rewrite Q; auto. }
  destruct M as (m & Om & Dm & Wm). assert (Om' : offs l m) by now apply offs_path.
  assert (Em : tot l m = tot l x). { unfold l. rewrite <- !wn_tot; auto. now apply offs_path. }
  apply linked_trans with m; [apply H|apply H']; auto; lra || congruence.
Qed.

Lemma seg_conn s t t' z z' : okseg s -> (forall u q, (t <= u <= t' \/ t' <= u <= t) -> seg_at (fst s) (snd s) u q -> on_path p q /\ conn l q q) ->
  seg_at (fst s) (snd s) t z -> seg_at (fst s) (snd s) t' z' -> conn l z z'.
Proof.
  intros Os H Hz Hz'. destruct (seg_curve (fst s) (snd s) Os) as (cx & cy & Cx & Cy & Hq).
  set (g := fun u => t + u * (t' - t)). set (P := fun u => V2 (cx (g u)) (cy (g u))).
  assert (Gr : forall u, 0 <= u <= 1 -> t <= g u <= t' \/ t' <= g u <= t).
  { intros u Hu. unfold g. destruct (Rle_dec t t') as [L|L].
    - left. assert (0 <= u * (t' - t)) by (apply Rmult_le_pos; lra). assert (u * (t' - t) <= 1 * (t' - t)) by (apply Rmult_le_compat_r; lra). lra.
    - right. assert (0 <= u * (t - t')) by (apply Rmult_le_pos; lra). assert (u * (t - t') <= 1 * (t - t')) by (apply Rmult_le_compat_r; lra). lra. }
  assert (Sat : forall u, seg_at (fst s) (snd s) (g u) (P u)) by (intros u; apply Hq; reflexivity).
  assert (E0 : P 0 = z). { unfold P, g. replace (t + 0 * (t' - t)) with t by ring. symmetry. now apply Hq. }
  assert (E1 : P 1 = z'). { unfold P, g. replace (t + 1 * (t' - t)) with t' by ring. symmetry. now apply Hq. }
  assert (C : continuity g) by (intros u; apply continuity_affine).
  assert (K1 : continuity (fun u => cx (g u))) by (intros u; apply (continuity_pt_comp g cx); [apply C|apply Cx]).
  assert (K2 : continuity (fun u => cy (g u))) by (intros u; apply (continuity_pt_comp g cy); [apply C|apply Cy]).
  rewrite <- E0, <- E1. apply (carry (fun u => conn l (P 0) (P u))).
  - intros u Hu. destruct (H (g u) (P u) (Gr u Hu) (Sat u)) as (On & (r & r' & Hr & Hr' & Cn)).
    destruct (curve_cont _ _ u r' K1 K2 Hr') as (d & Hd & D). exists d. split; [exact Hd|]. intros v Hv Hvu.
    specialize (D v Hvu). fold (P u) (P v) in D.
    assert (UV : conn l (P u) (P v)).
    { exists r, (r' - dist (P u) (P v)). split; [exact Hr|]. split; [lra|]. intros x y Dx Dy Ox Oy E. apply Cn; auto.
      pose proof (dist_triangle (P u) (P v) y). lra. }
    split; intros Q.
    + apply (conn_trans _ (P u)); auto.
    + apply (conn_trans _ (P v)); [apply (H (g v) (P v) (Gr v Hv) (Sat v))|exact Q|apply conn_sym, UV].
  - apply (H (g 0) (P 0) (Gr 0 ltac:(lra)) (Sat 0)).
Qed.

Lemma on_nth i a b t q : nth_error l i = Some (a, b) -> 0 <= t <= 1 -> seg_at a b t q -> on_path p q.
Proof. intros E Ht Hq. exists a, b. split; [eapply nth_error_In; exact E|]. exists t. auto. Qed.

Lemma interior_conn i s t q : nth_error l i = Some s -> 0 < t < 1 -> seg_at (fst s) (snd s) t q -> conn l q q.
Proof.
  intros E Ht Hq. pose proof (n2 p vl) as N2'. destruct (beside_exists p ok vl po 0 ltac:(lia)) as (c & H0).
  assert (Li : (i < n)%nat) by (unfold n; rewrite <- (len p vl); apply nth_error_Some; unfold l in E; congruence).
  destruct (all_beside p ok vl po c H0 i Li) as (s' & l1 & l2 & E' & El & _ & N). unfold l in E. rewrite E in E'. injection E' as <-.
  pose proof (oks_l p ok) as Ol. pose proof (looped_l p vl) as Ll. unfold l. rewrite El in *.
  apply (near_conn l1 l2 s q c Ol Ll (differ p ok po i s ltac:(rewrite El; exact E))); [exists t; split; [lra|exact Hq]|apply (N t q Ht Hq)].
Qed.

Lemma vertex_conn i a b : nth_error l i = Some (a, b) -> conn l (pos b) (pos b).
Proof.
  intros E1. pose proof (n2 p vl) as N2'. pose proof (len p vl) as LN. fold l in LN. fold n in LN, N2'.
  assert (Li : (i < n)%nat) by (rewrite <- LN; apply nth_error_Some; congruence).
  set (j := ((i + 1) mod n)%nat).
  assert (Nij : j <> i).
  { unfold j. destruct (Nat.eq_dec (i + 1) n) as [Q|Q]; [rewrite Q, Nat.mod_same by lia; lia|rewrite Nat.mod_small by lia; lia]. }
  destruct (next_seg p vl i a b E1) as (d & E2). fold n l j in E2.
  set (o := flat_map (fun k => if (k =? i)%nat || (k =? j)%nat then [] else match nth_error l k with Some s => [s] | None => [] end) (seq 0 n)).
  assert (Io : forall s, In s o <-> exists k, k <> i /\ k <> j /\ nth_error l k = Some s).
  { intros s. unfold o. rewrite in_flat_map. split.
    - intros (k & _ & Ik). destruct ((k =? i)%nat || (k =? j)%nat) eqn:B; [destruct Ik|]. apply orb_false_iff in B. destruct B as (B1 & B2). apply Nat.eqb_neq in B1, B2.
      destruct (nth_error l k) eqn:Ek; [|destruct Ik]. destruct Ik as [<-|[]]. exists k. auto.
    - intros (k & B1 & B2 & Ek). exists k. assert (k < n)%nat by (rewrite <- LN; apply nth_error_Some; congruence). split; [apply in_seq; lia|].
      apply Nat.eqb_neq in B1, B2. rewrite B1, B2. cbn [orb]. rewrite Ek. left. reflexivity. }
  assert (Oz : offs o (pos b)).
  { intros s' I (u & Hu & Hq). apply Io in I. destruct I as (k & K1 & K2 & Ek). destruct s' as [a' b'].
    assert (Ob : okseg (b, d)) by (apply (oks_l p ok); eapply nth_error_In; exact E2).
    destruct (again p ok vl po j k b d a' b' 0 u (pos b) E2 Ek ltac:(lra) Hu (seg_at_0 _ _ Ob) Hq) as [(-> & _)|(_ & _ & Q)]; [now apply K2|].
    apply K1. assert (Lk : (k < n)%nat) by (rewrite <- LN; apply nth_error_Some; congruence). fold n in Q.
    unfold j in Q. destruct (Nat.eq_dec (i + 1) n) as [Q1|Q1], (Nat.eq_dec (k + 1) n) as [Q2|Q2]; [lia| | |].
    - rewrite Q1, Nat.mod_same, Nat.mod_small in Q by lia. lia.
    - rewrite Q2, Nat.mod_same, Nat.mod_small in Q by lia. lia.
    - rewrite !Nat.mod_small in Q by lia. lia. }
  destruct (vertex_arm l o (a, b) (b, d) (pos b)) as (r & Hr & V); auto; try (eapply nth_error_In; eassumption).
  - apply oks_l, ok.
  - exact (differ p ok po _ _ E1).
  - exact (differ p ok po _ _ E2).
  - intros s I. apply Io in I. destruct I as (k & _ & _ & Ek). apply (oks_l p ok). eapply nth_error_In; exact Ek.
  - intros q Oq A B s I. apply In_nth_error in I. destruct I as (k & Ek).
    destruct (Nat.eq_dec k i) as [->|K1]; [rewrite E1 in Ek; injection Ek as <-; exact A|].
    destruct (Nat.eq_dec k j) as [->|K2]; [rewrite E2 in Ek; injection Ek as <-; exact B|]. apply Oq, Io. eauto.
  - intros t q Ht Hq. exact (interior_off p ok vl po i j (a, b) (b, d) t q E1 E2 Nij Ht Hq).
  - assert (Ob : okseg (a, b)) by (apply (oks_l p ok); eapply nth_error_In; exact E1).
    assert (NZ : forall x, offs l x -> x <> pos b). { intros x Ox ->. apply (Ox (a, b)); [eapply nth_error_In; exact E1|]. apply (on_ends (a, b) Ob). }
    exists r, r. split; [exact Hr|]. split; [exact Hr|]. intros x y Dx Dy Ox Oy E.
    destruct (V x (NZ x Ox) Dx Ox) as (t & q & Ht & Hq & X). destruct (V y (NZ y Oy) Dy Oy) as (t' & q' & Ht' & Hq' & Y).
    destruct (seg_conn (a, b) t t' q q' Ob) as (r1 & r2 & P1 & P2 & H); auto.
    { intros u w Hu Hw. split; [apply (on_nth i a b u w E1 ltac:(lra) Hw)|]. apply (interior_conn i (a, b) u w E1 ltac:(lra) Hw). }
    destruct (X r1 P1) as (x' & Dx' & Ox' & Lx). destruct (Y r2 P2) as (y' & Dy' & Oy' & Ly).
    apply linked_trans with x'; [exact Lx|]. apply linked_trans with y'; [|apply linked_sym, Ly]. apply H; auto.
    rewrite <- (linked_tot l x x' (oks_l p ok) (looped_l p vl) Lx), <- (linked_tot l y y' (oks_l p ok) (looped_l p vl) Ly). exact E.
Qed.

Lemma point_conn q : on_path p q -> conn l q q.
Proof.
  intros (a & b & I & (t & Ht & Hq)). change (In ((a, b) : seg) l) in I. apply In_nth_error in I. destruct I as (i & E).
  pose proof (n2 p vl) as N2'. pose proof (len p vl) as LN. fold l in LN. fold n in LN, N2'.
  assert (Li : (i < n)%nat) by (rewrite <- LN; apply nth_error_Some; congruence).
  assert (Os : okseg (a, b)) by (apply (oks_l p ok); eapply nth_error_In; exact E).
  destruct (Req_dec t 1) as [->|T1].
  { assert (q = pos b) by exact (seg_at_unique _ _ _ _ _ Hq (seg_at_1 _ _ Os) Os). subst q. exact (vertex_conn i a b E). }
  destruct (Req_dec t 0) as [->|T0].
  - assert (q = pos a) by exact (seg_at_unique _ _ _ _ _ Hq (seg_at_0 _ _ Os) Os). subst q.
    set (j := match i with O => (n - 1)%nat | S k => k end).
    assert (Lj : (j < n)%nat) by (unfold j; destruct i; lia).
    assert (Qj : ((j + 1) mod n)%nat = i). { unfold j. destruct i; [replace (n - 1 + 1)%nat with n by lia; apply Nat.mod_same; lia|rewrite Nat.mod_small; lia]. }
    destruct (nth_error l j) as [[a' b']|] eqn:Ej; [|exfalso; apply nth_error_None in Ej; lia].
    destruct (next_seg p vl j a' b' Ej) as (d & Ed). fold n l in Ed. rewrite Qj, E in Ed. injection Ed as -> _. exact (vertex_conn j a' b' Ej).
  - apply (interior_conn i (a, b) t q E ltac:(lra) Hq).
Qed.

Lemma all_conn q q' : on_path p q -> on_path p q' -> conn l q q'.
Proof.
  pose proof (n2 p vl) as N2'. pose proof (len p vl) as LN. fold l in LN. fold n in LN, N2'.
  destruct (nth_error l 0) as [[v0 v1]|] eqn:E0; [|exfalso; apply nth_error_None in E0; lia].
  assert (Seg : forall i a b t u x y, nth_error l i = Some (a, b) -> 0 <= t <= 1 -> 0 <= u <= 1 -> seg_at a b t x -> seg_at a b u y -> conn l x y).
  { intros i a b t u x y E Ht Hu Hx Hy. apply (seg_conn (a, b) t u); auto; [apply (oks_l p ok); eapply nth_error_In; exact E|].
    intros w m Hw Hm. assert (On : on_path p m) by (apply (on_nth i a b w m E ltac:(lra) Hm)). split; [exact On|now apply point_conn]. }
  assert (All : forall i a b, nth_error l i = Some (a, b) -> conn l (pos v0) (pos a)).
  { induction i as [|i IH]; intros a b E.
    - rewrite E0 in E. injection E as <- <-. apply point_conn. assert (O0 : okseg (v0, v1)) by (apply (oks_l p ok); eapply nth_error_In; exact E0).
      apply (on_nth 0 v0 v1 0 _ E0 ltac:(lra) (seg_at_0 _ _ O0)).
    - assert (Li : (S i < n)%nat) by (rewrite <- LN; apply nth_error_Some; congruence).
      destruct (nth_error l i) as [[a' b']|] eqn:Ei; [|exfalso; apply nth_error_None in Ei; lia].
      destruct (next_seg p vl i a' b' Ei) as (d & Ed). fold n l in Ed. rewrite Nat.mod_small in Ed by lia. replace (i + 1)%nat with (S i) in Ed by lia. rewrite E in Ed. injection Ed as -> _.
      assert (Oi : okseg (a', b')) by (apply (oks_l p ok); eapply nth_error_In; exact Ei).
      apply (conn_trans _ (pos a')); [apply (on_nth i a' b' 0 _ Ei ltac:(lra) (seg_at_0 _ _ Oi))|exact (IH a' b' eq_refl)|].
      apply (Seg i a' b' 0 1 _ _ Ei); [lra|lra|apply (seg_at_0 _ _ Oi)|apply (seg_at_1 _ _ Oi)]. }
  assert (From : forall x, on_path p x -> conn l (pos v0) x).
  { intros x (a & b & I & (t & Ht & Hx)). change (In ((a, b) : seg) l) in I. apply In_nth_error in I. destruct I as (i & E).
    assert (Oi : okseg (a, b)) by (apply (oks_l p ok); eapply nth_error_In; exact E).
    apply (conn_trans _ (pos a)); [apply (on_nth i a b 0 _ E ltac:(lra) (seg_at_0 _ _ Oi))|exact (All i a b E)|].
    apply (Seg i a b 0 t _ _ E); [lra|lra|apply (seg_at_0 _ _ Oi)|exact Hx]. }
  intros Oq Oq'. assert (O0 : okseg (v0, v1)) by (apply (oks_l p ok); eapply nth_error_In; exact E0).
  apply (conn_trans _ (pos v0)); [apply (on_nth 0 v0 v1 0 _ E0 ltac:(lra) (seg_at_0 _ _ O0))|apply conn_sym|]; now apply From.
Qed.

(** From every point there is a way to the path. *)
Lemma to_path x : ~ on_path p x -> exists q, on_path p q /\ forall e, 0 < e -> exists y, dist q y < e /\ offs l y /\ linked l x y.
Proof.
  intros Ox. pose proof (n2 p vl) as N2'. pose proof (len p vl) as LN. fold l in LN. fold n in LN, N2'.
  destruct (nth_error l 0) as [[a b]|] eqn:E; [|exfalso; apply nth_error_None in E; lia].
  assert (Os : okseg (a, b)) by (apply (oks_l p ok); eapply nth_error_In; exact E).
  destruct (first_hit (fun t => on_path p (line_pt x (pos a) t))) as (t & Ht & Ont & Bef).
  - intros t Ht N. destruct (path_open p x (pos a) t ok N) as (e & He & K). exists e. split; [exact He|]. intros s _ Hs. now apply K.
  - destruct (line_pt_ends x (pos a)) as (_ & ->). apply (on_nth 0 a b 0 _ E ltac:(lra) (seg_at_0 _ _ Os)).
  - exists (line_pt x (pos a) t). split; [exact Ont|]. intros r Hr.
    assert (T0 : 0 < t). { apply Rnot_le_lt. intros L. replace t with 0 in Ont by lra. destruct (line_pt_ends x (pos a)) as (E0 & _). rewrite E0 in Ont. contradiction. }
    assert (D0 : 0 <= dist x (pos a)) by apply sqrt_pos.
    set (k := Rmin t (r / (dist x (pos a) + 1)) / 2). assert (Pk : 0 < r / (dist x (pos a) + 1)) by (apply Rdiv_lt_0_compat; lra).
    assert (M : 0 < Rmin t (r / (dist x (pos a) + 1))) by (apply Rmin_pos; lra).
    pose proof (Rmin_l t (r / (dist x (pos a) + 1))). pose proof (Rmin_r t (r / (dist x (pos a) + 1))).
    exists (line_pt x (pos a) (t - k)). split; [|split].
    + apply (line_near x (pos a) t (t - k) r Hr). replace (t - k - t) with (- k) by ring. rewrite Rabs_Ropp, Rabs_right; unfold k; lra.
    + apply offs_path. apply Bef. unfold k. lra.
    + apply linked_straight. intros s Hs. rewrite line_part. apply offs_path, Bef.
      assert (0 <= t - k < t) by (unfold k; lra). split; [apply Rmult_le_pos; lra|]. apply Rle_lt_trans with (1 * (t - k)); [apply Rmult_le_compat_r; lra|lra].
Qed.

Theorem same_linked x y : ~ on_path p x -> ~ on_path p y -> wn p x = wn p y -> linked l x y.
Proof.
  intros Ox Oy E. destruct (to_path x Ox) as (q & Oq & X). destruct (to_path y Oy) as (q' & Oq' & Y).
  destruct (all_conn q q' Oq Oq') as (r1 & r2 & P1 & P2 & H).
  destruct (X r1 P1) as (x' & Dx' & Ox' & Lx). destruct (Y r2 P2) as (y' & Dy' & Oy' & Ly).
  apply linked_trans with x'; [exact Lx|]. apply linked_trans with y'; [|apply linked_sym, Ly]. apply H; auto.
  rewrite <- (linked_tot l x x' (oks_l p ok) (looped_l p vl) Lx), <- (linked_tot l y y' (oks_l p ok) (looped_l p vl) Ly).
  unfold l. rewrite <- !wn_tot; auto.
Qed.
End Loop.
