(** Sums, and the turning of the outer sides of a convex polygon (C74). *)
From Coq Require Import Reals ZArith Bool List Arith Lra Lia Psatz Classical.
From Verif Require Import Num RNum Res ModelMath ModelIntr ModelSeg ModelPline.
From Verif Require Import Spec SpecPline SpecGeom SpecIntr SpecOffset SpecOffsetJoin SpecPolyOff SpecRound.
From Verif Require Import ProofR ProofBase ProofIntr ProofArc ProofMeasure ProofConvex ProofRound3 ProofRound4.
Import ListNotations.
Local Open Scope R_scope.

(** ** Sums *)
Fixpoint sumn (n : nat) (f : nat -> R) : R := match n with O => 0 | S k => sumn k f + f k end.

Lemma sumn_ext n f g : (forall i, (i < n)%nat -> f i = g i) -> sumn n f = sumn n g.
Proof. induction n as [|n IH]; intros H; [reflexivity|]. cbn [sumn]. rewrite IH by (intros i L; apply H; lia). now rewrite H by lia. Qed.
Lemma sumn_plus n f g : sumn n (fun i => f i + g i) = sumn n f + sumn n g.
Proof. induction n as [|n IH]; cbn [sumn]; [ring|]. rewrite IH. ring. Qed.
Lemma sumn_scale n k f : sumn n (fun i => k * f i) = k * sumn n f.
Proof. induction n as [|n IH]; cbn [sumn]; [ring|]. rewrite IH. ring. Qed.
Lemma sumn_first n f : sumn (S n) f = f 0%nat + sumn n (fun i => f (i + 1)%nat).
Proof. induction n as [|n IH]; [cbn [sumn]; ring|]. cbn [sumn] in *. rewrite IH. replace (n + 1)%nat with (S n) by lia. ring. Qed.
Lemma sumn_next n f : f n = f 0%nat -> sumn n (fun i => f (i + 1)%nat) = sumn n f.
Proof. intros E. pose proof (sumn_first n f) as H. cbn [sumn] in H. lra. Qed.
Lemma sumn_twice n f : sumn (2 * n) f = sumn n (fun i => f (2 * i)%nat + f (2 * i + 1)%nat).
Proof.
  induction n as [|n IH]; [reflexivity|]. replace (2 * S n)%nat with (S (S (2 * n))) by lia. cbn [sumn]. cbn [sumn] in IH. rewrite IH.
  replace (S (2 * n)) with (2 * n + 1)%nat by lia. ring.
Qed.
Lemma sumn_list {X} (f : X -> R) (g : nat -> R) l : (forall i x, nth_error l i = Some x -> f x = g i) -> rsum (map f l) = sumn (length l) g.
Proof.
  revert g. induction l as [|x l IH]; intros g H; [reflexivity|]. cbn [map length]. rewrite rsum_cons, sumn_first. f_equal; [exact (H 0%nat x eq_refl)|].
  apply IH. intros i y E. replace (i + 1)%nat with (S i) by lia. now apply H.
Qed.

(** ** Areas and lengths of single segments *)
Lemma line_area2 v1 v2 : pbulge v1 = 0 -> area_data (seg_data (v1, v2)) = cross (pos v1) (pos v2).
Proof. intros E. unfold area_data, seg_data, arc_area2, cross, pos. cbn [fst snd vx vy]. rewrite E. destruct (Req_EM_T 0 0) as [_|N]; [ring|lra]. Qed.

Lemma arc_area v1 v2 c r a : pbulge v1 <> 0 -> is_arc (pos v1) (pos v2) (pbulge v1) c r a ->
  area_data (seg_data (v1, v2)) = r * r * sweep (pbulge v1) + cross c (vec (pos v1) (pos v2)).
Proof.
  intros NZ A. destruct (arc_unique _ _ _ _ _ _ NZ A) as (-> & ->). unfold area_data, seg_data, arc_area2. cbn [fst snd].
  destruct (Req_EM_T (pbulge v1) 0) as [E|_]; [contradiction|]. set (b := pbulge v1) in *.
  assert (R2 : radius_of (pos v1) (pos v2) b * radius_of (pos v1) (pos v2) b = chord2 (pos v1) (pos v2) * ((1 + b * b) * (1 + b * b)) / (16 * (b * b))).
  { unfold radius_of.
    assert (HL : sqrt (chord2 (pos v1) (pos v2)) * sqrt (chord2 (pos v1) (pos v2)) = chord2 (pos v1) (pos v2)) by (apply sqrt_sqrt; apply sumsq_nonneg).
    assert (Hab : Rabs b * Rabs b = b * b) by (rewrite <- Rabs_mult; apply Rabs_pos_eq; apply Rle_0_sqr).
    pose proof (Rabs_pos_lt _ NZ). set (L := sqrt (chord2 (pos v1) (pos v2))) in *.
    transitivity (L * L * ((1 + b * b) * (1 + b * b)) / (16 * (Rabs b * Rabs b))); [field; lra|].
    rewrite HL, Hab. reflexivity. }
  rewrite R2. unfold chord2, centre_of, cross, vec. cbn [pos vx vy]. field. exact NZ.
Qed.

Lemma line_len v1 v2 : pbulge v1 = 0 -> seg_len_R v1 v2 = dist (pos v1) (pos v2).
Proof. intros E. unfold seg_len_R. destruct (Req_EM_T (pbulge v1) 0); [reflexivity|contradiction]. Qed.
Lemma arc_len v1 v2 c r a : pbulge v1 <> 0 -> is_arc (pos v1) (pos v2) (pbulge v1) c r a -> seg_len_R v1 v2 = r * Rabs (sweep (pbulge v1)).
Proof. intros NZ A. destruct (arc_unique _ _ _ _ _ _ NZ A) as (_ & ->). unfold seg_len_R. destruct (Req_EM_T (pbulge v1) 0); [contradiction|reflexivity]. Qed.

Lemma turn_shift a b x : turn a = turn b -> turn (a + x) = turn (b + x).
Proof. unfold turn. intros E. injection E as C S. rewrite !cos_plus, !sin_plus, C, S. reflexivity. Qed.

Section Steiner.
Variables (s e eps m : R) (ps : list (vec2 R)) (vws : list (vertex R * vertex R)).
Hypothesis Hs : s = 1 \/ s = -1.
Hypothesis He : 0 < e.
Hypothesis Hm : 0 < m.
Hypothesis Ro : roomy s e m ps.
Hypothesis Co : coarse eps e m.
Hypothesis CD : forall a b, In (a, b) (spec_segs ps true) -> clear_direction a b.
Hypothesis RC : rounded_corners ps (- s * e) eps vws.
Let n := length ps.
Let P := rP ps.
Let O := rO s ps.
Let D := rD ps.
Let V := rV ps vws.
Let W := rW ps vws.
Let th (i : nat) : R := s * sweep (pbulge (V i)).

Lemma st_n3 : (3 <= n)%nat. Proof. apply Ro. Qed.
Lemma st_ss : s * s = 1. Proof. destruct Hs as [-> | ->]; ring. Qed.

Lemma st_cross i : 0 < s * cross (O i) (O (i + 1)).
Proof.
  pose proof (turn_cross s e m ps Ro i) as T. fold P D in T. pose proof (rD_pos s e m ps Ro i) as D1. pose proof (rD_pos s e m ps Ro (i + 1)) as D2. fold D in D1, D2.
  assert (0 < m * D i) by (apply Rmult_lt_0_compat; lra).
  assert (Q : cross (O i) (O (i + 1)) * (D i * D (i + 1)) = cross (vec (P i) (P (i + 1))) (vec (P (i + 1)) (P (i + 2)))).
  { replace (i + 2)%nat with (i + 1 + 1)%nat by lia. unfold cross, O, rO, rN, vec. fold P D. cbn [vx vy].
    transitivity (s * s * ((vx (P (i + 1)) - vx (P i)) * (vy (P (i + 1 + 1)) - vy (P (i + 1))) - (vy (P (i + 1)) - vy (P i)) * (vx (P (i + 1 + 1)) - vx (P (i + 1))))); [field; lra|]. rewrite st_ss. ring. }
  rewrite <- Q in T. apply Rmult_lt_reg_r with (D i * D (i + 1)); [apply Rmult_lt_0_compat; lra|]. lra.
Qed.

Lemma st_arc i : exists al, is_arc (pos (V i)) (pos (W (i + 1))) (pbulge (V i)) (P (i + 1)) e al.
Proof. exact (proj1 (proj2 (proj2 (rc_data s e eps m ps vws Hs He Ro CD RC i)))). Qed.

Lemma th_range i : 0 < th i < PI.
Proof.
  destruct (st_arc i) as (al & A). destruct (arc_sweep s e eps m ps vws Hs He Hm Ro Co CD RC i al A) as (B & NZ & E1 & E2). pose proof (st_cross i) as C.
  unfold O in C. rewrite <- E1, <- E2, cross_turn in C. unfold th. set (x := sweep (pbulge (V i))) in *. fold V in B, NZ, C. fold x in B, NZ, C.
  replace (al + x - al) with x in C by ring.
  destruct (Rdichotomy _ _ NZ) as [L|L].
  - assert (sin x < 0) by (apply sin_lt_0_var; lra). destruct Hs as [E|E]; rewrite E in *; lra.
  - assert (0 < sin x) by (apply sin_gt_0; lra). destruct Hs as [E|E]; rewrite E in *; lra.
Qed.

(** The turning up to a side. *)
Let psi (j : nat) : R := sumn j th.
Lemma psi_turn al : turn al = O 0 -> forall j, turn (al + s * psi j) = O j.
Proof.
  intros E. induction j as [|j IH]; [unfold psi; cbn [sumn]; now rewrite Rmult_0_r, Rplus_0_r|].
  destruct (st_arc j) as (a & A). destruct (arc_sweep s e eps m ps vws Hs He Hm Ro Co CD RC j a A) as (_ & _ & E1 & E2). fold O in E1, E2. fold V in E2.
  unfold psi in *. cbn [sumn]. replace (al + s * (sumn j th + th j)) with (al + s * sumn j th + sweep (pbulge (V j))).
  2:{ assert (X : s * th j = sweep (pbulge (V j))) by (unfold th; rewrite <- Rmult_assoc, st_ss; ring). rewrite <- X. ring. }
  rewrite (turn_shift _ a); [replace (S j) with (j + 1)%nat by lia; exact E2|]. now rewrite IH.
Qed.

Lemma psi_step j : psi j < psi (S j) < psi j + PI.
Proof. unfold psi. cbn [sumn]. pose proof (th_range j). lra. Qed.
Lemma psi_pos j : (0 < j)%nat -> 0 < psi j.
Proof. induction j as [|j IH]; [lia|]. intros _. pose proof (psi_step j) as (A & _). destruct j as [|j]; [unfold psi in *; cbn [sumn] in *; lra|]. specialize (IH ltac:(lia)). lra. Qed.

Lemma first_over a k : 0 < a -> a <= psi k -> exists j, (j < k)%nat /\ psi j < a <= psi (S j).
Proof.
  intros Ha. induction k as [|k IH]; [unfold psi; cbn [sumn]; lra|]. intros L. destruct (Rle_dec a (psi k)) as [Q|Q].
  - destruct (IH Q) as (j & J & B). exists j. split; [lia|exact B].
  - exists k. split; [lia|lra].
Qed.

Theorem turning : psi n = 2 * PI.
Proof.
  pose proof st_n3 as N3. pose proof PI_RGT_0 as Pi.
  destruct (st_arc 0) as (al & A0). destruct (arc_sweep s e eps m ps vws Hs He Hm Ro Co CD RC 0 al A0) as (_ & _ & E0 & _). fold O in E0.
  pose proof (psi_turn al E0) as T. pose proof (T n) as Tn.
  assert (On : O n = O 0%nat). { unfold O. apply (rO_mod s e m ps Ro). fold n. rewrite Nat.mod_same, Nat.mod_0_l by lia. reflexivity. }
  rewrite On, <- E0 in Tn. unfold turn in Tn. injection Tn as Cn Sn. destruct (cos_sin_congr _ _ Cn Sn) as (k & Ek).
  assert (Pk : psi n = IZR (if Rlt_dec s 0 then - k else k)%Z * (2 * PI)).
  { destruct Hs as [E|E]; rewrite E in Ek; destruct (Rlt_dec s 0) as [L|L]; try lra; rewrite ?opp_IZR; lra. }
  set (z := (if Rlt_dec s 0 then - k else k)%Z) in *. pose proof (psi_pos n ltac:(lia)) as Pp.
  assert (Z1 : (1 <= z)%Z). { assert (0 < IZR z) by (apply Rmult_lt_reg_r with (2 * PI); lra). assert (0 < z)%Z by now apply lt_IZR. lia. }
  destruct (Z.eq_dec z 1) as [E1|N1]; [rewrite Pk, E1; lra|]. exfalso.
  assert (Z2 : 2 <= IZR z) by (change 2 with (IZR 2); apply IZR_le; lia).
  assert (L4 : 4 * PI <= psi n). { rewrite Pk. replace (4 * PI) with (2 * (2 * PI)) by ring. apply Rmult_le_compat_r; lra. }
  destruct (first_over (2 * PI) n ltac:(lra) ltac:(lra)) as (j & J & B1 & B2). pose proof (psi_step j) as SJ.
  assert (J2 : (2 <= j)%nat). { destruct j as [|[|j]]; [| |lia]; exfalso; [unfold psi in *; cbn [sumn] in *|pose proof (psi_step 0) as S0; unfold psi in *; cbn [sumn] in *]; lra. }
  assert (Jn : (S j < n)%nat). { assert (S j <> n) by (intros E; rewrite <- E in L4; lra). lia. }
  destruct (st_arc j) as (a & A). destruct (arc_sweep s e eps m ps vws Hs He Hm Ro Co CD RC j a A) as (_ & _ & F1 & _). fold O in F1.
  pose proof (th_range j) as Tj. set (t := (2 * PI - psi j) / th j).
  assert (Et : t * th j = 2 * PI - psi j) by (unfold t; field; lra).
  assert (Ht : 0 <= t <= 1).
  { split; [apply Rmult_le_pos; [lra|apply Rlt_le, Rinv_0_lt_compat; lra]|]. apply Rmult_le_reg_r with (th j); [lra|]. rewrite Et. unfold psi in B2 |- *. cbn [sumn] in B2. lra. }
  pose proof (on_arc s e eps m ps vws Hs He Hm Ro Co CD RC j a t A Ht) as (_ & _ & B). fold V P in B.
  assert (EO : turn (a + t * sweep (pbulge (V j))) = O 0%nat).
  { rewrite (turn_shift a (al + s * psi j)) by (now rewrite T). rewrite <- E0.
    assert (X : t * sweep (pbulge (V j)) = s * (2 * PI - psi j)). { rewrite <- Et. unfold th. transitivity (s * s * (t * sweep (pbulge (V j)))); [rewrite st_ss; ring|ring]. }
    rewrite X. replace (al + s * psi j + s * (2 * PI - psi j)) with (al + s * (2 * PI)) by ring. unfold turn.
    assert (G : congr (al + s * (2 * PI)) al) by (destruct Hs as [E|E]; rewrite E; [exists 1%Z|exists (-1)%Z]; ring).
    destruct (congr_cos_sin _ _ G) as (-> & ->). reflexivity. }
  rewrite EO in B. specialize (B (P 0%nat) (rK_corner s e m ps Hm Ro 0)).
  pose proof (out_corner s e m ps Ro 0 (j + 1)) as OC. fold n P O in OC. rewrite !Nat.mod_small in OC by lia. specialize (OC ltac:(lia) ltac:(lia)).
  replace (dot (O 0%nat) (vec (P (j + 1)%nat) (P 0%nat))) with (- dot (O 0%nat) (vec (P 0%nat) (P (j + 1)%nat))) in B by (unfold dot, vec; cbn [vx vy]; ring).
  lra.
Qed.
End Steiner.
