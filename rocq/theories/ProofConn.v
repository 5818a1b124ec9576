(** Points on one side of a segment can be joined without meeting it (C67). *)
From Coq Require Import Reals ZArith Bool List Arith Lra Lia Psatz Classical.
From Verif Require Import Num RNum Res ModelMath ModelSeg ModelPline Spec SpecGeom SpecBox SpecWinding SpecView SpecBoolean SpecJordan.
From Verif Require Import ProofR ProofBase ProofIter ProofArc ProofArc2 ProofSlice ProofMeasure ProofWalk ProofIntr ProofWinding ProofWinding2 ProofWinding3 ProofWinding4 ProofWinding6 ProofWinding7 ProofSegIntr5 ProofPolyOff2 ProofNest ProofJordan ProofJordan2 ProofJordan3 ProofJordan4 ProofJordan5.
Import ListNotations.
Local Open Scope R_scope.

(** What holds at all points near a point off the segments or at none. *)
Definition steady (l : list seg) (G : vec2 R -> Prop) : Prop :=
  forall x, offs l x -> exists e, 0 < e /\ forall x', dist x x' < e -> (G x <-> G x').
(** No such thing tells the two points apart. *)
Definition linked (l : list seg) (x y : vec2 R) : Prop := forall G, steady l G -> (G x <-> G y).

Lemma linked_refl l x : linked l x x.
Proof. intros G _. tauto. Qed.
Lemma linked_sym l x y : linked l x y -> linked l y x.
Proof. intros H G S. specialize (H G S). tauto. Qed.
Lemma linked_trans l x y z : linked l x y -> linked l y z -> linked l x z.
Proof. intros H H' G S. specialize (H G S). specialize (H' G S). tauto. Qed.

Lemma carry (P : R -> Prop) : (forall u, 0 <= u <= 1 -> exists d, 0 < d /\ forall v, 0 <= v <= 1 -> Rabs (v - u) < d -> (P u <-> P v)) -> P 0 -> P 1.
Proof.
  intros H P0. apply NNPP. intros P1. destruct (first_hit (fun u => ~ P u)) as (u & Hu & Nu & Be).
  - intros u Hu NN. apply NNPP in NN. destruct (H u Hu) as (d & Hd & D). exists d. split; [exact Hd|]. intros v Hv Hvu N. apply N, (D v Hv Hvu), NN.
  - exact P1.
  - destruct (H u Hu) as (d & Hd & D).
    assert (U0 : 0 < u). { apply Rnot_le_lt. intros L. replace u with 0 in Nu by lra. now apply Nu. }
    set (v := u - Rmin d u / 2). assert (M : 0 < Rmin d u) by (apply Rmin_pos; lra). pose proof (Rmin_l d u). pose proof (Rmin_r d u).
    apply Nu. apply (D v); [unfold v; lra|unfold v; rewrite Rabs_left; lra|]. apply NNPP, Be. unfold v; lra.
Qed.

Lemma curve_cont (x y : R -> R) u e : continuity x -> continuity y -> 0 < e ->
  exists d, 0 < d /\ forall v, Rabs (v - u) < d -> dist (V2 (x u) (y u)) (V2 (x v) (y v)) < e.
Proof.
  intros Cx Cy He. destruct (Cx u (e / 2) ltac:(lra)) as (d1 & Hd1 & D1). destruct (Cy u (e / 2) ltac:(lra)) as (d2 & Hd2 & D2).
  exists (Rmin d1 d2). split; [now apply Rmin_pos|]. intros v Hv. destruct (Req_dec u v) as [->|NE]; [rewrite dist_self; exact He|].
  assert (A1 : Rabs (x v - x u) < e / 2) by (apply (D1 v); split; [split; [exact I|exact NE]|]; cbn; unfold R_dist; eapply Rlt_le_trans; [exact Hv|apply Rmin_l]).
  assert (A2 : Rabs (y v - y u) < e / 2) by (apply (D2 v); split; [split; [exact I|exact NE]|]; cbn; unfold R_dist; eapply Rlt_le_trans; [exact Hv|apply Rmin_r]).
  unfold dist. cbn [vx vy]. replace e with (sqrt (e * e)) by (apply sqrt_square; lra). apply sqrt_lt_1_alt.
  split; [apply Rplus_le_le_0_compat; apply Rle_0_sqr|]. apply Rabs_def2 in A1. apply Rabs_def2 in A2.
  assert ((x u - x v) * (x u - x v) <= e / 2 * (e / 2)) by (apply neg_pos_Rsqr_le; lra).
  assert ((y u - y v) * (y u - y v) <= e / 2 * (e / 2)) by (apply neg_pos_Rsqr_le; lra). nra.
Qed.

Lemma linked_curve l (x y : R -> R) a b : continuity x -> continuity y -> a <= b ->
  (forall t, a <= t <= b -> offs l (V2 (x t) (y t))) -> linked l (V2 (x a) (y a)) (V2 (x b) (y b)).
Proof.
  intros Cx Cy L Off.
  assert (Gr : forall u, 0 <= u <= 1 -> a <= a + u * (b - a) <= b).
  { intros u Hu. assert (0 <= u * (b - a)) by (apply Rmult_le_pos; lra). assert (u * (b - a) <= 1 * (b - a)) by (apply Rmult_le_compat_r; lra). lra. }
  assert (H : forall G, steady l G -> G (V2 (x a) (y a)) -> G (V2 (x b) (y b))).
  { intros G S G0. set (g := fun u => a + u * (b - a)).
    assert (C : continuity g) by (intros u; apply continuity_affine).
    assert (K1 : continuity (fun u => x (g u))) by (intros u; apply (continuity_pt_comp g x); [apply C|apply Cx]).
    assert (K2 : continuity (fun u => y (g u))) by (intros u; apply (continuity_pt_comp g y); [apply C|apply Cy]).
    assert (E : G (V2 (x (g 1)) (y (g 1)))).
    { apply (carry (fun u => G (V2 (x (g u)) (y (g u))))).
      - intros u Hu. destruct (S _ (Off (g u) (Gr u Hu))) as (e & He & K). destruct (curve_cont _ _ u e K1 K2 He) as (d & Hd & D).
        exists d. split; [exact Hd|]. intros v _ Hv. apply K, D, Hv.
      - unfold g. replace (a + 0 * (b - a)) with a by ring. exact G0. }
    unfold g in E. replace (a + 1 * (b - a)) with b in E by ring. exact E. }
  intros G S. split; [apply H, S|]. intros Gb. apply NNPP. intros Na. apply (H (fun q => ~ G q)) in Na; [contradiction|].
  intros q Oq. destruct (S q Oq) as (e & He & K). exists e. split; [exact He|]. intros q' Hq'. specialize (K q' Hq'). tauto.
Qed.

Lemma linked_straight l x y : (forall t, 0 <= t <= 1 -> offs l (line_pt x y t)) -> linked l x y.
Proof.
  intros Off. destruct (line_pt_ends x y) as (E0 & E1).
  rewrite <- E0 at 1. rewrite <- E1 at 2.
  apply (linked_curve l (fun t => vx x + t * (vx y - vx x)) (fun t => vy x + t * (vy y - vy x)) 0 1).
  - intros t. apply continuity_affine.
  - intros t. apply continuity_affine.
  - lra.
  - exact Off.
Qed.

Lemma linked_tot l x y : oks l -> looped l -> linked l x y -> tot l x = tot l y.
Proof.
  intros Ok Lp H. symmetry. apply (H (fun q => tot l q = tot l x)); [|reflexivity].
  intros q Oq. destruct (tot_local l q Ok Lp Oq) as (e & He & K). exists e. split; [exact He|]. intros q' D. destruct (K q' D) as (_ & ->). tauto.
Qed.

Lemma linked_local l x : oks l -> offs l x -> exists e, 0 < e /\ forall x', dist x x' < e -> offs l x' /\ linked l x x'.
Proof.
  intros Ok Off. destruct (offs_room l x Ok Off) as (e & He & K). exists e. split; [exact He|]. intros x' Hx.
  split; [intros s I O; specialize (K s x' I O); lra|]. apply linked_straight.
  intros t Ht s I O. specialize (K s _ I O). pose proof (dist_line x x' t Ht). lra.
Qed.

(** ** One side of a segment *)
Lemma dist_lt x y r : 0 < r -> (dist x y < r <-> (vx y - vx x) * (vx y - vx x) + (vy y - vy x) * (vy y - vy x) < r * r).
Proof.
  intros Hr. unfold dist.
  replace ((vx x - vx y) * (vx x - vx y) + (vy x - vy y) * (vy x - vy y)) with ((vx y - vx x) * (vx y - vx x) + (vy y - vy x) * (vy y - vy x)) by ring.
  set (N := (vx y - vx x) * (vx y - vx x) + (vy y - vy x) * (vy y - vy x)). assert (N0 : 0 <= N) by (apply Rplus_le_le_0_compat; apply Rle_0_sqr).
  pose proof (sqrt_pos N) as SP. pose proof (sqrt_sqrt N N0) as SS. split; intros H.
  - rewrite <- SS. apply Rmult_le_0_lt_compat; lra.
  - rewrite <- (sqrt_square r) by lra. apply sqrt_lt_1_alt. lra.
Qed.

Lemma ball_convex (a b a' b' t M : R) : 0 <= t <= 1 -> a * a + b * b <= M -> a' * a' + b' * b' <= M ->
  (a + t * (a' - a)) * (a + t * (a' - a)) + (b + t * (b' - b)) * (b + t * (b' - b)) <= M.
Proof.
  intros Ht H H'.
  replace ((a + t * (a' - a)) * (a + t * (a' - a)) + (b + t * (b' - b)) * (b + t * (b' - b)))
    with ((1 - t) * (a * a + b * b) + t * (a' * a' + b' * b') - t * (1 - t) * ((a' - a) * (a' - a) + (b' - b) * (b' - b))) by ring.
  assert (0 <= t * (1 - t) * ((a' - a) * (a' - a) + (b' - b) * (b' - b))).
  { apply Rmult_le_pos; [apply Rmult_le_pos; lra|apply Rplus_le_le_0_compat; apply Rle_0_sqr]. }
  assert ((1 - t) * (a * a + b * b) <= (1 - t) * M) by (apply Rmult_le_compat_l; lra).
  assert (t * (a' * a' + b' * b') <= t * M) by (apply Rmult_le_compat_l; lra). lra.
Qed.

Lemma same_side s z r : okseg s -> ends_differ s -> sideof s z = 0 -> 0 < r ->
  exists e, 0 < e <= r /\ forall sg x y, sg = 1 \/ sg = -1 -> dist z x < e -> dist z y < e -> 0 < sg * sideof s x -> 0 < sg * sideof s y ->
  exists u w, (forall t, 0 <= t <= 1 -> dist z (line_pt x u t) < r /\ sideof s (line_pt x u t) <> 0)
  /\ (forall t, 0 <= t <= 1 -> dist z (line_pt u w t) < r /\ sideof s (line_pt u w t) <> 0)
  /\ (forall t, 0 <= t <= 1 -> dist z (line_pt w y t) < r /\ sideof s (line_pt w y t) <> 0).
Proof.
  destruct s as [v1 v2]. intros Ok Df Z Hr. unfold ends_differ in Df. cbn [fst snd] in Df. pose proof (chord2_pos _ _ Df) as C. unfold chord2 in C. cbn [pos vx vy] in C.
  set (b := pbulge v1).
  assert (Hb : -1 <= b <= 1).
  { destruct Ok as [[E|[_ E]] _]; cbn [fst] in E; fold b in E; [rewrite E; lra|]. unfold Rabs in E. destruct (Rcase_abs b); lra. }
  set (gx := (1 - b * b) * - (py v2 - py v1) - 2 * b * (2 * vx z - px v1 - px v2)).
  set (gy := (1 - b * b) * (px v2 - px v1) - 2 * b * (2 * vy z - py v1 - py v2)).
  set (L := (px v2 - px v1) * (px v2 - px v1) + (py v2 - py v1) * (py v2 - py v1)).
  assert (HL : 0 < L) by (unfold L; nra).
  assert (EG : gx * gx + gy * gy = (1 + b * b) * (1 + b * b) * L - 8 * b * sideof (v1, v2) z).
  { unfold gx, gy, L, sideof, perp, dotp. cbn [fst snd]. fold b. ring. }
  rewrite Z, Rmult_0_r, Rminus_0_r in EG. assert (0 <= b * b) by nra.
  set (G := gx * gx + gy * gy) in *.
  assert (Pg : 0 < G) by (rewrite EG; repeat apply Rmult_lt_0_compat; lra).
  assert (T : forall u v, sideof (v1, v2) (V2 (vx z + u) (vy z + v)) = gx * u + gy * v - 2 * b * (u * u + v * v)).
  { intros u v. transitivity (sideof (v1, v2) z + (gx * u + gy * v - 2 * b * (u * u + v * v))); [|rewrite Z; ring].
    unfold gx, gy, sideof, perp, dotp. cbn [fst snd vx vy]. fold b. ring. }
  clearbody gx gy. clear EG.
  set (m := sqrt G). assert (Hm : 0 < m) by (apply sqrt_lt_R0; exact Pg). assert (Em : m * m = G) by (apply sqrt_sqrt; lra).
  set (k := Rmin (1 / 8) (r / (2 * m))). assert (P : 0 < r / (2 * m)) by (apply Rdiv_lt_0_compat; lra).
  assert (Hk : 0 < k) by (apply Rmin_pos; lra). pose proof (Rmin_l (1 / 8) (r / (2 * m))) as K1. pose proof (Rmin_r (1 / 8) (r / (2 * m))) as K2. fold k in K1, K2.
  assert (KM : k * m <= r / 2). { apply Rle_trans with (r / (2 * m) * m); [apply Rmult_le_compat_r; lra|]. replace (r / (2 * m) * m) with (r / 2) by (field; lra). lra. }
  assert (Pkm : 0 < k * m) by (apply Rmult_lt_0_compat; assumption).
  set (e := k * m / 4). assert (He : 0 < e) by (unfold e; lra).
  exists e. split; [unfold e; lra|].
  assert (E2 : e * e = k * k * G / 16) by (unfold e; rewrite <- Em; field).
  assert (R2 : k * k * G * 2 < r * r).
  { assert (k * m * (k * m) <= r / 2 * (r / 2)) by (apply Rmult_le_compat; lra). rewrite <- Em. nra. }
  (* products with the direction *)
  assert (CS : forall u v, u * u + v * v <= e * e -> - (k * G / 4) <= gx * u + gy * v <= k * G / 4).
  { intros u v H'. assert (Q : (gx * u + gy * v) * (gx * u + gy * v) <= k * G / 4 * (k * G / 4)).
    { apply Rle_trans with (G * (u * u + v * v)).
      - assert (0 <= (gx * v - gy * u) * (gx * v - gy * u)) by apply Rle_0_sqr. unfold G. lra.
      - apply Rle_trans with (G * (e * e)); [apply Rmult_le_compat_l; lra|]. rewrite E2. lra. }
    assert (0 < k * G) by (apply Rmult_lt_0_compat; assumption).
    assert (Q' := Rsqr_le_abs_0 _ _ Q). rewrite (Rabs_right (k * G / 4)) in Q' by lra. unfold Rabs in Q'. destruct (Rcase_abs (gx * u + gy * v)); lra. }
  (* up from a point of the ball *)
  assert (kG : 0 < k * G) by (apply Rmult_lt_0_compat; assumption).
  assert (Far : forall sg j u v, sg = 1 \/ sg = -1 -> 0 <= j <= k -> u * u + v * v <= e * e ->
    (sg * j * gx + u) * (sg * j * gx + u) + (sg * j * gy + v) * (sg * j * gy + v) < r * r).
  { intros sg j u v Hs Hj Hu.
    apply Rle_lt_trans with (sg * sg * (j * j) * G + 2 * (sg * j) * (gx * u + gy * v) + (u * u + v * v)); [right; unfold G; ring|].
    assert (sg * sg = 1) by (destruct Hs as [-> | ->]; ring). rewrite H0, Rmult_1_l.
    destruct (CS u v Hu) as (C1 & C2).
    assert (2 * (sg * j) * (gx * u + gy * v) <= 2 * j * (k * G / 4)).
    { destruct Hs as [-> | ->].
      - rewrite Rmult_1_l. apply Rmult_le_compat_l; lra.
      - replace (2 * (-1 * j) * (gx * u + gy * v)) with (2 * j * - (gx * u + gy * v)) by ring. apply Rmult_le_compat_l; lra. }
    assert (j * (k * G) <= k * (k * G)) by (apply Rmult_le_compat_r; lra).
    assert (j * j * G <= k * k * G) by (apply Rmult_le_compat_r; [lra|]; apply Rmult_le_compat; lra).
    assert (0 < k * k * G) by (rewrite Rmult_assoc; apply Rmult_lt_0_compat; assumption). lra. }
  assert (Up : forall sg j u v, sg = 1 \/ sg = -1 -> 0 <= j <= k -> u * u + v * v <= e * e -> 0 < sg * sideof (v1, v2) (V2 (vx z + u) (vy z + v)) ->
    0 < sg * sideof (v1, v2) (V2 (vx z + (sg * j * gx + u)) (vy z + (sg * j * gy + v)))).
  { intros sg j u v Hs Hj Hu H1.
    apply Rlt_le_trans with (sg * sideof (v1, v2) (V2 (vx z + u) (vy z + v))); [exact H1|].
    rewrite !T.
    replace (sg * (gx * (sg * j * gx + u) + gy * (sg * j * gy + v) - 2 * b * ((sg * j * gx + u) * (sg * j * gx + u) + (sg * j * gy + v) * (sg * j * gy + v))))
      with (sg * (gx * u + gy * v - 2 * b * (u * u + v * v)) + sg * sg * (j * G) - 4 * (sg * sg) * b * j * (gx * u + gy * v) - 2 * (sg * sg) * sg * b * (j * j * G)) by (unfold G; ring).
    assert (S2 : sg * sg = 1) by (destruct Hs as [-> | ->]; ring). rewrite S2.
    destruct (CS u v Hu) as (C1 & C2).
    assert (B1 : b * (gx * u + gy * v) <= k * G / 4).
    { destruct (Rle_dec 0 b).
      - apply Rle_trans with (b * (k * G / 4)); [apply Rmult_le_compat_l; lra|]. rewrite <- (Rmult_1_l (k * G / 4)) at 2. apply Rmult_le_compat_r; lra.
      - replace (b * (gx * u + gy * v)) with (- b * - (gx * u + gy * v)) by ring.
        apply Rle_trans with (- b * (k * G / 4)); [apply Rmult_le_compat_l; lra|]. rewrite <- (Rmult_1_l (k * G / 4)) at 2. apply Rmult_le_compat_r; lra. }
    assert (B2 : j * (b * (gx * u + gy * v)) <= j * (k * G / 4)) by (apply Rmult_le_compat_l; lra).
    assert (B3 : k * (j * G) <= 1 / 8 * (j * G)) by (apply Rmult_le_compat_r; [apply Rmult_le_pos; lra|lra]).
    assert (B4 : j * j * G <= k * j * G) by (apply Rmult_le_compat_r; [lra|]; apply Rmult_le_compat_r; lra).
    assert (B5 : sg * b * (j * j * G) <= 1 * (j * j * G)).
    { apply Rmult_le_compat_r; [apply Rmult_le_pos; [apply Rmult_le_pos; lra|lra]|]. destruct Hs as [-> | ->]; lra. }
    assert (0 <= j * G) by (apply Rmult_le_pos; lra). lra. }
  assert (Top : forall sg u v, sg = 1 \/ sg = -1 -> u * u + v * v <= e * e ->
    0 < sg * sideof (v1, v2) (V2 (vx z + (sg * k * gx + u)) (vy z + (sg * k * gy + v)))).
  { intros sg u v Hs Hu. rewrite T.
    replace (sg * (gx * (sg * k * gx + u) + gy * (sg * k * gy + v) - 2 * b * ((sg * k * gx + u) * (sg * k * gx + u) + (sg * k * gy + v) * (sg * k * gy + v))))
      with (sg * sg * (k * G) + sg * (gx * u + gy * v) - 2 * (sg * b) * (sg * sg * (k * k * G) + 2 * sg * k * (gx * u + gy * v) + (u * u + v * v))) by (unfold G; ring).
    assert (S2 : sg * sg = 1) by (destruct Hs as [-> | ->]; ring). rewrite S2.
    destruct (CS u v Hu) as (C1 & C2).
    assert (B1 : - (k * G / 4) <= sg * (gx * u + gy * v) <= k * G / 4) by (destruct Hs as [-> | ->]; lra).
    assert (B2 : k * (k * G) <= 1 / 8 * (k * G)) by (apply Rmult_le_compat_r; lra).
    set (N := 1 * (k * k * G) + 2 * sg * k * (gx * u + gy * v) + (u * u + v * v)).
    assert (HN : 0 <= N). { replace N with ((sg * k * gx + u) * (sg * k * gx + u) + (sg * k * gy + v) * (sg * k * gy + v)); [apply Rplus_le_le_0_compat; apply Rle_0_sqr|].
      unfold N. rewrite <- S2 at 1. unfold G. ring. }
    assert (HN2 : N <= 13 / 8 * (k * (k * G))).
    { unfold N. assert (k * (sg * (gx * u + gy * v)) <= k * (k * G / 4)) by (apply Rmult_le_compat_l; lra). rewrite E2 in Hu.
      assert (0 < k * (k * G)) by (apply Rmult_lt_0_compat; assumption). lra. }
    assert (B3 : sg * b * N <= 1 * N) by (apply Rmult_le_compat_r; [exact HN|]; destruct Hs as [-> | ->]; lra). lra. }
  intros sg x y Hs Dx Dy Sx Sy. apply dist_lt in Dx; [|exact He]. apply dist_lt in Dy; [|exact He].
  set (ux := vx x - vx z) in *. set (vx' := vy x - vy z) in *. set (uy := vx y - vx z) in *. set (vy' := vy y - vy z) in *.
  assert (Ex : x = V2 (vx z + ux) (vy z + vx')) by (apply vec2_eq; cbn [vx vy]; unfold ux, vx'; ring).
  assert (Ey : y = V2 (vx z + uy) (vy z + vy')) by (apply vec2_eq; cbn [vx vy]; unfold uy, vy'; ring).
  rewrite Ex in Sx |- *. rewrite Ey in Sy |- *. clear Ex Ey. clearbody ux vx' uy vy'.
  assert (Nz : forall a, 0 < sg * a -> a <> 0) by (intros a H' ->; lra).
  assert (Dist : forall u v, u * u + v * v < r * r -> dist z (V2 (vx z + u) (vy z + v)) < r).
  { intros u v H'. apply dist_lt; [exact Hr|]. cbn [vx vy]. replace (vx z + u - vx z) with u by ring. replace (vy z + v - vy z) with v by ring. exact H'. }
  exists (V2 (vx z + (sg * k * gx + ux)) (vy z + (sg * k * gy + vx'))), (V2 (vx z + (sg * k * gx + uy)) (vy z + (sg * k * gy + vy'))).
  split; [|split]; intros t Ht.
  - replace (line_pt _ _ t) with (V2 (vx z + (sg * (t * k) * gx + ux)) (vy z + (sg * (t * k) * gy + vx'))) by (unfold line_pt; apply vec2_eq; cbn [vx vy]; ring).
    assert (Hj : 0 <= t * k <= k). { split; [apply Rmult_le_pos; lra|]. rewrite <- (Rmult_1_l k) at 2. apply Rmult_le_compat_r; lra. }
    split; [apply Dist, (Far sg (t * k) ux vx' Hs Hj); lra|apply Nz, (Up sg (t * k) ux vx' Hs Hj); lra].
  - replace (line_pt _ _ t) with (V2 (vx z + (sg * k * gx + (ux + t * (uy - ux)))) (vy z + (sg * k * gy + (vx' + t * (vy' - vx'))))) by (unfold line_pt; apply vec2_eq; cbn [vx vy]; ring).
    pose proof (ball_convex ux vx' uy vy' t (e * e) Ht ltac:(lra) ltac:(lra)) as BC.
    split; [apply Dist, (Far sg k _ _ Hs ltac:(lra) BC)|apply Nz, (Top sg _ _ Hs BC)].
  - replace (line_pt _ _ t) with (V2 (vx z + (sg * ((1 - t) * k) * gx + uy)) (vy z + (sg * ((1 - t) * k) * gy + vy'))) by (unfold line_pt; apply vec2_eq; cbn [vx vy]; ring).
    assert (Hj : 0 <= (1 - t) * k <= k). { split; [apply Rmult_le_pos; lra|]. rewrite <- (Rmult_1_l k) at 2. apply Rmult_le_compat_r; lra. }
    split; [apply Dist, (Far sg ((1 - t) * k) uy vy' Hs Hj); lra|apply Nz, (Up sg ((1 - t) * k) uy vy' Hs Hj); lra].
Qed.

(** ** Around a point of the path *)
(** Points off the path near [z] and [z'] that it goes around equally often are linked. *)
Definition conn (l : list seg) (z z' : vec2 R) : Prop :=
  exists r r', 0 < r /\ 0 < r' /\ forall x y, dist z x < r -> dist z' y < r' -> offs l x -> offs l y -> tot l x = tot l y -> linked l x y.

Lemma near_conn l1 l2 s z c : let l := l1 ++ s :: l2 in oks l -> looped l -> ends_differ s -> on s z -> near l1 l2 s z c -> conn l z z.
Proof.
  intros l Ok Lp Df Oz (r & Hr & N). assert (Os : okseg s) by (apply Ok; unfold l; apply in_elt).
  destruct (same_side s z r Os Df (on_side s z Os Oz) Hr) as (e & He & Sm).
  assert (Offw : forall w, dist z w < r -> sideof s w <> 0 -> offs l w).
  { intros w Dw Sw. destruct (N w Dw) as (Oo & _). intros u Iu. unfold l in Iu. apply in_app_iff in Iu. cbn [In] in Iu.
    destruct Iu as [Iu|[<-|Iu]]; [apply Oo, in_app_iff; auto|intros On; apply Sw, (on_side _ _ Os On)|apply Oo, in_app_iff; auto]. }
  assert (Main : forall x y, dist z x < e -> dist z y < e -> sideof s x <> 0 -> sideof s y <> 0 -> tot l x = tot l y -> linked l x y).
  { intros x y Dx Dy Sx Sy E. destruct (N x ltac:(lra)) as (_ & Vx). destruct (N y ltac:(lra)) as (_ & Vy). fold l in Vx, Vy. rewrite (Vx Sx), (Vy Sy) in E.
    assert (G : exists sg, (sg = 1 \/ sg = -1) /\ 0 < sg * sideof s x /\ 0 < sg * sideof s y).
    { unfold over in E. destruct (Rlt_dec 0 (sideof s x)), (Rlt_dec 0 (sideof s y)); try lia; [exists 1|exists (-1)]; (split; [lra|]; split; lra). }
    destruct G as (sg & Hs & Px & Py). destruct (Sm sg x y Hs Dx Dy Px Py) as (u & w & L1 & L2 & L3).
    apply linked_trans with u; [|apply linked_trans with w]; apply linked_straight; intros t Ht; apply Offw; [apply L1|apply L1|apply L2|apply L2|apply L3|apply L3]; exact Ht. }
  assert (Mv : forall x, dist z x < e -> offs l x -> exists x', dist z x' < e /\ sideof s x' <> 0 /\ linked l x x').
  { intros x Dx Ox. destruct (linked_local l x Ok Ox) as (d & Hd & K).
    destruct (side_near s x (Rmin d (e - dist z x)) Df) as (x' & Dx' & Sx'); [apply Rmin_pos; lra|].
    pose proof (Rmin_l d (e - dist z x)). pose proof (Rmin_r d (e - dist z x)). pose proof (dist_triangle z x x').
    exists x'. split; [lra|]. split; [exact Sx'|]. apply K. lra. }
  exists e, e. split; [lra|]. split; [lra|]. intros x y Dx Dy Ox Oy E.
  destruct (Mv x Dx Ox) as (x' & Dx' & Sx' & Lx). destruct (Mv y Dy Oy) as (y' & Dy' & Sy' & Ly).
  apply linked_trans with x'; [exact Lx|]. apply linked_trans with y'; [|apply linked_sym, Ly]. apply Main; auto.
  rewrite <- (linked_tot l x x' Ok Lp Lx), <- (linked_tot l y y' Ok Lp Ly). exact E.
Qed.
