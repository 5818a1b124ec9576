(** Circles drawn as two half circles: their points, their inside, and that they pass no point twice (C71). *)
From Coq Require Import Reals ZArith Bool List Arith Lra Lia Psatz Classical.
From Verif Require Import Num RNum Res ModelMath ModelSeg ModelPline.
From Verif Require Import Spec SpecGeom SpecIntr SpecBox SpecView SpecWinding SpecBoolean SpecPrune SpecOffset SpecOffsetJoin SpecPolyOff SpecJordan SpecConvex SpecCircle.
From Verif Require Import ProofR ProofBase ProofIter ProofArc ProofIntr ProofSlice ProofMeasure ProofSegIntr ProofWinding6 ProofNest ProofCircleOff ProofRound3 ProofRay ProofOverlap ProofJordan5 ProofOffsetJoin3.
Import ListNotations.
Local Open Scope R_scope.

Lemma abs_le_of_sq x y : 0 <= y -> x * x <= y * y -> Rabs x <= y.
Proof. intros H L. rewrite <- (Rabs_pos_eq y H). apply Rsqr_le_abs_0. exact L. Qed.

Section Disc.
Context (c u : vec2 R) (b : R).
Hypothesis Hu : unit_vec u.
Hypothesis Hb : b = 1 \/ b = -1.

Let P k := moved c u k.
Let W k := vertex_at (P k) b.

(** How far [q] is to the left of the diameter. *)
Definition lean (q : vec2 R) : R := vx u * (vy q - vy c) - vy u * (vx q - vx c).

Lemma disc_bulge k : pbulge (W k) <> 0.
Proof. cbn. destruct Hb as [-> | ->]; lra. Qed.

Lemma disc_ends k : k <> 0 -> pos (W k) <> pos (W (- k)).
Proof.
  intros K E. unfold W, P, vertex_at, moved, pos in E. cbn [px py vx vy] in E. injection E as E1 E2.
  assert (k * vx u = 0) by lra. assert (k * vy u = 0) by lra.
  assert (k * (vx u * vx u + vy u * vy u) = 0) by (replace (k * (vx u * vx u + vy u * vy u)) with (k * vx u * vx u + k * vy u * vy u) by ring; rewrite H, H0; ring).
  rewrite Hu in H1. lra.
Qed.

Lemma disc_seg_ok k : k <> 0 -> seg_ok (W k) (W (- k)).
Proof. intros K. split; [right; cbn; destruct Hb as [-> | ->]; [rewrite Rabs_R1|rewrite Rabs_left by lra]; lra|intros _; now apply disc_ends]. Qed.

Lemma disc_arc k : k <> 0 -> centre_of (pos (W k)) (pos (W (- k))) b = c /\ radius_of (pos (W k)) (pos (W (- k))) b = Rabs k.
Proof.
  intros K. pose proof (half_rc c u b Hu Hb k K) as E. fold (W k) (W (- k)) in E.
  assert (E' : seg_arc_radius_and_center (W k) (W (- k)) = (Rabs k, c)) by exact E.
  rewrite (arc_radius_and_center_eq (W k) (W (- k)) (disc_ends k K) (disc_bulge k)) in E'. injection E' as E1 E2. auto.
Qed.

Lemma disc_circle k c' r' : k <> 0 -> arc_circle (W k) (W (- k)) c' r' -> c' = c /\ r' = Rabs k.
Proof.
  intros K (a & A). destruct (arc_unique _ _ _ _ _ _ (disc_bulge k) A) as (-> & ->). now apply disc_arc.
Qed.

Lemma half_on k q : k <> 0 -> on_seg (W k) (W (- k)) q <-> dist q c = Rabs k /\ 0 <= b * k * lean q.
Proof.
  intros K. destruct (arc_sides (W k) (W (- k)) (disc_seg_ok k K) (disc_bulge k)) as (al & w & Hw & Ew & On & Cs).
  destruct (disc_arc k K) as (Ec & Er). change (pbulge (W k)) with b in *. rewrite Ec, Er in On, Cs.
  assert (EW : w = PI).
  { rewrite Ew. unfold sweep. destruct Hb as [-> | ->].
    - rewrite atan_1. replace (4 * (PI / 4)) with PI by field. apply Rabs_pos_eq. pose proof PI_RGT_0; lra.
    - replace (-1) with (- (1)) by ring. rewrite atan_opp, atan_1. replace (4 * - (PI / 4)) with (- PI) by field. rewrite Rabs_Ropp. apply Rabs_pos_eq. pose proof PI_RGT_0; lra. }
  clear Ew. subst w. set (K' := Rabs k) in *. assert (KK : K' * K' = k * k) by (unfold K'; rewrite <- Rabs_mult; apply Rabs_pos_eq; apply Rle_0_sqr).
  assert (KP : 0 < K') by (unfold K'; now apply Rabs_pos_lt).
  assert (DIR : b * k * vx u = K' * cos al /\ b * k * vy u = K' * sin al).
  { destruct Cs as [(B & E & _)|(B & E & _)]; unfold W, P, vertex_at, moved, pos, circle_pt in E; cbn [px py vx vy] in E; injection E as E1 E2;
      [assert (b = 1) as -> by lra|assert (b = -1) as -> by lra]; lra. }
  destruct DIR as (D1 & D2).
  assert (LN : forall x, b * k * lean (circle_pt c K' (al + x)) = K' * K' * sin x).
  { intros x. unfold lean, circle_pt. cbn [vx vy].
    replace (b * k * (vx u * (vy c + K' * sin (al + x) - vy c) - vy u * (vx c + K' * cos (al + x) - vx c))) with (K' * (b * k * vx u * sin (al + x) - b * k * vy u * cos (al + x))) by ring.
    rewrite D1, D2, sin_plus, cos_plus. pose proof (sin2_cos2 al) as S. unfold Rsqr in S.
    replace (K' * (K' * cos al * (sin al * cos x + cos al * sin x) - K' * sin al * (cos al * cos x - sin al * sin x))) with (K' * K' * ((sin al * sin al + cos al * cos al) * sin x)) by ring.
    rewrite S. ring. }
  rewrite On. split.
  - intros (x & Hx & ->). split.
    { apply dist_eq_sqr; [lra|]. unfold circle_pt. cbn [vx vy]. pose proof (sin2_cos2 (al + x)) as S. unfold Rsqr in S. transitivity (K' * K' * (sin (al + x) * sin (al + x) + cos (al + x) * cos (al + x))); [ring|rewrite S; ring]. }
    rewrite LN. apply Rmult_le_pos; [nra|]. apply sin_ge_0; apply Hx.
  - intros (D & L). destruct (on_circle c q) as (a & Eq & _ & _); [intros ->; unfold dist in D; rewrite !Rminus_diag_eq, Rmult_0_l, Rplus_0_l, sqrt_0 in D by reflexivity; lra|].
    rewrite D in Eq. set (y := a - al). assert (Ea : a = al + y) by (unfold y; ring). rewrite Eq, Ea, LN in L.
    assert (SY : 0 <= sin y).
    { apply (Rmult_le_reg_l (K' * K')); [nra|]. rewrite Rmult_0_r. exact L. }
    pose proof (COS_bound y) as CB. exists (acos (cos y)). pose proof (acos_bound (cos y)) as AB. split; [lra|].
    rewrite Eq, Ea. unfold circle_pt. rewrite (cos_plus al (acos _)), (sin_plus al (acos _)), cos_acos, sin_acos by lra.
    assert (SQ : sqrt (1 - (cos y)²) = sin y).
    { pose proof (sin2_cos2 y) as S. replace (1 - (cos y)²) with ((sin y)²) by lra. apply sqrt_Rsqr, SY. }
    rewrite SQ, cos_plus, sin_plus. reflexivity.
Qed.

Context (r : R).
Hypothesis Hr : 0 < r.
Let p := circle c u r b.

Lemma disc_segs : spec_segs (vtx p) (is_closed p) = [(W r, W (- r)); (W (- r), W r)].
Proof. reflexivity. Qed.

Lemma disc_on q : on_path p q <-> dist q c = r.
Proof.
  assert (A1 : Rabs r = r) by (apply Rabs_pos_eq; lra). assert (A2 : Rabs (- r) = r) by (rewrite Rabs_Ropp; exact A1).
  split.
  - intros (v1 & v2 & I & O). rewrite disc_segs in I. destruct I as [I|[I|[]]]; injection I as <- <-.
    + apply half_on in O; [|lra]. rewrite A1 in O. apply O.
    + replace (W r) with (W (- - r)) in O by (now rewrite Ropp_involutive). apply half_on in O; [|lra]. rewrite A2 in O. apply O.
  - intros D. destruct (Rle_dec 0 (b * r * lean q)) as [L|L].
    + exists (W r), (W (- r)). split; [now left|]. apply half_on; [lra|]. now rewrite A1.
    + exists (W (- r)), (W r). split; [right; now left|]. replace (W r) with (W (- - r)) by (now rewrite Ropp_involutive).
      apply half_on; [lra|]. rewrite A2. split; [exact D|]. lra.
Qed.

Lemma disc_ok : pline_ok p.
Proof.
  intros v1 v2 I. rewrite disc_segs in I. destruct I as [I|[I|[]]]; injection I as <- <-.
  - apply disc_seg_ok. lra.
  - replace (W r) with (W (- - r)) by (now rewrite Ropp_involutive). apply disc_seg_ok. lra.
Qed.

Lemma disc_loop : valid_loop p. Proof. split; cbn; [lia|reflexivity]. Qed.

Lemma lean_zero q : dist q c = r -> lean q = 0 -> q = P r \/ q = P (- r).
Proof.
  intros D L. assert (S : dist q c * dist q c = r * r) by now rewrite D. rewrite dist_sqr in S.
  set (h := vx q - vx c) in *. set (k := vy q - vy c) in *. unfold lean in L. fold h k in L. unfold unit_vec in Hu.
  set (d := h * vx u + k * vy u).
  assert (E1 : h = d * vx u).
  { unfold d. replace ((h * vx u + k * vy u) * vx u) with (h * (vx u * vx u + vy u * vy u) + vy u * (vx u * k - vy u * h)) by ring. rewrite Hu, L. ring. }
  assert (E2 : k = d * vy u).
  { unfold d. replace ((h * vx u + k * vy u) * vy u) with (k * (vx u * vx u + vy u * vy u) - vx u * (vx u * k - vy u * h)) by ring. rewrite Hu, L. ring. }
  assert (DD : d * d = r * r).
  { rewrite E1, E2 in S. transitivity (d * d * (vx u * vx u + vy u * vy u)); [rewrite Hu; ring|]. rewrite <- S. ring. }
  assert ((d - r) * (d + r) = 0) as Z by (replace ((d - r) * (d + r)) with (d * d - r * r) by ring; rewrite DD; ring).
  apply Rmult_integral in Z. destruct Z as [Z|Z]; [left|right]; [assert (d = r) as Ed by lra|assert (d = - r) as Ed by lra]; rewrite Ed in E1, E2; unfold P, moved; apply vec2_eq; cbn [vx vy]; unfold h, k in *; lra.
Qed.

Lemma disc_once : passes_once p.
Proof.
  assert (A1 : Rabs r = r) by (apply Rabs_pos_eq; lra). assert (A2 : Rabs (- r) = r) by (rewrite Rabs_Ropp; exact A1).
  assert (NR : r <> 0) by lra. assert (NR' : - r <> 0) by lra.
  assert (ER : W (- - r) = W r) by (now rewrite Ropp_involutive).
  pose proof (disc_seg_ok r NR) as K1. pose proof (disc_seg_ok (- r) NR') as K2. rewrite ER in K2.
  pose proof (disc_ends r NR) as N1. pose proof (disc_ends (- r) NR') as N2. rewrite ER in N2.
  assert (P0 : forall t u q, 0 <= t <= 1 -> 0 <= u <= 1 -> t < 1 -> u < 1 -> seg_at (W r) (W (- r)) t q -> seg_at (W (- r)) (W r) u q -> False).
  { intros t v q Ht Hv T1 V1 A B. assert (O1 : on_seg (W r) (W (- r)) q) by (exists t; auto). assert (O2 : on_seg (W (- r)) (W r) q) by (exists v; auto).
    apply half_on in O1; [|exact NR]. rewrite <- ER in O2. apply half_on in O2; [|exact NR']. destruct O1 as (D & L1). destruct O2 as (_ & L2). rewrite A1 in D.
    assert (b * r * lean q = 0) as Z by lra. assert (lean q = 0) as Z'.
    { apply Rmult_integral in Z. destruct Z as [Z|Z]; [|exact Z]. exfalso. destruct Hb as [-> | ->]; lra. }
    destruct (lean_zero q D Z') as [E|E].
    - assert (v = 1); [|lra]. apply (seg_at_inj (W (- r)) (W r) v 1 q K2 N2 Hv ltac:(lra) B). rewrite E. exact (seg_at_1 _ _ K2).
    - assert (t = 1); [|lra]. apply (seg_at_inj (W r) (W (- r)) t 1 q K1 N1 Ht ltac:(lra) A). rewrite E. exact (seg_at_1 _ _ K1). }
  intros i j t v q (a1 & b1 & E1 & Ht & A) (a2 & b2 & E2 & Hv & B) T1 V1. rewrite disc_segs in E1, E2.
  destruct i as [|[|i]]; cbn [nth_error] in E1; [| |destruct i; discriminate]; injection E1 as <- <-;
    (destruct j as [|[|j]]; cbn [nth_error] in E2; [| |destruct j; discriminate]); injection E2 as <- <-.
  - split; [reflexivity|]. exact (seg_at_inj _ _ t v q K1 N1 Ht Hv A B).
  - exfalso. exact (P0 t v q Ht Hv T1 V1 A B).
  - exfalso. exact (P0 v t q Hv Ht V1 T1 B A).
  - split; [reflexivity|]. exact (seg_at_inj _ _ t v q K2 N2 Ht Hv A B).
Qed.

Lemma disc_outside x : r < dist x c -> wn p x = 0%Z.
Proof.
  intros D. set (d := dist x c) in *. assert (D0 : 0 < d) by lra.
  set (w := V2 ((vx x - vx c) / d) ((vy x - vy c) / d)).
  assert (DD : d * d = (vx x - vx c) * (vx x - vx c) + (vy x - vy c) * (vy x - vy c)) by (unfold d; apply dist_sqr).
  apply (ray_outside p (Rabs (vx c) + Rabs (vy c) + r + 1) x w disc_ok disc_loop).
  - intros q O. apply disc_on in O. assert (S : dist q c * dist q c = r * r) by now rewrite O. rewrite dist_sqr in S.
    assert (X : Rabs (vx q - vx c) <= r) by (apply abs_le_of_sq; [lra|pose proof (Rle_0_sqr (vx q - vx c)) as A; pose proof (Rle_0_sqr (vy q - vy c)) as B; unfold Rsqr in A, B; lra]). assert (Y : Rabs (vy q - vy c) <= r) by (apply abs_le_of_sq; [lra|pose proof (Rle_0_sqr (vx q - vx c)) as A; pose proof (Rle_0_sqr (vy q - vy c)) as B; unfold Rsqr in A, B; lra]).
    pose proof (Rabs_triang (vx c) (vx q - vx c)) as T1. pose proof (Rabs_triang (vy c) (vy q - vy c)) as T2.
    replace (vx c + (vx q - vx c)) with (vx q) in T1 by ring. replace (vy c + (vy q - vy c)) with (vy q) in T2 by ring.
    pose proof (Rabs_pos (vx c)). pose proof (Rabs_pos (vy c)). lra.
  - unfold unit, dot, w. cbn [vx vy]. replace ((vx x - vx c) / d * ((vx x - vx c) / d) + (vy x - vy c) / d * ((vy x - vy c) / d)) with ((d * d) / (d * d)); [field; lra|].
    transitivity (((vx x - vx c) * (vx x - vx c) + (vy x - vy c) * (vy x - vy c)) / (d * d)); [now rewrite DD at 1|field; lra].
  - intros k Hk O. apply disc_on in O. assert (S : dist (moved x w k) c * dist (moved x w k) c = r * r) by now rewrite O. rewrite dist_sqr in S.
    unfold moved, w in S. cbn [vx vy] in S.
    replace (vx x + k * ((vx x - vx c) / d) - vx c) with ((vx x - vx c) * ((d + k) / d)) in S by (field; lra).
    replace (vy x + k * ((vy x - vy c) / d) - vy c) with ((vy x - vy c) * ((d + k) / d)) in S by (field; lra).
    assert (S' : (d + k) * (d + k) = r * r).
    { rewrite <- S. transitivity (d * d * ((d + k) / d * ((d + k) / d))); [field; lra|]. rewrite DD. ring. }
    assert (r * r < (d + k) * (d + k)) by (apply Rmult_le_0_lt_compat; lra). lra.
Qed.

Lemma disc_inside x : dist x c <> r -> inside p x = true <-> dist x c < r.
Proof.
  intros NE. rewrite inside_iff. split.
  - intros N. destruct (Rlt_dec (dist x c) r) as [L|L]; [exact L|]. exfalso. apply N, disc_outside. lra.
  - intros L. destruct (some_inside p disc_ok disc_loop disc_once) as (y & Oy & Wy).
    assert (Ly : dist y c < r).
    { destruct (Rtotal_order (dist y c) r) as [Q|[Q|Q]]; [exact Q|exfalso; apply Oy; now apply disc_on|exfalso; apply Wy, disc_outside; lra]. }
    rewrite (wn_straight p x y disc_ok); [exact Wy|].
    intros t Ht O. apply disc_on in O. assert (S : dist (line_pt x y t) c * dist (line_pt x y t) c = r * r) by now rewrite O.
    assert (Sx : dist x c * dist x c < r * r) by (assert (0 <= dist x c) by apply sqrt_pos; apply Rmult_le_0_lt_compat; lra).
    assert (Sy : dist y c * dist y c < r * r) by (assert (0 <= dist y c) by apply sqrt_pos; apply Rmult_le_0_lt_compat; lra).
    rewrite dist_sqr in S, Sx, Sy. unfold line_pt in S. cbn [vx vy] in S.
    set (x1 := vx x - vx c) in *. set (x2 := vy x - vy c) in *. set (y1 := vx y - vx c) in *. set (y2 := vy y - vy c) in *.
    replace (vx x + t * (vx y - vx x) - vx c) with ((1 - t) * x1 + t * y1) in S by (unfold x1, y1; ring).
    replace (vy x + t * (vy y - vy x) - vy c) with ((1 - t) * x2 + t * y2) in S by (unfold x2, y2; ring).
    assert (E : ((1 - t) * x1 + t * y1) * ((1 - t) * x1 + t * y1) + ((1 - t) * x2 + t * y2) * ((1 - t) * x2 + t * y2)
      = (1 - t) * (x1 * x1 + x2 * x2) + t * (y1 * y1 + y2 * y2) - t * (1 - t) * ((x1 - y1) * (x1 - y1) + (x2 - y2) * (x2 - y2))) by ring.
    rewrite E in S. assert (0 <= t * (1 - t) * ((x1 - y1) * (x1 - y1) + (x2 - y2) * (x2 - y2))).
    { apply Rmult_le_pos; [nra|]. pose proof (Rle_0_sqr (x1 - y1)) as A. pose proof (Rle_0_sqr (x2 - y2)) as B. unfold Rsqr in A, B. lra. }
    assert ((1 - t) * (x1 * x1 + x2 * x2) <= (1 - t) * (r * r)) by (apply Rmult_le_compat_l; lra).
    assert (t * (y1 * y1 + y2 * y2) <= t * (r * r)) by (apply Rmult_le_compat_l; lra).
    destruct (Rlt_dec t 1) as [T|T].
    + assert ((1 - t) * (x1 * x1 + x2 * x2) < (1 - t) * (r * r)) by (apply Rmult_lt_compat_l; lra). lra.
    + assert (t * (y1 * y1 + y2 * y2) < t * (r * r)) by (apply Rmult_lt_compat_l; lra). lra.
Qed.
End Disc.
