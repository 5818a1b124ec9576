(** Loops of lines and arcs that clearly cross overlap, and the region of a boolean operation on them (C71). *)
From Coq Require Import Reals ZArith Bool List Arith Lra Lia Psatz Classical.
From Verif Require Import Num RNum Res ModelMath ModelSeg ModelPline ModelIndex ModelIntersects ModelBoolean.
From Verif Require Import Spec SpecGeom SpecIntr SpecBox SpecWinding SpecIndex SpecBoolean SpecView SpecPruneR SpecPrune SpecRegion SpecSegIntr SpecOffsetJoin SpecPolyOff SpecPolyBool SpecJordan SpecCurve.
From Verif Require Import ProofR ProofBase ProofIter ProofArc ProofIntr ProofIndex2 ProofSlice ProofMeasure ProofWinding2 ProofWinding6 ProofWinding7 ProofRegion ProofRegion10 ProofRegion11 ProofNest ProofSegIntr ProofPolyBool ProofJordan ProofJordan2 ProofJordan5 ProofConn ProofConn2 ProofArea5 ProofArea6 ProofPolyOff ProofOverlap ProofOverlap2 ProofCurve1 ProofCurve2.
Import ListNotations.
Local Open Scope R_scope.

(** How the side of a segment changes. *)
Definition slope_x (v1 v2 : vertex R) (x : vec2 R) : R := let b := pbulge v1 in (1 - b * b) * - (py v2 - py v1) - 2 * b * (2 * vx x - px v1 - px v2).
Definition slope_y (v1 v2 : vertex R) (x : vec2 R) : R := let b := pbulge v1 in (1 - b * b) * (px v2 - px v1) - 2 * b * (2 * vy x - py v1 - py v2).

Lemma side_moved v1 v2 q h k : sideof (v1, v2) (V2 (vx q + h) (vy q + k))
  = sideof (v1, v2) q + (slope_x v1 v2 q * h + slope_y v1 v2 q * k) - 2 * pbulge v1 * (h * h + k * k).
Proof. unfold sideof, slope_x, slope_y, perp, dotp. cbn [fst snd vx vy]. ring. Qed.

Lemma slopes_crosswise v1 v2 u1 u2 q : sideof (v1, v2) q = 0 -> sideof (u1, u2) q = 0 ->
  slope_x v1 v2 q * slope_y u1 u2 q - slope_y v1 v2 q * slope_x u1 u2 q <> 0 -> crosswise (v1, v2) (u1, u2) q.
Proof.
  intros Z1 Z2 NZ e g1 g2 He G1 G2.
  set (a := slope_x v1 v2 q) in *. set (b := slope_y v1 v2 q) in *. set (c := slope_x u1 u2 q) in *. set (d := slope_y u1 u2 q) in *.
  set (X := a * d - b * c) in *.
  set (h := (g1 * d - g2 * b) / X). set (k := (g2 * a - g1 * c) / X).
  assert (L1 : a * h + b * k = g1) by (unfold h, k, X; field; exact NZ).
  assert (L2 : c * h + d * k = g2) by (unfold h, k, X; field; exact NZ).
  set (N := h * h + k * k). assert (N0 : 0 <= N) by (unfold N; nra).
  set (B := 2 * Rabs (pbulge v1) + 2 * Rabs (pbulge u1)). assert (B0 : 0 <= B) by (unfold B; pose proof (Rabs_pos (pbulge v1)); pose proof (Rabs_pos (pbulge u1)); lra).
  assert (BN : 0 <= B * N) by now apply Rmult_le_pos.
  set (m := sqrt N + 1). assert (Hm : 1 <= m) by (unfold m; pose proof (sqrt_pos N); lra).
  set (w := Rmin (e / (2 * m)) (1 / (2 * (B * N + 1)))).
  assert (W0 : 0 < w) by (unfold w; apply Rmin_pos; apply Rdiv_lt_0_compat; lra).
  assert (W1 : w * m < e).
  { apply (Rle_lt_trans _ (e / (2 * m) * m)); [apply Rmult_le_compat_r; [lra|apply Rmin_l]|]. replace (e / (2 * m) * m) with (e / 2) by (field; lra). lra. }
  assert (W2 : w * (B * N) < 1).
  { apply (Rle_lt_trans _ (1 / (2 * (B * N + 1)) * (B * N))); [apply Rmult_le_compat_r; [exact BN|apply Rmin_r]|].
    apply (Rmult_lt_reg_r (2 * (B * N + 1))); [lra|]. replace (1 / (2 * (B * N + 1)) * (B * N) * (2 * (B * N + 1))) with (B * N) by (field; lra). lra. }
  exists (V2 (vx q + w * h) (vy q + w * k)). split.
  - rewrite dist_offset. replace (w * h * (w * h) + w * k * (w * k)) with (Rsqr w * N) by (unfold Rsqr, N; ring).
    rewrite sqrt_mult_alt by apply Rle_0_sqr. rewrite sqrt_Rsqr by lra. apply (Rlt_trans _ (w * m)); [|exact W1]. apply Rmult_lt_compat_l; [exact W0|unfold m; lra].
  - assert (P : forall g bu, (g = 1 \/ g = -1) -> 2 * Rabs bu <= B -> 0 < g * (0 + w * g - 2 * bu * (w * w * N))).
    { intros g bu G Hb. assert (Q : 2 * bu * g <= B).
      { pose proof (Rle_abs bu). pose proof (Rle_abs (- bu)). rewrite Rabs_Ropp in *. destruct G as [-> | ->]; lra. }
      assert (GG : g * g = 1) by (destruct G as [-> | ->]; ring).
      replace (g * (0 + w * g - 2 * bu * (w * w * N))) with (w * (g * g - w * (2 * bu * g * N))) by ring. rewrite GG.
      apply Rmult_lt_0_compat; [exact W0|]. assert (2 * bu * g * N <= B * N) by (apply Rmult_le_compat_r; assumption).
      assert (w * (2 * bu * g * N) <= w * (B * N)) by (apply Rmult_le_compat_l; lra). lra. }
    rewrite !side_moved, Z1, Z2. fold a b c d. split.
    + replace (a * (w * h) + b * (w * k)) with (w * g1) by (rewrite <- L1; ring). replace (w * h * (w * h) + w * k * (w * k)) with (w * w * N) by (unfold N; ring).
      apply P; [exact G1|]. unfold B. pose proof (Rabs_pos (pbulge u1)). lra.
    + replace (c * (w * h) + d * (w * k)) with (w * g2) by (rewrite <- L2; ring). replace (w * h * (w * h) + w * k * (w * k)) with (w * w * N) by (unfold N; ring).
      apply P; [exact G2|]. unfold B. pose proof (Rabs_pos (pbulge v1)). lra.
Qed.

(** The slopes of a line and of an arc. *)
Lemma slope_line v1 v2 q : pbulge v1 = 0 -> slope_x v1 v2 q = - (py v2 - py v1) /\ slope_y v1 v2 q = px v2 - px v1.
Proof. intros Z. unfold slope_x, slope_y. rewrite Z. split; ring. Qed.

Lemma slope_arc v1 v2 q : pbulge v1 <> 0 ->
  slope_x v1 v2 q = 4 * pbulge v1 * (vx (centre_of (pos v1) (pos v2) (pbulge v1)) - vx q)
  /\ slope_y v1 v2 q = 4 * pbulge v1 * (vy (centre_of (pos v1) (pos v2) (pbulge v1)) - vy q).
Proof. intros Z. unfold slope_x, slope_y, centre_of, pos. cbn [vx vy]. split; field; exact Z. Qed.

(** A line that goes into a circle does not touch it. *)
Lemma into_circle p0 p1 c r q t : 0 <= r -> (exists k, dist (line_pt p0 p1 k) c < r) -> q = line_pt p0 p1 t -> dist q c = r ->
  (vx p1 - vx p0) * (vx c - vx q) + (vy p1 - vy p0) * (vy c - vy q) <> 0.
Proof.
  intros R0 (k & D) -> Dq Z. assert (S1 : dist (line_pt p0 p1 k) c * dist (line_pt p0 p1 k) c < r * r) by (assert (0 <= dist (line_pt p0 p1 k) c) by apply sqrt_pos; apply Rmult_le_0_lt_compat; lra).
  assert (S2 : dist (line_pt p0 p1 t) c * dist (line_pt p0 p1 t) c = r * r) by now rewrite Dq.
  rewrite dist_sqr in S1, S2. unfold line_pt in *. cbn [vx vy] in *.
  set (dx := vx p1 - vx p0) in *. set (dy := vy p1 - vy p0) in *.
  set (X := vx c - (vx p0 + t * dx)) in *. set (Y := vy c - (vy p0 + t * dy)) in *.
  assert (N : 0 <= (k - t) * (k - t) * (dx * dx + dy * dy)).
  { apply Rmult_le_pos; [apply Rle_0_sqr|]. pose proof (Rle_0_sqr dx) as A. pose proof (Rle_0_sqr dy) as B. unfold Rsqr in A, B. lra. }
  assert (E : forall s, (vx p0 + s * dx - vx c) * (vx p0 + s * dx - vx c) + (vy p0 + s * dy - vy c) * (vy p0 + s * dy - vy c)
    = X * X + Y * Y - 2 * (s - t) * (dx * X + dy * Y) + (s - t) * (s - t) * (dx * dx + dy * dy)) by (intros s; unfold X, Y; ring).
  rewrite (E k), Z in S1. rewrite (E t), Z in S2. lra.
Qed.

(** Circles that cross in two points do not touch in one. *)
Lemma two_circles c1 c2 q x y : dist x c1 = dist q c1 -> dist x c2 = dist q c2 -> dist y c1 = dist q c1 -> dist y c2 = dist q c2 -> x <> y -> c1 <> c2 ->
  (vx c1 - vx q) * (vy c2 - vy q) - (vy c1 - vy q) * (vx c2 - vx q) <> 0.
Proof.
  intros X1 X2 Y1 Y2 NE NC Z.
  assert (H : forall x, dist x c1 = dist q c1 -> dist x c2 = dist q c2 -> x = q).
  { clear x y X1 X2 Y1 Y2 NE. intros x X1 X2.
    assert (S1 : dist x c1 * dist x c1 = dist q c1 * dist q c1) by now rewrite X1.
    assert (S2 : dist x c2 * dist x c2 = dist q c2 * dist q c2) by now rewrite X2.
    rewrite !dist_sqr in S1, S2.
    set (h := vx x - vx q) in *. set (k := vy x - vy q) in *.
    set (a1 := vx c1 - vx q) in *. set (b1 := vy c1 - vy q) in *. set (a2 := vx c2 - vx q) in *. set (b2 := vy c2 - vy q) in *.
    assert (E1 : h * h + k * k = 2 * (h * a1 + k * b1)) by (unfold h, k, a1, b1; lra).
    assert (E2 : h * h + k * k = 2 * (h * a2 + k * b2)) by (unfold h, k, a2, b2; lra).
    assert (D : a1 <> a2 \/ b1 <> b2).
    { apply NNPP. intros N. apply NC. apply vec2_eq; [|]; unfold a1, a2, b1, b2 in N; [apply Rminus_diag_uniq; apply NNPP; intros M; apply N; left; lra|apply Rminus_diag_uniq; apply NNPP; intros M; apply N; right; lra]. }
    set (u := a2 - a1). set (v := b2 - b1).
    assert (P : h * u + k * v = 0) by (unfold u, v; lra).
    assert (C : a1 * v - b1 * u = 0) by (unfold u, v; lra).
    assert (U : 0 < u * u + v * v).
    { destruct D as [D|D]; [assert (u <> 0) as U0 by (unfold u; lra)|assert (v <> 0) as U0 by (unfold v; lra)]; apply Rsqr_pos_lt in U0; unfold Rsqr in U0; [pose proof (Rle_0_sqr v) as W|pose proof (Rle_0_sqr u) as W]; unfold Rsqr in W; lra. }
    assert (Q : (h * a1 + k * b1) * (u * u + v * v) = 0).
    { replace ((h * a1 + k * b1) * (u * u + v * v)) with ((h * u + k * v) * (a1 * u + b1 * v) + (h * v - k * u) * (a1 * v - b1 * u)) by ring. rewrite P, C. ring. }
    assert (Q0 : h * a1 + k * b1 = 0) by (apply Rmult_integral in Q; destruct Q as [Q|Q]; lra).
    assert (HK : h * h + k * k = 0) by lra.
    pose proof (Rle_0_sqr h) as A. pose proof (Rle_0_sqr k) as B. unfold Rsqr in A, B.
    assert (h = 0) by (apply Rsqr_0_uniq; unfold Rsqr; lra). assert (k = 0) by (apply Rsqr_0_uniq; unfold Rsqr; lra).
    apply vec2_eq; [unfold h in *|unfold k in *]; lra. }
  apply NE. rewrite (H x X1 X2), (H y Y1 Y2). reflexivity.
Qed.

Lemma side_on v1 v2 q : seg_ok v1 v2 -> on_seg v1 v2 q -> sideof (v1, v2) q = 0.
Proof. intros Ok O. exact (on_side (v1, v2) q Ok O). Qed.

Lemma sides_crosswise eps v1 v2 u1 u2 q : 0 < eps -> seg_ok v1 v2 -> seg_ok u1 u2 -> sides_clear eps v1 v2 u1 u2 -> on_seg v1 v2 q -> on_seg u1 u2 q ->
  crosswise (v1, v2) (u1, u2) q.
Proof.
  intros He Ok1 Ok2 (C1 & C2 & C3 & C4) O1 O2.
  assert (LA : forall v1 v2 u1 u2, seg_ok v1 v2 -> seg_ok u1 u2 -> on_seg v1 v2 q -> on_seg u1 u2 q -> pbulge v1 = 0 -> pbulge u1 <> 0 -> line_arc_clear eps v1 v2 u1 u2 ->
    slope_x v1 v2 q * slope_y u1 u2 q - slope_y v1 v2 q * slope_x u1 u2 q <> 0).
  { clear - He. intros v1 v2 u1 u2 Ok1 Ok2 O1 O2 Z1 Z2 (_ & _ & C). apply line_point in O1; [|exact Z1]. destruct O1 as (t & _ & Et).
    assert (HP : pos u1 <> pos u2) by (apply Ok2, Z2). pose proof (computed_is_arc _ _ _ HP Z2) as A.
    destruct (slope_line v1 v2 q Z1) as (-> & ->). destruct (slope_arc u1 u2 q Z2) as (-> & ->).
    set (c := centre_of (pos u1) (pos u2) (pbulge u1)) in *. set (r := radius_of (pos u1) (pos u2) (pbulge u1)) in *.
    assert (Dq : dist q c = r) by apply (on_within u1 u2 Ok2 Z2 q eps He O2).
    destruct (C c r (ex_intro _ _ A)) as [(d & Dd & Dk)|((k & Dk) & _)].
    - exfalso. specialize (Dk t). rewrite <- Et in Dk. lra.
    - assert (IN : exists k, dist (line_pt (pos v1) (pos v2) k) c < r) by (exists k; lra).
      pose proof (into_circle (pos v1) (pos v2) c r q t (proj1 A) IN Et Dq) as N. unfold pos in N. cbn [vx vy] in N.
      intros Z. apply N. apply (Rmult_eq_reg_l (-4 * pbulge u1)); [|lra]. rewrite Rmult_0_r, <- Z. ring. }
  destruct (Req_dec (pbulge v1) 0) as [Z1|Z1], (Req_dec (pbulge u1) 0) as [Z2|Z2].
  - specialize (C1 Z1 Z2). unfold lines_clear in C1. rewrite <- or_assoc in C1. destruct C1 as [B|(q' & CR)].
    + exfalso. exact (beside_no_common eps v1 v2 u1 u2 q He Z1 Z2 B O1 O2).
    + destruct (cross_found eps v1 v2 u1 u2 q' He Z1 Z2 CR) as (_ & _ & _ & U). rewrite (U q O1 O2). destruct CR as (CR & s & t & Hs & Ht & Es & Et).
      apply (lines_crosswise v1 v2 u1 u2 s t q'); auto. intros Z. rewrite Z, Rabs_R0 in CR. lra.
  - apply slopes_crosswise; [now apply side_on|now apply side_on|]. apply LA; auto.
  - apply slopes_crosswise; [now apply side_on|now apply side_on|]. pose proof (LA u1 u2 v1 v2 Ok2 Ok1 O2 O1 Z2 Z1 (C3 Z1 Z2)). intros Z. lra.
  - apply slopes_crosswise; [now apply side_on|now apply side_on|].
    destruct (slope_arc v1 v2 q Z1) as (-> & ->). destruct (slope_arc u1 u2 q Z2) as (-> & ->).
    assert (HP1 : pos v1 <> pos v2) by (apply Ok1, Z1). pose proof (computed_is_arc _ _ _ HP1 Z1) as A1.
    assert (HP2 : pos u1 <> pos u2) by (apply Ok2, Z2). pose proof (computed_is_arc _ _ _ HP2 Z2) as A2.
    pose proof (proj2 (on_within v1 v2 Ok1 Z1 q eps He O1)) as D1. pose proof (proj2 (on_within u1 u2 Ok2 Z2 q eps He O2)) as D2.
    set (c1 := centre_of (pos v1) (pos v2) (pbulge v1)) in *. set (r1 := radius_of (pos v1) (pos v2) (pbulge v1)) in *.
    set (c2 := centre_of (pos u1) (pos u2) (pbulge u1)) in *. set (r2 := radius_of (pos u1) (pos u2) (pbulge u1)) in *.
    pose proof (ProofJordan2.dist_triangle c1 q c2) as TR1. pose proof (ProofJordan2.dist_triangle q c1 c2) as TR2. pose proof (ProofJordan2.dist_triangle q c2 c1) as TR3.
    rewrite (dist_sym c1 q) in TR1. rewrite (dist_sym c2 c1) in TR3.
    destruct (C4 Z1 Z2 c1 r1 c2 r2 (ex_intro _ _ A1) (ex_intro _ _ A2)) as [M|[M|(Dc & (x & y & X1 & X2 & Y1 & Y2 & NP) & _)]].
    + exfalso. lra.
    + exfalso. unfold Rabs in M. destruct (Rcase_abs (r1 - r2)); lra.
    + assert (NE : x <> y) by (intros <-; apply NP; unfold is_point; rewrite !Rminus_diag_eq, Rabs_R0 by reflexivity; lra).
      assert (NC : c1 <> c2) by (intros E; rewrite E, dist_self in Dc; lra).
      pose proof (two_circles c1 c2 q x y ltac:(congruence) ltac:(congruence) ltac:(congruence) ltac:(congruence) NE NC) as N.
      intros Z. apply N. apply (Rmult_eq_reg_l (16 * (pbulge v1 * pbulge u1))); [rewrite Rmult_0_r, <- Z; ring|].
      pose proof (Rmult_integral_contrapositive_currified _ _ Z1 Z2). lra.
Qed.

Lemma loops_overlap eps p1 p2 q : 0 < eps -> clear_loops eps p1 p2 -> valid_loop p1 -> valid_loop p2 -> passes_once p1 -> passes_once p2 ->
  on_path p1 q -> on_path p2 q -> overlap p1 p2.
Proof.
  intros epos clear V1 V2' P1 P2 (a & b & I1 & O1) (c & e & I2 & O2).
  pose proof clear as (C1 & C2 & K1 & K2 & M1 & M2 & SD & OV & _).
  destruct (OV q) as (F1 & F2); [exists a, b; auto|exists c, e; auto|].
  pose proof O1 as (t & Ht & At). pose proof O2 as (u & Hu & Au).
  destruct (In_nth_error _ _ I1) as (i & E1). destruct (In_nth_error _ _ I2) as (j & E2).
  destruct (off_inner p1 eps epos K1 M1 i a b t q E1 F1 Ht At) as (T & _). destruct (off_inner p2 eps epos K2 M2 j c e u q E2 F2 Hu Au) as (U & _).
  apply (crosswise_overlap p1 p2 (a, b) (c, e) t u q); auto; try (eapply clear_ok; eassumption).
  apply (sides_crosswise eps); auto; [apply (clear_ok _ _ K1 _ _ I1)|apply (clear_ok _ _ K2 _ _ I2)|].
  apply SD; [now rewrite <- C1|now rewrite <- C2].
Qed.

(** All four operations on such loops. *)
Theorem loops_region mk (p1 p2 : pline R) eps op idx boxes : 0 < eps -> clear_loops eps p1 p2 -> makes_index mk ->
  index_of boxes idx -> boxes = map (fun s => seg_fast_approx_bounding_box (fst s) (snd s)) (spec_segs (vtx p1) (is_closed p1)) ->
  valid_loop p1 -> valid_loop p2 -> passes_once p1 -> passes_once p2 ->
  exists r, polyline_boolean mk p1 p2 op idx eps = Ret r
  /\ (forall l, In l (br_pos r ++ br_neg r) -> valid_loop (brp_pline l) /\ pline_ok (brp_pline l)
      /\ forall q, on_path (brp_pline l) q -> on_path p1 q \/ on_path p2 q)
  /\ forall x, ~ on_path p1 x -> ~ on_path p2 x -> (region (fun p y => inside p y = true) r x <-> operation op (inside p1 x = true) (inside p2 x = true)).
Proof.
  intros epos clear MK IO EB V1 V2' P1 P2. assert (BL : length boxes = length (spec_segs (vtx p1) (is_closed p1))) by (rewrite EB; apply map_length).
  pose proof clear as (C1 & C2 & K1 & K2 & _).
  destruct (loops_found p1 p2 eps epos clear boxes idx IO EB) as (bs & EF & _ & HB).
  destruct bs as [|b0 bs].
  - assert (AP : forall q, ~ (on_path p1 q /\ on_path p2 q)).
    { intros q (Q1 & Q2). destruct (common_index p1 p2 q Q1 Q2) as (i & j & C). apply HB in C. destruct C. }
    destruct (region_apart mk p1 p2 op idx eps boxes IO BL V1 V2' (clear_ok _ _ K1) (clear_ok _ _ K2) AP EF) as (r & E & L & G).
    exists r. split; [exact E|]. split; [|exact G]. intros l I. destruct (L l I) as [-> | ->]; (split; [assumption|]); (split; [eapply clear_ok; eassumption|]); auto.
  - destruct (common_path p1 p2 b0) as (Q1 & Q2); [apply HB; now left|].
    destruct (overlap_region mk p1 p2 op idx eps boxes (b0 :: bs)) as (r & E & G); auto; [discriminate|now apply loops_clean|exact (loops_overlap eps p1 p2 (bi_point b0) epos clear V1 V2' P1 P2 Q1 Q2)|].
    destruct (region_once mk p1 p2 op idx eps boxes (b0 :: bs)) as (r' & w & E' & _ & L & _); auto; [discriminate|now apply loops_clean|].
    rewrite E in E'. injection E' as <-. exists r. auto.
Qed.
