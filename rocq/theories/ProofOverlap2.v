(** Loops that cross overlap, and the region of boolean operations on polygons (C68). *)
From Coq Require Import Reals ZArith Bool List Arith Lra Lia Psatz Classical.
From Verif Require Import Num RNum Res ModelMath ModelSeg ModelPline ModelIndex ModelIntersects ModelBoolean.
From Verif Require Import Spec SpecGeom SpecIntr SpecBox SpecWinding SpecIndex SpecBoolean SpecView SpecPruneR SpecPrune SpecRegion SpecPolyOff SpecPolyBool SpecJordan.
From Verif Require Import ProofR ProofBase ProofIter ProofArc ProofIntr ProofIndex2 ProofSlice ProofMeasure ProofWinding2 ProofWinding6 ProofWinding7 ProofRegion ProofRegion10 ProofRegion11 ProofNest ProofPolyBool ProofJordan ProofJordan2 ProofJordan5 ProofConn ProofConn2 ProofArea5 ProofArea6 ProofPolyOff ProofPolyBool ProofOverlap.
Import ListNotations.
Local Open Scope R_scope.

(** Near a point in the middle of a segment of a loop, the inside is one side of the segment. *)
Lemma inside_by_side p s t q : pline_ok p -> valid_loop p -> passes_once p -> In s (spec_segs (vtx p) (is_closed p)) ->
  0 < t < 1 -> seg_at (fst s) (snd s) t q ->
  exists g r, (g = 1 \/ g = -1) /\ 0 < r /\ forall x, dist q x < r -> sideof s x <> 0 ->
    ~ on_path p x /\ (inside p x = true <-> 0 < g * sideof s x).
Proof.
  intros ok vl po I Ht Sq. destruct (In_nth_error _ _ I) as (i & E).
  pose proof (len p vl) as LN. assert (Li : (i < vertex_count p)%nat) by (rewrite <- LN; apply nth_error_Some; intros Q; pose proof (eq_trans (eq_sym Q) E); discriminate).
  destruct (beside_exists p ok vl po i Li) as (c & s' & l1 & l2 & E' & El & Oth & N). pose proof (eq_trans (eq_sym E') E) as ES. injection ES as ->. clear E'.
  assert (Os : okseg s) by (apply (oks_l p ok); exact I). pose proof (differ p ok po i s E) as Ds.
  destruct (N t q Ht Sq) as (r & Hr & Nz).
  assert (On : on s q) by (exists t; split; [lra|exact Sq]).
  assert (Of : forall w, dist q w < r -> sideof s w <> 0 -> ~ on_path p w).
  { intros w Dw Sw. apply offs_path. destruct (Nz w Dw) as (Oo & _). intros u Iu. rewrite El in Iu. apply in_app_iff in Iu. cbn [In] in Iu.
    destruct Iu as [Iu|[<-|Iu]]; [apply Oo, in_app_iff; auto|intros O; apply Sw, (on_side _ _ Os O)|apply Oo, in_app_iff; auto]. }
  assert (Vl : forall w, dist q w < r -> sideof s w <> 0 -> wn p w = (c + over (sideof s w))%Z).
  { intros w Dw Sw. rewrite (wn_tot p ok vl w (Of w Dw Sw)). rewrite El. now apply (Nz w Dw). }
  destruct (sides_near s q r Os Ds (on_side _ _ Os On) Hr) as (x & y & Dx & Dy & Sx & Sy).
  destruct (winds_once p ok vl po) as (o & Ho & W).
  pose proof (W x (Of x Dx ltac:(lra))) as Wx. pose proof (W y (Of y Dy ltac:(lra))) as Wy.
  rewrite (Vl x Dx) in Wx by lra. rewrite (Vl y Dy) in Wy by lra. unfold over in Wx, Wy.
  destruct (Rlt_dec 0 (sideof s x)), (Rlt_dec 0 (sideof s y)); try lra.
  assert (C : c = 0%Z \/ c = (-1)%Z) by lia.
  destruct C as [-> | ->].
  - exists 1, r. split; [auto|]. split; [exact Hr|]. intros w Dw Sw. split; [now apply Of|]. rewrite inside_iff, (Vl w Dw Sw). unfold over.
    destruct (Rlt_dec 0 (sideof s w)); split; intros; try lra; try lia.
  - exists (-1), r. split; [auto|]. split; [exact Hr|]. intros w Dw Sw. split; [now apply Of|]. rewrite inside_iff, (Vl w Dw Sw). unfold over.
    destruct (Rlt_dec 0 (sideof s w)); split; intros; try lra; try lia.
Qed.

(** Two segments of which each has points near [q] on either side of the other. *)
Definition crosswise (s1 s2 : seg) (q : vec2 R) : Prop :=
  forall e g1 g2, 0 < e -> (g1 = 1 \/ g1 = -1) -> (g2 = 1 \/ g2 = -1) -> exists x, dist q x < e /\ 0 < g1 * sideof s1 x /\ 0 < g2 * sideof s2 x.

Lemma crosswise_overlap p1 p2 s1 s2 t1 t2 q : pline_ok p1 -> pline_ok p2 -> valid_loop p1 -> valid_loop p2 -> passes_once p1 -> passes_once p2 ->
  In s1 (spec_segs (vtx p1) (is_closed p1)) -> In s2 (spec_segs (vtx p2) (is_closed p2)) ->
  0 < t1 < 1 -> 0 < t2 < 1 -> seg_at (fst s1) (snd s1) t1 q -> seg_at (fst s2) (snd s2) t2 q -> crosswise s1 s2 q -> overlap p1 p2.
Proof.
  intros ok1 ok2 vl1 vl2 po1 po2 I1 I2 T1 T2 S1 S2 CW.
  destruct (inside_by_side p1 s1 t1 q ok1 vl1 po1 I1 T1 S1) as (g1 & r1 & G1 & R1 & K1).
  destruct (inside_by_side p2 s2 t2 q ok2 vl2 po2 I2 T2 S2) as (g2 & r2 & G2 & R2 & K2).
  assert (H : forall b1 b2 : bool, exists x, ~ on_path p1 x /\ ~ on_path p2 x /\ inside p1 x = b1 /\ inside p2 x = b2).
  { intros b1 b2.
    destruct (CW (Rmin r1 r2) (if b1 then g1 else - g1) (if b2 then g2 else - g2)) as (x & D & X1 & X2); [now apply Rmin_pos|destruct b1; lra|destruct b2; lra|].
    pose proof (Rmin_l r1 r2). pose proof (Rmin_r r1 r2).
    assert (Z1 : sideof s1 x <> 0) by (intros Z; rewrite Z, Rmult_0_r in X1; lra).
    assert (Z2 : sideof s2 x <> 0) by (intros Z; rewrite Z, Rmult_0_r in X2; lra).
    destruct (K1 x ltac:(lra) Z1) as (O1 & J1). destruct (K2 x ltac:(lra) Z2) as (O2 & J2).
    exists x. split; [exact O1|]. split; [exact O2|]. split.
    - destruct b1; [now apply J1|]. destruct (inside p1 x); [|reflexivity]. exfalso. pose proof (proj1 J1 eq_refl). lra.
    - destruct b2; [now apply J2|]. destruct (inside p2 x); [|reflexivity]. exfalso. pose proof (proj1 J2 eq_refl). lra. }
  exact (conj (H true true) (conj (H true false) (H false true))).
Qed.

(** Lines that cross are crosswise. *)
Lemma lines_crosswise (a b c e : vertex R) s t q : pbulge a = 0 -> pbulge c = 0 -> q = line_pt (pos a) (pos b) s -> q = line_pt (pos c) (pos e) t ->
  cross (vec (pos a) (pos b)) (vec (pos c) (pos e)) <> 0 -> crosswise (a, b) (c, e) q.
Proof.
  intros B1 B2 E1 E2 NZ r g1 g2 Hr G1 G2.
  unfold cross, vec, pos in NZ. cbn [vx vy] in NZ.
  set (d1x := px b - px a) in *. set (d1y := py b - py a) in *. set (d2x := px e - px c) in *. set (d2y := py e - py c) in *.
  set (X := d1x * d2y - d1y * d2x) in *.
  set (ux := g1 * X * d2x - g2 * X * d1x). set (uy := g1 * X * d2y - g2 * X * d1y).
  set (m := sqrt (ux * ux + uy * uy) + 1). assert (M : 1 <= m) by (unfold m; pose proof (sqrt_pos (ux * ux + uy * uy)); lra).
  set (k := r / (2 * m)). assert (Hk : 0 < k) by (unfold k; apply Rdiv_lt_0_compat; lra).
  exists (V2 (vx q + k * ux) (vy q + k * uy)). split.
  - rewrite dist_offset. replace (k * ux * (k * ux) + k * uy * (k * uy)) with (Rsqr k * (ux * ux + uy * uy)) by (unfold Rsqr; ring).
    rewrite sqrt_mult_alt by apply Rle_0_sqr. rewrite sqrt_Rsqr by lra. apply Rlt_trans with (k * m).
    + apply Rmult_lt_compat_l; [exact Hk|unfold m; lra].
    + unfold k. replace (r / (2 * m) * m) with (r / 2) by (field; lra). lra.
  - assert (Q : 0 < X * X) by (apply Rsqr_pos_lt; exact NZ).
    assert (P1 : 0 < g1 * g1) by (destruct G1 as [-> | ->]; lra). assert (P2 : 0 < g2 * g2) by (destruct G2 as [-> | ->]; lra).
    unfold sideof, perp. cbn [fst snd vx vy]. rewrite B1, B2. fold d1x d1y d2x d2y.
    assert (L1 : d1x * (vy q - py a) - d1y * (vx q - px a) = 0).
    { rewrite E1. unfold line_pt, pos. cbn [vx vy]. fold d1x d1y. ring. }
    assert (L2 : d2x * (vy q - py c) - d2y * (vx q - px c) = 0).
    { rewrite E2. unfold line_pt, pos. cbn [vx vy]. fold d2x d2y. ring. }
    split.
    + replace (_ * _) with (g1 * (d1x * (vy q - py a) - d1y * (vx q - px a)) + k * ((g1 * g1) * (X * X))) by (unfold ux, uy, X; ring).
      rewrite L1. assert (0 < g1 * g1 * (X * X)) by now apply Rmult_lt_0_compat. assert (0 < k * (g1 * g1 * (X * X))) by now apply Rmult_lt_0_compat. lra.
    + replace (_ * _) with (g2 * (d2x * (vy q - py c) - d2y * (vx q - px c)) + k * ((g2 * g2) * (X * X))) by (unfold ux, uy, X; ring).
      rewrite L2. assert (0 < g2 * g2 * (X * X)) by now apply Rmult_lt_0_compat. assert (0 < k * (g2 * g2 * (X * X))) by now apply Rmult_lt_0_compat. lra.
Qed.

Lemma polygons_overlap eps p1 p2 q : 0 < eps -> clear_pair eps p1 p2 -> valid_loop p1 -> valid_loop p2 -> passes_once p1 -> passes_once p2 ->
  on_path p1 q -> on_path p2 q -> overlap p1 p2.
Proof.
  intros epos clear V1 V2' P1 P2 (a & b & I1 & O1) (c & e & I2 & O2).
  pose proof clear as ((C1 & L1) & (C2 & L2) & K1 & K2 & SD & _).
  assert (B1 : pbulge a = 0) by (apply L1; now apply (spec_segs_In_both _ _ _ _ I1)).
  assert (B2 : pbulge c = 0) by (apply L2; now apply (spec_segs_In_both _ _ _ _ I2)).
  pose proof I1 as J1. pose proof I2 as J2. rewrite C1 in J1. rewrite C2 in J2.
  specialize (SD a b c e J1 J2). rewrite <- or_assoc in SD. destruct SD as [B|(q' & (CR & s & t & Hs & Ht & Es & Et) & _)].
  - exfalso. exact (beside_no_common eps a b c e q epos B1 B2 B O1 O2).
  - apply (crosswise_overlap p1 p2 (a, b) (c, e) s t q'); auto; try (eapply clear_ok; eassumption); try (now apply seg_at_line).
    apply (lines_crosswise a b c e s t q'); auto. intros Z. rewrite Z, Rabs_R0 in CR. lra.
Qed.

(** All four operations on such polygons. *)
Theorem polygons_region_all mk (p1 p2 : pline R) eps op idx boxes : 0 < eps -> clear_pair eps p1 p2 -> makes_index mk ->
  index_of boxes idx -> boxes = map (fun s => seg_fast_approx_bounding_box (fst s) (snd s)) (spec_segs (vtx p1) (is_closed p1)) ->
  valid_loop p1 -> valid_loop p2 -> passes_once p1 -> passes_once p2 ->
  exists r, polyline_boolean mk p1 p2 op idx eps = Ret r
  /\ forall x, ~ on_path p1 x -> ~ on_path p2 x -> (region (fun p y => inside p y = true) r x <-> operation op (inside p1 x = true) (inside p2 x = true)).
Proof.
  intros epos clear MK IO EB V1 V2' P1 P2. assert (BL : length boxes = length (spec_segs (vtx p1) (is_closed p1))) by (rewrite EB; apply map_length).
  pose proof clear as ((C1 & _) & (C2 & _) & K1 & K2 & _).
  destruct (found_common p1 p2 eps epos clear boxes idx IO EB) as (bs & EF & _ & HB).
  destruct bs as [|b0 bs].
  - assert (AP : forall q, ~ (on_path p1 q /\ on_path p2 q)).
    { intros q (Q1 & Q2). destruct (common_index p1 p2 q Q1 Q2) as (i & j & C). apply HB in C. destruct C. }
    destruct (region_apart mk p1 p2 op idx eps boxes IO BL V1 V2' (clear_ok _ _ K1) (clear_ok _ _ K2) AP EF) as (r & E & _ & G).
    exists r. split; [exact E|exact G].
  - destruct (common_path p1 p2 b0) as (Q1 & Q2); [apply HB; now left|].
    apply (overlap_region mk p1 p2 op idx eps boxes (b0 :: bs)); auto; [discriminate|now apply clean|].
    exact (polygons_overlap eps p1 p2 (bi_point b0) epos clear V1 V2' P1 P2 Q1 Q2).
Qed.

(** The angle and the square of C66. *)
Lemma ex_all op : let idx := list_index (map (fun s => seg_fast_approx_bounding_box (fst s) (snd s)) (spec_segs (vtx (polygon ex_angle)) true)) in
  exists r, polyline_boolean (@list_index R RNum) (polygon ex_angle) (polygon ex_square) op idx (1 / 100000) = Ret r
  /\ (region (fun p y => inside p y = true) r (V2 (3 / 2) (3 / 2)) <-> op = BOr \/ op = BAnd)
  /\ (region (fun p y => inside p y = true) r (V2 (5 / 2) (5 / 2)) <-> op = BOr \/ op = BXor).
Proof.
  intros idx. destruct (polygons_region_all (@list_index R RNum) (polygon ex_angle) (polygon ex_square) (1 / 100000) op idx _ ltac:(lra) ex_pair list_index_ok (list_index_ok _) eq_refl
    ex_angle_loop ltac:(split; [cbn; lia|reflexivity]) (lone_once (1 / 100000) _ ltac:(lra) ex_angle_lone) (lone_once (1 / 100000) _ ltac:(lra) ex_square_lone)) as (r & E & G).
  exists r. split; [exact E|]. pose proof ex_winds as (W1 & W2 & W3 & W4).
  destruct (ex_off (V2 (3 / 2) (3 / 2))) as (O1 & O2); [auto|]. destruct (ex_off (V2 (5 / 2) (5 / 2))) as (O3 & O4); [auto|].
  pose proof (G _ O1 O2) as G1. pose proof (G _ O3 O4) as G2. clear G.
  assert (I1 : inside (polygon ex_angle) (V2 (3 / 2) (3 / 2)) = true) by (unfold inside; rewrite W1; reflexivity).
  assert (I2 : inside (polygon ex_square) (V2 (3 / 2) (3 / 2)) = true) by (unfold inside; rewrite W2; reflexivity).
  assert (I3 : inside (polygon ex_angle) (V2 (5 / 2) (5 / 2)) = false) by (unfold inside; rewrite W3; reflexivity).
  assert (I4 : inside (polygon ex_square) (V2 (5 / 2) (5 / 2)) = true) by (unfold inside; rewrite W4; reflexivity).
  rewrite I1, I2 in G1. rewrite I3, I4 in G2. split.
  - rewrite G1. destruct op; cbn; intuition discriminate.
  - rewrite G2. destruct op; cbn; intuition discriminate.
Qed.
