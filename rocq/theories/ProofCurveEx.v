(** Examples of loops of lines and arcs that clearly cross (C71). *)
From Coq Require Import Reals ZArith Bool List Arith Lra Lia Psatz.
From Verif Require Import Num RNum Res ModelMath ModelSeg ModelPline ModelView ModelIndex ModelIntr ModelSegIntr ModelIntersects ModelBoolean.
From Verif Require Import Spec SpecPline SpecGeom SpecBox SpecIntr SpecWinding SpecView SpecPruneR SpecPrune SpecRegion SpecBoolean SpecIndex SpecIntersects SpecSegIntr SpecOffset SpecOffsetJoin SpecPolyOff SpecPolyBool SpecJordan SpecCircle SpecCurve.
From Verif Require Import ProofR ProofBase ProofIter ProofArc ProofIntr ProofIndex2 ProofWinding ProofWinding2 ProofWinding3 ProofWinding4 ProofWinding6 ProofWinding7 ProofMeasure ProofPolyOff2 ProofJordan ProofJordan2 ProofJordan5 ProofRegion12 ProofNest ProofValid ProofPolyBool2 ProofJordan6 ProofArea6 ProofCurve1 ProofCurve2 ProofCurve3 ProofDisc ProofDisc2.
Import ListNotations.
Local Open Scope R_scope.

(** ** Two circles *)
Lemma ex_dist x y x' y' d : 0 <= d -> d * d = (x - x') * (x - x') + (y - y') * (y - y') -> dist (V2 x y) (V2 x' y') = d.
Proof.
  intros Hd E. apply Rsqr_inj; [apply sqrt_pos|exact Hd|]. unfold Rsqr. rewrite ProofIntr.dist_sqr, E. cbn [vx vy]. reflexivity.
Qed.

Lemma ex_circles : unit_vec (V2 1 0) /\ clear_circles (1 / 100000) (V2 0 0) (V2 1 0) 5 (V2 6 0) (V2 1 0) 5.
Proof.
  split; [unfold unit_vec; cbn; lra|]. assert (O : of_size (1 / 100000) 5) by (unfold of_size; lra).
  assert (M : margin (1 / 100000) 5 <= 1 / 1000) by (unfold margin; lra).
  assert (X : forall x, dist x (V2 0 0) = 5 -> dist x (V2 6 0) = 5 -> vx x = 3 /\ (vy x = 4 \/ vy x = -4)).
  { intros x A B. pose proof (ProofIntr.dist_sqr x (V2 0 0)) as A2. pose proof (ProofIntr.dist_sqr x (V2 6 0)) as B2. rewrite A in A2. rewrite B in B2. cbn [vx vy] in *.
    assert (E : vx x = 3) by lra. split; [exact E|]. rewrite E in A2. assert (Z : (vy x - 4) * (vy x + 4) = 0) by lra. apply Rmult_integral in Z. destruct Z; [left|right]; lra. }
  split; [exact O|]. split; [exact O|]. right. right. rewrite (ex_dist _ _ _ _ 6) by lra. split; [lra|]. split; [|split; [|split]].
  - exists (V2 3 4), (V2 3 (-4)). rewrite !(ex_dist _ _ _ _ 5) by lra. repeat split. right. cbn [vx vy]. rabs_lra.
  - intros x A B. destruct (X x A B) as (E & Y). unfold cross, vec. cbn [vx vy]. split; destruct Y as [-> | ->]; rabs_lra.
  - intros k [-> | ->]; unfold moved; cbn [vx vy]; [rewrite (ex_dist _ _ _ _ 1) by lra|rewrite (ex_dist _ _ _ _ 11) by lra]; rabs_lra.
  - intros k [-> | ->]; unfold moved; cbn [vx vy]; [rewrite (ex_dist _ _ _ _ 11) by lra|rewrite (ex_dist _ _ _ _ 1) by lra]; rabs_lra.
Qed.

Definition ex_index (p : pline R) : sindex R := list_index (map (fun s => seg_fast_approx_bounding_box (fst s) (snd s)) (spec_segs (vtx p) true)).

(** The first circle is anticlockwise and the second clockwise. *)
Lemma ex_circles_run op : let p1 := circle (V2 0 0) (V2 1 0) 5 1 in let p2 := circle (V2 6 0) (V2 1 0) 5 (-1) in
  exists r, polyline_boolean (@list_index R RNum) p1 p2 op (ex_index p1) (1 / 100000) = Ret r
  /\ (region (fun p y => inside p y = true) r (V2 3 0) <-> op = BOr \/ op = BAnd)
  /\ (region (fun p y => inside p y = true) r (V2 0 0) <-> op <> BAnd)
  /\ (region (fun p y => inside p y = true) r (V2 6 0) <-> op = BOr \/ op = BXor)
  /\ ~ region (fun p y => inside p y = true) r (V2 3 5).
Proof.
  intros p1 p2. destruct ex_circles as (U & C).
  destruct (discs_region (V2 0 0) (V2 1 0) 1 5 (V2 6 0) (V2 1 0) (-1) 5 (1 / 100000) U ltac:(now left) U ltac:(now right) ltac:(lra) C
    (@list_index R RNum) op (ex_index p1) _ list_index_ok (list_index_ok _) eq_refl) as (r & E & H). exists r. split; [exact E|].
  assert (Far : forall c, c = V2 0 0 \/ c = V2 6 0 -> 5 < dist (V2 3 5) c).
  { intros c Hc. apply Rnot_le_lt. intros L. assert (0 <= dist (V2 3 5) c) by apply sqrt_pos. pose proof (Rmult_le_compat _ _ _ _ H0 H0 L L) as Q.
    rewrite ProofIntr.dist_sqr in Q. destruct Hc as [-> | ->]; cbn [vx vy] in Q; lra. }
  pose proof (Far _ (or_introl eq_refl)) as F1. pose proof (Far _ (or_intror eq_refl)) as F2.
  split; [|split; [|split]].
  - specialize (H (V2 3 0)). rewrite !(ex_dist _ _ _ _ 3) in H by lra. rewrite H by lra. destruct op; cbn; intuition (try lra; try discriminate).
  - specialize (H (V2 0 0)). rewrite (ex_dist _ _ _ _ 0), (ex_dist _ _ _ _ 6) in H by lra. rewrite H by lra. destruct op; cbn; intuition (try lra; try discriminate).
  - specialize (H (V2 6 0)). rewrite (ex_dist _ _ 0 _ 6), (ex_dist _ _ _ _ 0) in H by lra. rewrite H by lra. destruct op; cbn; intuition (try lra; try discriminate).
  - rewrite H by lra. destruct op; cbn; lra.
Qed.

(** ** The lower half of the unit disc and a rectangle *)
Definition ex_slab : list (vec2 R) := [V2 (3 / 5) (-2); V2 2 (-2); V2 2 2; V2 (3 / 5) 2].

Lemma ex_slab_lone : lone_polygon (1 / 100000) ex_slab.
Proof.
  unfold lone_polygon, ex_slab. cbn [length]. split; [lia|]. split.
  - intros i a b c. do 4 (destruct i as [|i]; [cbn; intros [= <- <-] [= <-]; unfold cross, vec; cbn [vx vy]; rabs_lra|]).
    cbn. destruct i; discriminate.
  - intros i j a b c e. do 4 (destruct i as [|i]; [cbn -[Nat.modulo]; intros [= <- <-]; do 4 (destruct j as [|j];
      [cbn; intros [= <- <-] N1 N2 N3; try (exfalso; (now apply N1) || (now apply N2) || (now apply N3)); angle_besides|]);
      cbn; destruct j; discriminate|]).
    cbn. destruct i; discriminate.
Qed.

Lemma half_circle c r : arc_circle (Vtx (-1) 0 1) (Vtx 1 0 0) c r -> c = V2 0 0 /\ r = 1.
Proof.
  intros (a & A). apply arc_unique in A as (-> & ->); [|cbn; lra]. unfold centre_of, radius_of, chord2, pos. cbn [px py pbulge vx vy].
  split; [apply vec2_eq; cbn [vx vy]; lra|]. replace ((1 - -1) * (1 - -1) + (0 - 0) * (0 - 0)) with (2 * 2) by ring. rewrite sqrt_square by lra. rewrite Rabs_pos_eq by lra. field.
Qed.

Lemma half_points q : on_seg (Vtx (-1) 0 1) (Vtx 1 0 0) q <-> vx q * vx q + vy q * vy q = 1 /\ vy q <= 0.
Proof.
  split.
  - intros (t & Ht & A). apply ex_half_arc in A. subst q. cbn [vx vy]. pose proof (sin2_cos2 (t * PI)) as Q. unfold Rsqr in Q. split; [lra|].
    pose proof PI_pos. assert (0 <= sin (t * PI)); [|lra]. apply sin_ge_0; nra.
  - intros (C & Y). pose proof PI_pos as HP. assert (B : -1 <= - vx q <= 1) by nra. pose proof (acos_bound (- vx q)) as A.
    exists (acos (- vx q) / PI). split; [split; [apply Rmult_le_pos; [lra|left; now apply Rinv_0_lt_compat]|apply (Rmult_le_reg_r PI); [lra|]; unfold Rdiv; rewrite Rmult_assoc, Rinv_l; lra]|].
    apply ex_half_arc. replace (acos (- vx q) / PI * PI) with (acos (- vx q)) by (field; lra). rewrite cos_acos, sin_acos by exact B.
    apply vec2_eq; cbn [vx vy]; [lra|]. unfold Rsqr. replace (1 - - vx q * - vx q) with (- vy q * - vy q) by lra. rewrite sqrt_square; lra.
Qed.

Lemma near_half x : near_seg (Vtx (-1) 0 1) (Vtx 1 0 0) (1 / 100000) x ->
  exists q, vx q * vx q + vy q * vy q = 1 /\ vy q <= 0 /\ Rabs (vx x - vx q) <= 1 / 1000 /\ Rabs (vy x - vy q) <= 1 / 1000.
Proof.
  intros (q & O & [(B & _)|(_ & c & r & a & A & D)]); [cbn in B; lra|]. apply half_points in O as (C & Y). exists q. split; [exact C|]. split; [exact Y|].
  destruct (half_circle c r (ex_intro _ a A)) as (_ & ->). pose proof (coords_le x q). lra.
Qed.

Lemma half_wide : wide (Vtx (-1) 0 1) (Vtx 1 0 0) (1 / 100000).
Proof.
  intros _ c r a A. destruct (half_circle c r (ex_intro _ a A)) as (_ & ->). unfold pos. cbn [px py]. rewrite (ex_dist _ _ _ _ 2) by lra. lra.
Qed.

Lemma line_misses x y x' y' : ~ is_point (V2 x y) (V2 x' y') (1 / 100000) -> clear_direction (V2 x y) (V2 x' y') ->
  (x = 2 /\ x' = 2) \/ (y = y' /\ 2 <= Rabs y) -> line_arc_clear (1 / 100000) (Vtx x y 0) (Vtx x' y' 0) (Vtx (-1) 0 1) (Vtx 1 0 0).
Proof.
  intros P D H. split; [exact P|]. split; [exact D|]. intros c r A. apply half_circle in A as (-> & ->). left. exists 2. split; [lra|]. intros k.
  destruct (coords_le (line_pt (pos (Vtx x y 0)) (pos (Vtx x' y' 0)) k) (V2 0 0)) as (X & Y). unfold line_pt, pos in *. cbn [px py vx vy] in *.
  destruct H as [(-> & ->)|(<- & Hy)].
  - replace (2 + k * (2 - 2) - 0) with 2 in X by ring. rewrite Rabs_pos_eq in X; lra.
  - replace (y + k * (y - y) - 0) with y in Y by ring. lra.
Qed.

Lemma slab_cuts : line_arc_clear (1 / 100000) (Vtx (3 / 5) 2 0) (Vtx (3 / 5) (-2) 0) (Vtx (-1) 0 1) (Vtx 1 0 0).
Proof.
  assert (On : forall q, on_seg (Vtx (3 / 5) 2 0) (Vtx (3 / 5) (-2) 0) q -> vx q = 3 / 5).
  { intros q (t & _ & A). apply at_line in A as (X & _). lra. }
  split; [unfold is_point, pos; cbn [px py vx vy]; intros (_ & B); revert B; rabs_lra|]. split; [left; cbn; lra|].
  intros c r A. apply half_circle in A as (-> & ->). right. split; [|split; [exact half_wide|split; [|split]]].
  - exists (1 / 2). unfold line_pt, pos. cbn [px py vx vy]. rewrite (ex_dist _ _ _ _ (3 / 5)) by lra. lra.
  - intros e He N. apply near_half in N as (q & C & Y & X1 & Y1). assert (-1 <= vy q) by nra. destruct He as [-> | ->]; cbn in X1, Y1; revert Y1; rabs_lra.
  - intros e He (q & O & [(_ & D)|(B & _)]); [|cbn in B; lra]. apply On in O. destruct (coords_le e q) as (X & _). rewrite O in X. destruct He as [-> | ->]; cbn in X; revert X; rabs_lra.
  - intros x [(_ & t & E)|(B & _)] [(B' & _)|(_ & c & r & A & D)]; try (cbn in B'; lra); [|cbn in B; lra].
    apply half_circle in A as (-> & ->). pose proof (ProofIntr.dist_sqr x (V2 0 0)) as Q. rewrite D in Q. cbn [vx vy] in Q.
    assert (Ex : vx x = 3 / 5). { rewrite E. unfold line_pt, pos. cbn [px py vx vy]. lra. } rewrite Ex in Q.
    assert (Z : (vy x - 4 / 5) * (vy x + 4 / 5) = 0) by lra. apply Rmult_integral in Z. destruct Z as [Z|Z].
    + right. right. intros N. apply near_half in N as (q & C & Y & X1 & Y1). revert Y1. replace (vy x) with (4 / 5) by lra. rabs_lra.
    + left. split; [|apply half_points; rewrite Ex; replace (vy x) with (-4 / 5) by lra; lra].
      exists (7 / 10). split; [lra|]. left. split; [reflexivity|]. unfold line_pt, pos. cbn [px py vx vy]. apply vec2_eq; cbn [vx vy]; lra.
Qed.

Lemma ex_common q : on_path ex_half q -> on_path (polygon ex_slab) q -> q = V2 (3 / 5) (-4 / 5) \/ q = V2 (3 / 5) 0.
Proof.
  intros (v1 & v2 & I & O) (u1 & u2 & J & u & Hu & Au). rewrite ex_half_segs in I. destruct I as [I|[I|[]]]; injection I as <- <-.
  - apply half_points in O as (C & Y). each_side J; apply at_line in Au as (X' & Y').
    + exfalso. assert (-1 <= vy q) by nra. lra.
    + exfalso. assert (vx q <= 1) by nra. lra.
    + exfalso. lra.
    + left. assert (Ex : vx q = 3 / 5) by lra. rewrite Ex in C. assert (Z : (vy q - 4 / 5) * (vy q + 4 / 5) = 0) by lra. apply Rmult_integral in Z.
      apply vec2_eq; cbn [vx vy]; destruct Z; lra.
  - destruct O as (t & Ht & At). apply seg_at_line in At; [|reflexivity]. subst q. unfold line_pt, pos in *. cbn [px py vx vy] in *.
    each_side J; apply at_line in Au as (X' & Y'); cbn [vx vy] in *; try (exfalso; lra). right. apply vec2_eq; cbn [vx vy]; lra.
Qed.

Lemma ex_loops : clear_loops (1 / 100000) ex_half (polygon ex_slab).
Proof.
  split; [reflexivity|]. split; [reflexivity|]. split; [|split; [|split; [|split; [|split; [|split]]]]].
  - intros v1 v2 I. split; [now apply ex_half_ok|]. rewrite ex_half_segs in I. left. destruct I as [I|[I|[]]]; injection I as <- <-; cbn [px py]; rabs_lra.
  - intros v1 v2 H. cbn in H; unfold vertex_at in H; cbn in H;
      repeat (destruct H as [H|H]; [injection H as <- <-; split; [split; [left; reflexivity|intros E; now destruct E]|cbn [px py]]|]); try contradiction;
      first [left; rabs_lra|right; rabs_lra].
  - intros v1 v2 c r I B A. rewrite ex_half_segs in I. destruct I as [I|[I|[]]]; injection I as <- <-; [|cbn in B; lra]. apply half_circle in A as (_ & ->). lra.
  - intros v1 v2 c r I B A. each_side I; cbn in B; lra.
  - intros v1 v2 u1 u2 I J. change true with (is_closed ex_half) in I. rewrite ex_half_segs in I. destruct I as [I|[I|[]]]; injection I as <- <-.
    + each_side J; (split; [intros B; cbn in B; lra|]); (split; [intros B; cbn in B; lra|]); (split; [|intros _ B; cbn in B; lra]); intros _ _.
      * apply line_misses; [intros (P & _); revert P; cbn; rabs_lra|right; cbn; rabs_lra|right; split; [reflexivity|rabs_lra]].
      * apply line_misses; [intros (_ & P); revert P; cbn; rabs_lra|left; cbn; lra|left; lra].
      * apply line_misses; [intros (P & _); revert P; cbn; rabs_lra|right; cbn; rabs_lra|right; split; [reflexivity|rabs_lra]].
      * apply slab_cuts.
    + each_side J; (split; [intros _ _|]); try (split; [intros _ B; cbn in B; lra|]; split; intros B; cbn in B; lra); try besides.
      right. right. exists (V2 (3 / 5) 0). split; [unfold cross, vec, pos; cbn [px py vx vy]; rabs_lra|].
      exists (1 / 5), (1 / 2). split; [lra|]. split; [lra|]. split; unfold line_pt, pos; cbn [px py vx vy]; f_equal; lra.
  - intros q O1 O2. destruct (ex_common q O1 O2) as [-> | ->]; (split; [away|]); unfold polygon, ex_slab, vertex_at; cbn [map vx vy]; away.
  - intros q q' A B A' B'. destruct (ex_common q A B) as [-> | ->], (ex_common q' A' B') as [-> | ->]; cbn [vx vy]; auto; right; right; rabs_lra.
Qed.

Lemma slab_loop : valid_loop (polygon ex_slab). Proof. split; [cbn; lia|reflexivity]. Qed.
Lemma slab_once : passes_once (polygon ex_slab). Proof. apply (lone_once (1 / 100000)); [lra|exact ex_slab_lone]. Qed.

(** The two points that the search finds. *)
Lemma ex_found b : common_point ex_half (polygon ex_slab) b <-> b = BI 0 3 (V2 (3 / 5) (-4 / 5)) \/ b = BI 1 3 (V2 (3 / 5) 0).
Proof.
  split.
  - intros (v1 & v2 & u1 & u2 & E1 & E2 & O1 & O2). destruct b as [i j q]. cbn [bi_index1 bi_index2 bi_point] in *.
    pose proof (nth_error_In _ _ E1) as I1. pose proof (nth_error_In _ _ E2) as I2.
    rewrite ex_half_segs in E1. destruct i as [|[|i]]; cbn [nth_error] in E1; [| |destruct i; discriminate]; injection E1 as <- <-.
    + apply half_points in O1 as (C & Y). destruct O2 as (u & Hu & Au). destruct j as [|[|[|[|j]]]]; [| | | |cbn in E2; destruct j; discriminate];
        cbn in E2; unfold vertex_at in E2; cbn [vx vy] in E2; injection E2 as <- <-; apply at_line in Au as (X' & Y').
      * exfalso. assert (-1 <= vy q) by nra. lra.
      * exfalso. assert (vx q <= 1) by nra. lra.
      * exfalso. lra.
      * left. f_equal. assert (Ex : vx q = 3 / 5) by lra. rewrite Ex in C. assert (Z : (vy q - 4 / 5) * (vy q + 4 / 5) = 0) by lra. apply Rmult_integral in Z.
        apply vec2_eq; cbn [vx vy]; destruct Z; lra.
    + destruct O1 as (t & Ht & At). apply seg_at_line in At; [|reflexivity]. subst q. unfold line_pt, pos in *. cbn [px py vx vy] in *. destruct O2 as (u & Hu & Au).
      destruct j as [|[|[|[|j]]]]; [| | | |cbn in E2; destruct j; discriminate];
        cbn in E2; unfold vertex_at in E2; cbn [vx vy] in E2; injection E2 as <- <-; apply at_line in Au as (X' & Y'); cbn [vx vy] in *; try (exfalso; lra).
      right. f_equal. apply vec2_eq; cbn [vx vy]; lra.
  - intros [-> | ->]; cbn [bi_index1 bi_index2 bi_point]; eexists _, _, _, _; (split; [reflexivity|]); (split; [reflexivity|]); cbn [bi_index1 bi_index2 bi_point].
    + split; [apply half_points; cbn [vx vy]; lra|]. exists (7 / 10). split; [lra|]. left. split; [reflexivity|]. unfold line_pt, pos. cbn. apply vec2_eq; cbn [vx vy]; lra.
    + split; [exists (1 / 5)|exists (1 / 2)]; (split; [lra|]); left; (split; [reflexivity|]); unfold line_pt, pos; cbn; apply vec2_eq; cbn [vx vy]; lra.
Qed.

Lemma half_off x : vx x * vx x + vy x * vy x < 1 -> vy x < 0 -> ~ on_path ex_half x.
Proof.
  intros C Y (v1 & v2 & I & O). rewrite ex_half_segs in I. destruct I as [I|[I|[]]]; injection I as <- <-.
  - apply half_points in O as (O & _). lra.
  - destruct O as (t & _ & A). apply seg_at_line in A; [|reflexivity]. subst x. cbn in Y. lra.
Qed.

Lemma half_inside x : vx x * vx x + vy x * vy x < 1 -> vy x < 0 -> inside ex_half x = true.
Proof.
  intros C Y. unfold inside. rewrite ProofWinding6.winding_wn. unfold ProofWinding6.wn. rewrite winding_nw; [|apply ex_half_ok|reflexivity|cbn; lia|now apply half_off].
  rewrite ex_half_segs. unfold zsum. cbn [map fold_right].
  assert (Ok : seg_ok (Vtx (-1) 0 1) (Vtx 1 0 0)) by (apply ex_half_ok; rewrite ex_half_segs; now left).
  assert (L : forall v1 v2 : vertex R, pbulge v1 = 0 -> py v1 = 0 -> py v2 = 0 -> nw x (v1, v2) = 0%Z).
  { intros v1 v2 B Y1 Y2. unfold nw, winding_step. rewrite (proj2 (bulge_ok_zero v1 (or_introl B)) B). unfold process_line_winding. rnum. rewrite Y1, Y2.
    destruct (rleb 0 (vy x)) eqn:Q; [apply rleb_true in Q; lra|]. reflexivity. }
  rewrite (L (Vtx 1 0 0)) by reflexivity.
  destruct (arc_nw_ccw (Vtx (-1) 0 1) (Vtx 1 0 0) x Ok) as (A & _); [cbn; lra|unfold perp; cbn [px py vx vy]; lra|].
  rewrite A; [|split; [unfold perp; cbn [px py vx vy]; lra|apply inb_side; [cbn; lra|unfold sideof, perp, dotp; cbn [fst snd px py pbulge vx vy]; lra]]].
  unfold chord. cbn [fst snd px py]. rewrite L by reflexivity. reflexivity.
Qed.

Lemma slab_sides : inside (polygon ex_slab) (V2 0 (-1 / 2)) = false /\ inside (polygon ex_slab) (V2 (4 / 5) (-1 / 4)) = true.
Proof.
  unfold inside, winding_number. rewrite !iter_segments_spec. unfold polygon, ex_slab, vertex_at. cbn -[bulge_is_zero process_line_winding]. rewrite !zero_line.
  unfold process_line_winding, is_left, is_left_or_equal, perp_dot_test_value, pos. cbn. repeat split; rcases; cbn; auto; exfalso; lra.
Qed.

Lemma ex_loops_run op :
  exists r, polyline_boolean (@list_index R RNum) ex_half (polygon ex_slab) op (ex_index ex_half) (1 / 100000) = Ret r
  /\ (region (fun p y => inside p y = true) r (V2 0 (-1 / 2)) <-> op <> BAnd)
  /\ (region (fun p y => inside p y = true) r (V2 (4 / 5) (-1 / 4)) <-> op = BOr \/ op = BAnd).
Proof.
  destruct (loops_region (@list_index R RNum) ex_half (polygon ex_slab) (1 / 100000) op (ex_index ex_half) _ ltac:(lra) ex_loops list_index_ok (list_index_ok _) eq_refl
    ex_half_loop slab_loop ex_half_once slab_once) as (r & E & _ & H). exists r. split; [exact E|].
  assert (Off : forall x, x = V2 0 (-1 / 2) \/ x = V2 (4 / 5) (-1 / 4) -> ~ on_path (polygon ex_slab) x).
  { intros x Hx (v1 & v2 & I & t & Ht & At); each_side I; apply at_line in At as (X & Y); destruct Hx as [-> | ->]; cbn in X, Y; lra. }
  destruct slab_sides as (S1 & S2). split.
  - rewrite H; [|apply half_off; cbn; lra|apply Off; auto]. rewrite S1, half_inside by (cbn; lra). destruct op; cbn; intuition (try discriminate).
  - rewrite H; [|apply half_off; cbn; lra|apply Off; auto]. rewrite S2, half_inside by (cbn; lra). destruct op; cbn; intuition (try discriminate).
Qed.
