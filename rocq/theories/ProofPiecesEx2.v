(** A square with an L-shaped hole, offset outwards: the pieces and the result (C79). *)
From Coq Require Import Reals ZArith Bool List Arith Lra Lia Psatz.
From Verif Require Import Num RNum Res ModelMath ModelSeg ModelPline ModelIndex ModelOffset ModelShape.
From Verif Require Import Spec SpecGeom SpecIntr SpecBox SpecBoolean SpecView SpecPrune SpecIndex SpecCuts SpecOffset SpecOffNear SpecPolyOff SpecOffsetJoin SpecJordan SpecConvex SpecRound SpecSegIntr SpecCurve SpecSimple SpecShape SpecRing SpecPieces.
From Verif Require Import ProofR ProofBase ProofIter ProofArc ProofIntr ProofIndex2 ProofPolyOff ProofPolyOff2 ProofPolyOff3 ProofCircleOff ProofArea6 ProofPolyBool2 ProofOff7 ProofOff9 ProofOffEx ProofOffEx2 ProofPieces ProofPieces2 ProofNest ProofWinding6 ProofPiecesEx.
From Verif Require ProofConvex ProofConvexEx ProofConvexOff ProofJordan ProofJordan2 ProofSteiner2.
Import ListNotations.
Local Open Scope R_scope.


Section Slate2.
Variable b : R.
Hypothesis B : 2 / 5 <= b <= 1.
Hypothesis Sb : 4 * atan b = PI / 2.

Lemma slate_made : made_corners (polygon ex_slate) (-1 / 2) (1 / 100000) (slate_corners b).
Proof.
  assert (RND : forall x1 y1 x2 y2 x3 y3 nx ny mx my al, nx * nx + ny * ny = 1 -> (x2 - x1) * nx + (y2 - y1) * ny = 0 -> 0 < (x2 - x1) * ny - (y2 - y1) * nx ->
     mx * mx + my * my = 1 -> (x3 - x2) * mx + (y3 - y2) * my = 0 -> 0 < (x3 - x2) * my - (y3 - y2) * mx ->
     12 <= (x2 - x1) * (y3 - y2) - (y2 - y1) * (x3 - x2) -> nx * mx + ny * my = 0 -> mx = - ny -> my = nx -> cos al = - nx -> sin al = - ny -> (nx = 0 /\ Rabs ny = 1) \/ (Rabs nx = 1 /\ ny = 0) ->
     corner_made (-1 / 2) (1 / 100000) (V2 x1 y1) (V2 x2 y2) (V2 x3 y3) [Vtx (x2 - nx / 2) (y2 - ny / 2) b; Vtx (x2 - mx / 2) (y2 - my / 2) 0]).
  { intros x1 y1 x2 y2 x3 y3 nx ny mx my al H1 H2 H3 H4 H5 H6 H7 H8 H9 H10 H11 H12 H13. right. eexists _, _. split; [|reflexivity]. exists (V2 nx ny), (V2 mx my), al. split; [now apply ln|]. split; [now apply ln|]. unfold cross, vec. cbn [vx vy]. split; [lra|]. split; [rewrite Rabs_pos_eq; lra|]. split.
    - intros x ((s & Es) & (t & Et)). pose proof (f_equal vx Es) as X1. pose proof (f_equal vy Es) as X2. pose proof (f_equal vx Et) as Y1. pose proof (f_equal vy Et) as Y2. unfold line_pt, moved in X1, X2, Y1, Y2. cbn [vx vy] in X1, X2, Y1, Y2.
      pose proof (ProofJordan.coord_dist (moved (V2 x2 y2) (V2 nx ny) (-1 / 2)) x) as (D1 & D2). unfold moved in *. cbn [vx vy] in *. destruct H13 as [(E1 & E2)|(E1 & E2)].
      + rewrite E1 in *. assert (y1 = y2) by (destruct (Rcase_abs ny); [rewrite Rabs_left in E2 by lra|rewrite Rabs_right in E2 by lra]; assert (ny = 1 \/ ny = -1) as [Q|Q] by lra; rewrite Q in *; lra). assert (x3 = x2) by (rewrite H10, H9 in *; destruct (Rcase_abs ny); [rewrite Rabs_left in E2 by lra|rewrite Rabs_right in E2 by lra]; assert (ny = 1 \/ ny = -1) as [Q|Q] by lra; rewrite Q in *; lra).
        subst y1 x3. eapply Rle_trans; [|exact D1]. rewrite Y1, H9. replace (x2 + -1 / 2 * - ny + t * (x2 + -1 / 2 * - ny - (x2 + -1 / 2 * - ny)) - (x2 + -1 / 2 * 0)) with (ny / 2) by field. revert E2. rabs_lra.
      + rewrite E2 in *. assert (x1 = x2) by (assert (nx = 1 \/ nx = -1) as [Q|Q] by (revert E1; rabs_lra); rewrite Q in *; lra). assert (y3 = y2) by (rewrite H10, H9 in *; assert (nx = 1 \/ nx = -1) as [Q|Q] by (revert E1; rabs_lra); rewrite Q in *; lra).
        subst x1 y3. eapply Rle_trans; [|exact D2]. rewrite Y2, H10. replace (y2 + -1 / 2 * nx + t * (y2 + -1 / 2 * nx - (y2 + -1 / 2 * nx)) - (y2 + -1 / 2 * 0)) with (- nx / 2) by field. revert E1. rabs_lra.
    - split; [unfold pos, moved; apply vec2_eq; cbn [px py vx vy]; lra|]. split; [unfold vertex_at, moved; cbn [vx vy]; f_equal; lra|]. replace (Rabs (-1 / 2)) with (1 / 2) by rabs_lra. cbn [pbulge]. split; [|rewrite Rabs_pos_eq; lra].
      pose proof (quarter_arc b Sb x2 y2 (- nx) (- ny) al 0 H11 H12) as Q. unfold pos in *. cbn [px py] in *. rewrite H9, H10. replace (x2 - nx / 2) with (x2 + - nx / 2) by lra. replace (y2 - ny / 2) with (y2 + - ny / 2) by lra. replace (y2 - nx / 2) with (y2 + - nx / 2) by lra. exact Q. }
  assert (RND' : forall x1 y1 x2 y2 x3 y3 nx ny mx my al p1 q1 p2 q2, p1 = x2 - nx / 2 -> q1 = y2 - ny / 2 -> p2 = x2 - mx / 2 -> q2 = y2 - my / 2 -> nx * nx + ny * ny = 1 -> (x2 - x1) * nx + (y2 - y1) * ny = 0 -> 0 < (x2 - x1) * ny - (y2 - y1) * nx ->
     mx * mx + my * my = 1 -> (x3 - x2) * mx + (y3 - y2) * my = 0 -> 0 < (x3 - x2) * my - (y3 - y2) * mx ->
     12 <= (x2 - x1) * (y3 - y2) - (y2 - y1) * (x3 - x2) -> nx * mx + ny * my = 0 -> mx = - ny -> my = nx -> cos al = - nx -> sin al = - ny -> (nx = 0 /\ Rabs ny = 1) \/ (Rabs nx = 1 /\ ny = 0) ->
     corner_made (-1 / 2) (1 / 100000) (V2 x1 y1) (V2 x2 y2) (V2 x3 y3) [Vtx p1 q1 b; Vtx p2 q2 0]) by (intros x1 y1 x2 y2 x3 y3 nx ny mx my al p1 q1 p2 q2 -> -> -> ->; apply RND).
  pose proof PI_RGT_0 as PP. split; [|split].
  - unfold polygon, ex_slate, slate_corners. cbn [vtx map spec_segs tl app combine with_previous last fst snd vertex_at pos px py vx vy]. unfold pos. cbn [px py vertex_at vx vy].
    constructor; [cbn; apply (RND' (-4) 8 (-4) (-4) 8 (-4) 1 0 0 1 PI); first [lra|rewrite cos_PI; lra|rewrite sin_PI; lra|right; split; rabs_lra]|].
    constructor; [cbn; apply (RND' (-4) (-4) 8 (-4) 8 8 0 1 (-1) 0 (- (PI / 2))); first [lra|rewrite cos_neg, cos_PI2; lra|rewrite sin_neg, sin_PI2; lra|left; split; rabs_lra]|].
    constructor; [cbn; apply (RND' 8 (-4) 8 8 (-4) 8 (-1) 0 0 (-1) 0); first [lra|rewrite cos_0; lra|rewrite sin_0; lra|right; split; rabs_lra]|].
    constructor; [cbn; apply (RND' 8 8 (-4) 8 (-4) (-4) 0 (-1) 1 0 (PI / 2)); first [lra|rewrite cos_PI2; lra|rewrite sin_PI2; lra|left; split; rabs_lra]|]. constructor.
  - cbn. unfold pos. cbn [px py]. repeat (constructor; [cbn [fst snd px py]; intros (P1 & P2); cbn [vx vy] in P1, P2; revert P1 P2; rabs_lra|]). constructor.
  - cbn. intros a c n v [= <- <-] N [= <-]. unfold pos in *. cbn [px py vx vy vertex_at] in *. assert (N0 : n = V2 0 1).
    { apply (ProofConvexOff.normal_unique (V2 (-4) (-4)) (V2 8 (-4))); [exact N|]. apply ln; lra. }
    subst n. intros (P1 & P2). unfold moved in P1, P2. cbn [vx vy] in P1, P2. revert P1 P2. rabs_lra.
Qed.

Ltac facts := repeat match goal with
  | O : on_seg (Vtx 8 (-9 / 2) b) (Vtx (17 / 2) (-4) ?b') _ |- _ => apply (proj2 (proj2 (proj2 (slate_1 b B Sb b')))) in O; destruct O as (? & ? & ?)
  | O : on_seg (Vtx (17 / 2) 8 b) (Vtx 8 (17 / 2) ?b') _ |- _ => apply (proj2 (proj2 (proj2 (slate_2 b B Sb b')))) in O; destruct O as (? & ? & ?)
  | O : on_seg (Vtx (-4) (17 / 2) b) (Vtx (-9 / 2) 8 ?b') _ |- _ => apply (proj2 (proj2 (proj2 (slate_3 b B Sb b')))) in O; destruct O as (? & ? & ?)
  | O : on_seg (Vtx (-9 / 2) (-4) b) (Vtx (-4) (-9 / 2) ?b') _ |- _ => apply (proj2 (proj2 (proj2 (slate_4 b B Sb b')))) in O; destruct O as (? & ? & ?)
  | O : on_seg (Vtx (3 / 2) 2 b) (Vtx 2 (3 / 2) ?b') _ |- _ => apply (proj2 (proj2 (proj2 (slate_5 b B Sb b')))) in O; destruct O as (? & ? & ?)
  | O : on_seg _ _ _ |- _ => apply line_on' in O; destruct O as (? & ? & ? & ?) end.

Lemma raw_boxes q : (on_path (slate_raw b) q -> (vx q <= -9 / 2 \/ 17 / 2 <= vx q \/ vy q <= -9 / 2 \/ 17 / 2 <= vy q)
     \/ exists cx cy, (cx = -4 /\ vx q <= cx \/ cx = 8 /\ cx <= vx q) /\ (cy = -4 /\ vy q <= cy \/ cy = 8 /\ cy <= vy q) /\ (vx q - cx) * (vx q - cx) + (vy q - cy) * (vy q - cy) = 1 / 4)
  /\ (on_path (angle_raw b) q -> 0 <= vx q <= 4 /\ 0 <= vy q <= 4).
Proof.
  split; intros (v1 & v2 & I & O); cbn in I.
  - destruct I as [I|[I|[I|[I|[I|[I|[I|[I|[]]]]]]]]]; injection I as <- <-; facts; try (left; lra); right.
    + exists 8, (-4). lra.
    + exists 8, 8. lra.
    + exists (-4), 8. lra.
    + exists (-4), (-4). lra.
  - destruct I as [I|[I|[I|[I|[I|[I|[I|[]]]]]]]]; injection I as <- <-; facts; lra.
Qed.
Lemma edge_boxes y : (on_path (polygon ex_slate) y -> -4 <= vx y <= 8 /\ -4 <= vy y <= 8 /\ (vx y = -4 \/ vx y = 8 \/ vy y = -4 \/ vy y = 8))
  /\ (on_path (polygon ex_angle) y -> 0 <= vx y <= 4 /\ 0 <= vy y <= 4).
Proof.
  split; intros O; apply ProofConvex.polygon_path in O as (c & e & t & J & Ht & ->); cbn in J; repeat (destruct J as [J|J]; [injection J as <- <-|]); try contradiction J; unfold line_pt; cbn [vx vy]; lra.
Qed.

Definition slate_piece : piece := Piece ex_slate (slate_corners b).
Definition angle_piece : piece := Piece ex_angle (angle_corners b).

Lemma slate_keep : keep_clear (1 / 100000) (-1 / 2) [slate_piece; angle_piece].
Proof.
  assert (Ab : Rabs (-1 / 2) = 1 / 2) by rabs_lra. split.
  - rewrite Ab. assert (CD : forall w z, 1 / 2 <= Rabs (vx z - vx w) \/ 1 / 2 <= Rabs (vy z - vy w) -> 1 / 2 <= dist w z) by (intros w z H; destruct (ProofJordan.coord_dist w z); lra).
    intros a c q y [<-|[<-|[]]] [<-|[<-|[]]] Oq Oy.
    + apply (proj1 (edge_boxes y)) in Oy. apply (proj1 (raw_boxes q)) in Oq. destruct Oq as [Oq|(cx & cy & Hx & Hy & D)].
      * apply CD. destruct Oq as [Q|[Q|[Q|Q]]]; [left|left|right|right]; rabs_lra.
      * apply Rsqr_incr_0_var; [|apply sqrt_pos]; unfold Rsqr; rewrite dist_sqr.
        assert (X : (vx q - cx) * (vx q - cx) <= (vx q - vx y) * (vx q - vx y)).
        { assert (Z : 0 <= (vx q - cx) * (cx - vx y)) by (destruct Hx as [(-> & H)|(-> & H)]; [replace ((vx q - -4) * (-4 - vx y)) with ((-4 - vx q) * (vx y - -4)) by ring|]; apply Rmult_le_pos; lra).
          pose proof (Rle_0_sqr (cx - vx y)) as S. unfold Rsqr in S. lra. }
        assert (Y : (vy q - cy) * (vy q - cy) <= (vy q - vy y) * (vy q - vy y)).
        { assert (Z : 0 <= (vy q - cy) * (cy - vy y)) by (destruct Hy as [(-> & H)|(-> & H)]; [replace ((vy q - -4) * (-4 - vy y)) with ((-4 - vy q) * (vy y - -4)) by ring|]; apply Rmult_le_pos; lra).
          pose proof (Rle_0_sqr (cy - vy y)) as S. unfold Rsqr in S. lra. }
        lra.
    + apply (proj2 (edge_boxes y)) in Oy. apply (proj1 (raw_boxes q)) in Oq. apply CD. destruct Oq as [[Q|[Q|[Q|Q]]]|(cx & cy & Hx & Hy & D)]; [left|left|right|right|left]; rabs_lra.
    + apply (proj1 (edge_boxes y)) in Oy. apply (proj2 (raw_boxes q)) in Oq. apply CD. destruct Oy as (_ & _ & [Q|[Q|[Q|Q]]]); [left|left|right|right]; rabs_lra.
    + exact (angle_keeps b B Sb q y Oq Oy).
  - destruct (slate_miss b B Sb) as (M1 & M2). intros i j a c Hi Hj N. destruct i as [|[|i]], j as [|[|j]]; cbn in Hi, Hj; try (destruct i; discriminate); try (destruct j; discriminate); try (exfalso; now apply N); injection Hi as <-; injection Hj as <-; assumption.
Qed.

Lemma slate_polygon : lone_polygon (1 / 100000) ex_slate.
Proof.
  unfold lone_polygon, ex_slate. cbn [length]. split; [lia|]. split.
  - intros i a c e. do 4 (destruct i as [|i]; [cbn; intros [= <- <-] [= <-]; unfold cross, vec; cbn [vx vy]; rabs_lra|]). cbn. destruct i; discriminate.
  - intros i j a c e f. do 4 (destruct i as [|i]; [cbn -[Nat.modulo]; intros [= <- <-]; do 4 (destruct j as [|j];
      [cbn; intros [= <- <-] N1 N2 N3; try (exfalso; (now apply N1) || (now apply N2) || (now apply N3)); first [left; beside_with 1|left; beside_with (-1)|right; beside_with 1|right; beside_with (-1)]|]);
      cbn; destruct j; discriminate|]).
    cbn. destruct i; discriminate.
Qed.
Lemma slate_area : area (polygon ex_slate) = Ret 144.
Proof. rewrite ProofSteiner2.polygon_area. f_equal. unfold ex_slate, cross. cbn. lra. Qed.

Lemma slate_fits : fits (1 / 100000) (-1 / 2) 1 slate_piece.
Proof.
  split; [apply (lone_once (1 / 100000)); [lra|exact slate_polygon]|]. split; [exists 144; split; [exact slate_area|lra]|]. split; [exact slate_made|exact (slate_lone b B Sb)].
Qed.
Lemma angle_fits : fits (1 / 100000) (-1 / 2) (-1) angle_piece.
Proof.
  split; [apply (lone_once (1 / 100000)); [lra|exact ex_angle_lone]|]. split; [exists (-12); split; [exact angle_area|lra]|]. split; [now apply angle_made|exact (angle_lone b B Sb)].
Qed.

Lemma slate_holes : with_holes [slate_piece] [angle_piece].
Proof.
  assert (ONE : forall a, side_by_side [a]) by (intros a i j c e Hi Hj N; destruct i as [|[|i]], j as [|[|j]]; cbn in Hi, Hj; try discriminate; now destruct N).
  split; [apply ONE|]. split; [apply ONE|]. split.
  - intros a h [<-|[]] [<-|[]] y Oy. change (on_path (polygon ex_slate) y) in Oy. change (inside (polygon ex_angle) y = false).
    assert (W : wn (polygon ex_angle) y = 0%Z).
    { assert (E : wn (polygon ex_angle) y = wn (polygon ex_angle) (V2 (-4) (-4))).
      { apply (wn_along (polygon ex_angle) (polygon ex_slate) (ProofConvex.polygon_ok _) (ProofConvex.polygon_ok _)) with (v0 := vertex_at (V2 (-4) (-4)) 0); [|reflexivity|exact Oy].
        intros q (O1 & O2). apply (proj2 (edge_boxes q)) in O1. apply (proj1 (edge_boxes q)) in O2. lra. }
      assert (E' : wn (polygon ex_angle) (V2 8 8) = wn (polygon ex_angle) (V2 (-4) (-4))).
      { apply (wn_along (polygon ex_angle) (polygon ex_slate) (ProofConvex.polygon_ok _) (ProofConvex.polygon_ok _)) with (v0 := vertex_at (V2 (-4) (-4)) 0); [|reflexivity|].
        - intros q (O1 & O2). apply (proj2 (edge_boxes q)) in O1. apply (proj1 (edge_boxes q)) in O2. lra.
        - apply ProofConvex.polygon_path. exists (V2 8 8), (V2 (-4) 8), 0. split; [cbn; tauto|]. split; [lra|]. unfold line_pt. apply vec2_eq; cbn [vx vy]; lra. }
      rewrite E, <- E'. apply wn_right; [apply ProofConvex.polygon_ok|exact ex_angle_loop|]. intros q O. apply (proj2 (edge_boxes q)) in O. cbn [vx]. lra. }
    unfold inside. rewrite winding_wn, W. reflexivity.
  - intros h [<-|[]]. exists slate_piece. split; [now left|]. intros y Oy. apply (proj2 (edge_boxes y)) in Oy. change (inside (polygon ex_slate) y = true).
    assert (S : forall a c, In (a, c) (spec_segs ex_slate true) -> 0 < 1 * cross (vec a c) (vec a y)) by (intros a c I; cbn in I; repeat (destruct I as [I|I]; [injection I as <- <-; unfold cross, vec; cbn [vx vy]; lra|]); destruct I).
    apply (ProofConvex.convex_inside 1 ex_slate); [now left| |split; [cbn; lia|reflexivity]|apply (lone_once (1 / 100000)); [lra|exact slate_polygon]| |exact S].
    + intros a c e I J. cbn in I, J. repeat (destruct I as [I|I]; [injection I as <- <-|]); try contradiction I; repeat (destruct J as [<-|J]; [unfold cross, vec; cbn [vx vy]; lra|]); destruct J.
    + exact (ProofConvexEx.strict_off 1 ex_slate y S).
Qed.
End Slate2.

Lemma slate_example : let b := tan (PI / 8) in exists s r,
  shape_from_plines (@list_index R _) [polygon ex_slate; polygon ex_angle] = Ret s
  /\ shape_parallel_offset (@list_index R _) s (-1 / 2) ex_ring_opts = Ret r
  /\ map ip_pline (sh_ccw r) = [slate_raw b] /\ map ip_pline (sh_cw r) = [angle_raw b]
  /\ forall x, off_shape r x -> (in_shape r x <-> in_shape s x \/ exists y, on_shape s y /\ dist x y <= 1 / 2).
Proof.
  intros b. destruct eighth as (B & Sb). fold b in B, Sb. assert (Ab : Rabs (-1 / 2) = 1 / 2) by rabs_lra.
  assert (HT : 0 < so_offset_dist_eps ex_ring_opts < 2 * Rabs (-1 / 2)) by (rewrite Ab; cbn; lra).
  assert (F1 : Forall (fits (so_pos_equal_eps ex_ring_opts) (-1 / 2) 1) [slate_piece b]) by (constructor; [exact (slate_fits b B Sb)|constructor]).
  assert (F2 : Forall (fits (so_pos_equal_eps ex_ring_opts) (-1 / 2) (-1)) [angle_piece b]) by (constructor; [exact (angle_fits b B Sb)|constructor]).
  destruct (pieces_loops (@list_index R _) (-1 / 2) ex_ring_opts [slate_piece b] [angle_piece b] list_index_ok ltac:(cbn; lra) ltac:(cbn; lra) HT F1 F2 (slate_keep b B Sb)) as (s & r & E1 & E2 & _ & C1 & C2).
  destruct (pieces_region (@list_index R _) (-1 / 2) ex_ring_opts [slate_piece b] [angle_piece b] list_index_ok ltac:(cbn; lra) ltac:(cbn; lra) HT F1 F2 (slate_keep b B Sb) (slate_holes b B)) as (s' & r' & E1' & E2' & RG).
  assert (s' = s) as -> by congruence. assert (r' = r) as -> by congruence. exists s, r. split; [exact E1|]. split; [exact E2|]. split; [exact C1|]. split; [exact C2|].
  intros x OF. destruct (RG x OF) as (_ & H). specialize (H ltac:(lra)). replace (- (-1 / 2)) with (1 / 2) in H by lra. exact H.
Qed.
