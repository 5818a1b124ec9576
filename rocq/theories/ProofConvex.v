(** The inside of a convex polygon (C69). *)
From Coq Require Import Reals ZArith Bool List Arith Lra Lia Psatz Classical.
From Verif Require Import Num RNum Res ModelMath ModelSeg ModelPline ModelIndex ModelOffset.
From Verif Require Import Spec SpecGeom SpecIntr SpecBox SpecBoolean SpecView SpecPrune SpecPolyOff SpecOffsetJoin SpecJordan SpecConvex.
From Verif Require Import ProofR ProofBase ProofIter ProofArc ProofMeasure ProofWinding6 ProofNest ProofJordan2 ProofJordan5 ProofPolyOff ProofPolyOff2 ProofArea6 ProofOverlap.
Import ListNotations.
Local Open Scope R_scope.

Lemma polygon_side ps a b : In (a, b) (spec_segs ps true) -> In (vertex_at a 0, vertex_at b 0) (spec_segs (vtx (polygon ps)) (is_closed (polygon ps))).
Proof.
  intros I. apply In_nth_error in I as (i & E). change (is_closed (polygon ps)) with true. apply nth_error_In with i.
  rewrite polygon_segs, E. reflexivity.
Qed.

Lemma side_polygon ps v w : In (v, w) (spec_segs (vtx (polygon ps)) (is_closed (polygon ps))) ->
  exists a b, In (a, b) (spec_segs ps true) /\ v = vertex_at a 0 /\ w = vertex_at b 0.
Proof.
  intros I. apply In_nth_error in I as (i & E). change (is_closed (polygon ps)) with true in E. rewrite polygon_segs in E.
  destruct (nth_error (spec_segs ps true) i) as [[a b]|] eqn:Ei; [|discriminate]. injection E as <- <-. exists a, b. split; [eapply nth_error_In; exact Ei|]. split; reflexivity.
Qed.

Lemma pos_vertex q b : pos (vertex_at q b) = q. Proof. destruct q. reflexivity. Qed.

Lemma polygon_path ps q : on_path (polygon ps) q <-> exists a b t, In (a, b) (spec_segs ps true) /\ 0 <= t <= 1 /\ q = line_pt a b t.
Proof.
  split.
  - intros (v & w & I & t & Ht & At). apply side_polygon in I as (a & b & I & -> & ->). exists a, b, t. split; [exact I|]. split; [exact Ht|].
    apply seg_at_line in At; [|reflexivity]. rewrite !pos_vertex in At. exact At.
  - intros (a & b & t & I & Ht & ->). exists (vertex_at a 0), (vertex_at b 0). split; [now apply polygon_side|]. exists t. split; [exact Ht|].
    apply seg_at_line; [reflexivity|]. now rewrite !pos_vertex.
Qed.

Lemma polygon_ok ps : pline_ok (polygon ps).
Proof. intros v w I. apply side_polygon in I as (a & b & _ & -> & ->). split; [left; reflexivity|intros E; now destruct E]. Qed.

Lemma points_bounded (ps : list (vec2 R)) : exists M, forall q, In q ps -> Rabs (vx q) < M /\ Rabs (vy q) < M.
Proof.
  induction ps as [|p ps (M & H)]; [exists 0; intros q []|]. exists (Rmax M (Rmax (Rabs (vx p)) (Rabs (vy p)) + 1)).
  pose proof (Rmax_l M (Rmax (Rabs (vx p)) (Rabs (vy p)) + 1)). pose proof (Rmax_r M (Rmax (Rabs (vx p)) (Rabs (vy p)) + 1)).
  pose proof (Rmax_l (Rabs (vx p)) (Rabs (vy p))). pose proof (Rmax_r (Rabs (vx p)) (Rabs (vy p))).
  intros q [<-|I]; [lra|]. destruct (H q I). lra.
Qed.

Lemma between_abs a b t M : 0 <= t <= 1 -> Rabs a < M -> Rabs b < M -> Rabs (a + t * (b - a)) < M.
Proof.
  intros Ht A B. apply Rabs_def2 in A. apply Rabs_def2 in B. apply Rabs_def1.
  - destruct (Rlt_dec 0 t); [nra|]. replace t with 0 by lra. lra.
  - destruct (Rlt_dec 0 t); [nra|]. replace t with 0 by lra. lra.
Qed.

Lemma polygon_bounded ps : exists M, forall q, on_path (polygon ps) q -> Rabs (vx q) < M /\ Rabs (vy q) < M.
Proof.
  destruct (points_bounded ps) as (M & H). exists M. intros q Q. apply polygon_path in Q as (a & b & t & I & Ht & ->).
  destruct (spec_segs_In_both _ _ _ _ I) as (Ia & Ib). destruct (H a Ia), (H b Ib). unfold line_pt. cbn [vx vy]. split; now apply between_abs.
Qed.

(** A point beyond a square around the loop is not gone around. *)
Lemma far_outside p M z : pline_ok p -> valid_loop p -> (forall q, on_path p q -> Rabs (vx q) < M /\ Rabs (vy q) < M) ->
  M <= vx z \/ M <= vy z \/ vx z <= - M \/ vy z <= - M -> wn p z = 0%Z.
Proof.
  intros ok vl B.
  assert (Bx : forall q, on_path p q -> vx q < M /\ - M < vx q /\ vy q < M /\ - M < vy q).
  { intros q Q. destruct (B q Q) as (X & Y). apply Rabs_def2 in X. apply Rabs_def2 in Y. lra. }
  assert (R1 : forall z, M <= vx z -> wn p z = 0%Z).
  { intros w Hw. apply wn_right; auto. intros q Q. specialize (Bx q Q). lra. }
  assert (R2 : forall z, M <= vy z \/ vy z <= - M -> wn p z = 0%Z).
  { intros w Hw. rewrite (wn_straight p w (V2 M (vy w))); [apply R1; cbn; lra|exact ok|]. intros t Ht Q. specialize (Bx _ Q). unfold line_pt in Bx. cbn [vx vy] in Bx.
    replace (vy w + t * (vy w - vy w)) with (vy w) in Bx by ring. lra. }
  intros [H|[H|[H|H]]]; auto.
  rewrite (wn_straight p z (V2 (vx z) M)); [apply R2; cbn; lra|exact ok|]. intros t Ht Q. specialize (Bx _ Q). unfold line_pt in Bx. cbn [vx vy] in Bx.
  replace (vx z + t * (vx z - vx z)) with (vx z) in Bx by ring. lra.
Qed.

Lemma cross_line a b x y t : cross (vec a b) (vec a (line_pt x y t)) = (1 - t) * cross (vec a b) (vec a x) + t * cross (vec a b) (vec a y).
Proof. unfold cross, vec, line_pt. cbn [vx vy]. ring. Qed.

Lemma cross_at a b : cross (vec a b) (vec a a) = 0 /\ cross (vec a b) (vec a b) = 0.
Proof. unfold cross, vec. cbn [vx vy]. split; ring. Qed.

Section Convex.
Variables (s : R) (ps : list (vec2 R)).
Hypothesis Hs : s = 1 \/ s = -1.
Hypothesis Cv : convex s ps.
Hypothesis Vl : valid_loop (polygon ps).
Hypothesis Po : passes_once (polygon ps).

Lemma path_within a b q : In (a, b) (spec_segs ps true) -> on_path (polygon ps) q -> 0 <= s * cross (vec a b) (vec a q).
Proof.
  intros I Q. apply polygon_path in Q as (c & e & t & J & Ht & ->). destruct (spec_segs_In_both _ _ _ _ J) as (Jc & Je).
  pose proof (Cv a b c I Jc) as C1. pose proof (Cv a b e I Je) as C2. rewrite cross_line.
  replace (s * _) with ((1 - t) * (s * cross (vec a b) (vec a c)) + t * (s * cross (vec a b) (vec a e))) by ring.
  apply Rplus_le_le_0_compat; apply Rmult_le_pos; lra.
Qed.

Lemma sides_apart a b : In (a, b) (spec_segs ps true) -> a <> b.
Proof.
  intros I E. pose proof (polygon_side ps a b I) as J. apply In_nth_error in J as (i & Ei).
  pose proof (differ (polygon ps) (polygon_ok ps) Po i _ Ei) as D. apply D. cbn [fst snd]. now rewrite E.
Qed.

(** A point not strictly on the inner side of some side is not gone around. *)
Lemma beyond_side a b x : In (a, b) (spec_segs ps true) -> ~ on_path (polygon ps) x -> s * cross (vec a b) (vec a x) <= 0 -> wn (polygon ps) x = 0%Z.
Proof.
  intros I O C. destruct (polygon_bounded ps) as (M & B).
  (* away from the side *)
  set (mx := s * (vy b - vy a)). set (my := - s * (vx b - vx a)).
  assert (MM : mx <> 0 \/ my <> 0).
  { destruct (Req_dec mx 0) as [Z1|Z1]; [|now left]. destruct (Req_dec my 0) as [Z2|Z2]; [|now right]. exfalso. apply (sides_apart a b I). unfold mx, my in *.
    apply vec2_eq; destruct Hs as [E|E]; rewrite E in *; lra. }
  assert (Go : forall wx wy, 0 <= mx * wx + my * wy -> 0 < mx * wx + my * wy -> forall t, 0 <= t -> ~ on_path (polygon ps) (V2 (vx x + t * wx) (vy x + t * wy))).
  { intros wx wy _ W t Ht Q. destruct (Req_dec t 0) as [->|N].
    - apply O. replace x with (V2 (vx x + 0 * wx) (vy x + 0 * wy)); [exact Q|]. apply vec2_eq; cbn [vx vy]; ring.
    - pose proof (path_within a b _ I Q) as P. unfold cross, vec in P, C. cbn [vx vy] in P, C. assert (0 < t * (mx * wx + my * wy)) by (apply Rmult_lt_0_compat; lra).
      unfold mx, my in *. nra. }
  assert (Far : forall wx wy k, 0 < mx * wx + my * wy -> 0 <= k ->
    (M <= vx x + k * wx \/ M <= vy x + k * wy \/ vx x + k * wx <= - M \/ vy x + k * wy <= - M) -> wn (polygon ps) x = 0%Z).
  { intros wx wy k W Hk F. rewrite (wn_straight (polygon ps) x (V2 (vx x + k * wx) (vy x + k * wy))); [apply (far_outside _ M); auto using polygon_ok|apply polygon_ok|].
    intros t Ht. replace (line_pt x (V2 (vx x + k * wx) (vy x + k * wy)) t) with (V2 (vx x + t * k * wx) (vy x + t * k * wy)) by (unfold line_pt; cbn [vx vy]; f_equal; ring).
    apply Go; [lra|exact W|apply Rmult_le_pos; lra]. }
  pose proof (Rabs_pos M) as PM. pose proof (Rabs_pos (vx x)) as PX. pose proof (Rabs_pos (vy x)) as PY.
  pose proof (Rle_abs M) as AM. pose proof (Rle_abs (vx x)) as AX. pose proof (Rle_abs (vy x)) as AY.
  pose proof (Rle_abs (- vx x)) as BX. pose proof (Rle_abs (- vy x)) as BY. rewrite Rabs_Ropp in BX, BY.
  destruct (Rtotal_order mx 0) as [L|[Z|G]].
  - apply (Far (-1) 0 (Rabs M + Rabs (vx x))); lra.
  - destruct (Rtotal_order my 0) as [L|[Z'|G]].
    + apply (Far 0 (-1) (Rabs M + Rabs (vy x))); lra.
    + lra.
    + apply (Far 0 1 (Rabs M + Rabs (vy x))); lra.
  - apply (Far 1 0 (Rabs M + Rabs (vx x))); lra.
Qed.

Lemma some_corner : exists q, on_path (polygon ps) q.
Proof.
  destruct ps as [|a [|b l]] eqn:E; [destruct Vl as (V & _); cbn in V; lia|destruct Vl as (V & _); cbn in V; lia|].
  exists a. apply polygon_path. exists a, b, 0. split; [cbn; auto|]. split; [lra|]. unfold line_pt. apply vec2_eq; cbn [vx vy]; ring.
Qed.

(** The inside of a convex polygon. *)
Theorem convex_inside x : ~ on_path (polygon ps) x ->
  (inside (polygon ps) x = true <-> forall a b, In (a, b) (spec_segs ps true) -> 0 < s * cross (vec a b) (vec a x)).
Proof.
  intros O. rewrite inside_iff. split.
  - intros W a b I. apply Rnot_le_lt. intros L. apply W. now apply (beyond_side a b).
  - intros H. destruct some_corner as (q & Q). destruct (loop_sides (polygon ps) (polygon_ok ps) Vl Po) as (o & Ho & _ & Sd).
    destruct (Sd q 1 Q ltac:(lra)) as (_ & (y & Oy & _ & Wy)).
    assert (Y : forall a b, In (a, b) (spec_segs ps true) -> 0 < s * cross (vec a b) (vec a y)).
    { intros a b I. apply Rnot_le_lt. intros L. rewrite (beyond_side a b y I Oy L) in Wy. destruct Ho; lia. }
    rewrite (wn_straight (polygon ps) x y (polygon_ok ps)); [rewrite Wy; destruct Ho; lia|].
    intros t Ht Q'. apply polygon_path in Q' as (a & b & u & I & Hu & E).
    assert (Z : cross (vec a b) (vec a (line_pt x y t)) = 0) by (rewrite E, cross_line; destruct (cross_at a b) as (-> & ->); ring).
    rewrite cross_line in Z. specialize (H a b I). specialize (Y a b I).
    assert (0 <= (1 - t) * (s * cross (vec a b) (vec a x))) by (apply Rmult_le_pos; lra).
    assert (0 <= t * (s * cross (vec a b) (vec a y))) by (apply Rmult_le_pos; lra).
    assert (K : (1 - t) * (s * cross (vec a b) (vec a x)) + t * (s * cross (vec a b) (vec a y)) = 0).
    { replace (_ + _) with (s * ((1 - t) * cross (vec a b) (vec a x) + t * cross (vec a b) (vec a y))) by ring. rewrite Z. ring. }
    destruct (Req_dec t 0) as [->|N]; [lra|]. assert (0 < t * (s * cross (vec a b) (vec a y))) by (apply Rmult_lt_0_compat; lra). lra.
Qed.

Lemma cross_dist a b x q : Rabs (cross (vec a b) (vec q x)) <= dist a b * dist x q.
Proof.
  unfold dist. rewrite <- sqrt_mult_alt by (apply Rplus_le_le_0_compat; apply Rle_0_sqr). rewrite <- sqrt_Rsqr_abs. apply sqrt_le_1_alt.
  unfold cross, vec, Rsqr. cbn [vx vy].
  pose proof (Rle_0_sqr ((vx b - vx a) * (vx x - vx q) + (vy b - vy a) * (vy x - vy q))) as P. unfold Rsqr in P. lra.
Qed.

Lemma dist_pos a b : a <> b -> 0 < dist a b.
Proof.
  intros N. unfold dist. apply sqrt_lt_R0. destruct (Req_dec (vx a) (vx b)) as [E1|E1]; [destruct (Req_dec (vy a) (vy b)) as [E2|E2]|].
  - exfalso. apply N. now apply vec2_eq.
  - pose proof (Rle_0_sqr (vx a - vx b)). assert (0 < (vy a - vy b) * (vy a - vy b)) by (apply Rsqr_pos_lt; lra). unfold Rsqr in *. lra.
  - pose proof (Rle_0_sqr (vy a - vy b)). assert (0 < (vx a - vx b) * (vx a - vx b)) by (apply Rsqr_pos_lt; lra). unfold Rsqr in *. lra.
Qed.

(** How far a point inside is from the polygon. *)
Theorem convex_depth x e : ~ on_path (polygon ps) x -> 0 <= e -> inside (polygon ps) x = true ->
  ((forall q, on_path (polygon ps) q -> e < dist x q) <-> forall a b, In (a, b) (spec_segs ps true) -> e * dist a b < s * cross (vec a b) (vec a x)).
Proof.
  intros O He In_. pose proof (proj1 (convex_inside x O) In_) as P. split.
  - intros H a b I. specialize (P a b I). pose proof (dist_pos a b (sides_apart a b I)) as L.
    set (c := cross (vec a b) (vec a x)) in *. set (l := dist a b) in *.
    assert (LL : l * l = (vx b - vx a) * (vx b - vx a) + (vy b - vy a) * (vy b - vy a)).
    { unfold l, dist. rewrite sqrt_sqrt by (apply Rplus_le_le_0_compat; apply Rle_0_sqr). ring. }
    (* the foot of [x] on the line *)
    set (f := V2 (vx x + c / (l * l) * (vy b - vy a)) (vy x - c / (l * l) * (vx b - vx a))).
    assert (Cf : cross (vec a b) (vec a f) = 0).
    { unfold f, cross, vec. cbn [vx vy]. replace (_ - _) with (c - c / (l * l) * (l * l)); [field; lra|]. rewrite LL at 2. unfold c, cross, vec. cbn [vx vy]. ring. }
    assert (Df : dist x f = s * c / l).
    { unfold dist, f. cbn [vx vy]. replace (_ + _) with (Rsqr (c / (l * l)) * (l * l)) by (rewrite LL at 2; unfold Rsqr; ring).
      replace (Rsqr (c / (l * l)) * (l * l)) with (Rsqr (s * c / l)).
      - rewrite sqrt_Rsqr; [reflexivity|]. apply Rlt_le. apply Rdiv_lt_0_compat; lra.
      - unfold Rsqr. assert (S2 : s * s = 1) by (destruct Hs as [E|E]; rewrite E; ring). replace (s * c / l * (s * c / l)) with (s * s * (c * c) / (l * l)) by (field; lra). rewrite S2. field. lra. }
    assert (Q : exists t, 0 <= t <= 1 /\ on_path (polygon ps) (line_pt x f t)).
    { apply NNPP. intros N. apply inside_iff in In_. apply In_.
      assert (N' : forall t, 0 <= t <= 1 -> ~ on_path (polygon ps) (line_pt x f t)) by (intros t Ht Q; apply N; eauto).
      rewrite (wn_straight _ x f (polygon_ok ps) N'). apply (beyond_side a b f I).
      - intros Q. apply (N' 1); [lra|]. replace (line_pt x f 1) with f; [exact Q|]. unfold line_pt. apply vec2_eq; cbn [vx vy]; ring.
      - rewrite Cf. lra. }
    destruct Q as (t & Ht & Q). specialize (H _ Q).
    assert (Dl : dist x (line_pt x f t) = t * dist x f).
    { unfold dist, line_pt. cbn [vx vy]. replace (_ + _) with (Rsqr t * ((vx x - vx f) * (vx x - vx f) + (vy x - vy f) * (vy x - vy f))) by (unfold Rsqr; ring).
      rewrite sqrt_mult_alt by apply Rle_0_sqr. rewrite sqrt_Rsqr by lra. reflexivity. }
    rewrite Dl, Df in H. assert (0 < s * c / l) by (apply Rdiv_lt_0_compat; lra).
    assert (t * (s * c / l) <= 1 * (s * c / l)) by (apply Rmult_le_compat_r; lra).
    apply Rmult_lt_reg_r with (/ l); [now apply Rinv_0_lt_compat|]. replace (e * l * / l) with e by (field; lra). unfold Rdiv in *. lra.
  - intros H q Q. apply polygon_path in Q as (a & b & t & I & Ht & Eq). specialize (H a b I). pose proof (dist_pos a b (sides_apart a b I)) as L.
    pose proof (cross_dist a b x q) as CD.
    assert (E : cross (vec a b) (vec q x) = cross (vec a b) (vec a x)) by (rewrite Eq; unfold cross, vec, line_pt; cbn [vx vy]; ring).
    rewrite E in CD. assert (s * cross (vec a b) (vec a x) <= Rabs (cross (vec a b) (vec a x))).
    { destruct Hs as [-> | ->]; [rewrite Rmult_1_l; apply Rle_abs|]. rewrite <- Rabs_Ropp. replace (-1 * _) with (- cross (vec a b) (vec a x)) by ring. apply Rle_abs. }
    apply Rmult_lt_reg_l with (dist a b); [exact L|]. lra.
Qed.
End Convex.
