(** The areas and lengths of the offsets of convex polygons, and an example (C74). *)
From Coq Require Import Reals ZArith Bool List Arith Lra Lia Psatz Classical.
From Verif Require Import Num RNum Res ModelMath ModelIntr ModelSeg ModelPline ModelIndex ModelOffset.
From Verif Require Import Spec SpecPline SpecGeom SpecIntr SpecOffset SpecOffsetJoin SpecIndex SpecBoolean SpecPolyOff SpecJordan SpecConvex SpecRound.
From Verif Require Import ProofR ProofBase ProofIntr ProofArc ProofIter ProofMeasure ProofIndex2 ProofPolyOff ProofPolyOff2 ProofPolyOff3 ProofCircleOff ProofConvex ProofConvexOff ProofConvexEx ProofRound4 ProofRoundEx ProofSteiner ProofSteiner2.
Import ListNotations.
Local Open Scope R_scope.

Theorem outward_measures mk s ps e m o idx A L : makes_index mk -> s = 1 \/ s = -1 -> roomy s e m ps -> coarse (oo_pos_equal_eps o) e m ->
  (forall a b, In (a, b) (spec_segs ps true) -> clear_direction a b) ->
  0 < oo_slice_join_eps o -> 0 < oo_offset_dist_eps o < 2 * e -> oo_handle_self_intersects o = false -> pline_index (polygon ps) idx ->
  no_tiny (polygon ps) -> area (polygon ps) = Ret A -> path_length (polygon ps) = Ret L ->
  exists r, parallel_offset mk (polygon ps) idx (- s * e) o = Ret [r]
  /\ area r = Ret (A + s * (e * L + PI * (e * e))) /\ path_length r = Ret (L + 2 * PI * e).
Proof.
  intros MK Hs Ro Co CD Hj Ho HSI IDX NT EA EL. pose proof Co as (_ & He & Hm & _).
  destruct (round_exists s e (oo_pos_equal_eps o) m ps Hs Ro Co) as (vws & RC). exists (round_path vws).
  split; [exact (proj1 (round_offset mk s ps e m o idx vws MK Hs Ro Co CD Hj Ho HSI IDX RC))|]. split.
  - apply (steiner_area s e (oo_pos_equal_eps o) m ps vws Hs He Hm Ro Co CD RC); [exact EA|]. rewrite polygon_length in EL by exact NT. congruence.
  - now apply (steiner_length s e (oo_pos_equal_eps o) m ps vws Hs He Hm Ro Co CD RC).
Qed.

(** ** To the inner side *)
Section Inner.
Variables (s e eps : R) (ps qs : list (vec2 R)).
Hypothesis Hs : s = 1 \/ s = -1.
Hypothesis Heps : 0 < eps.
Hypothesis Cv : convex s ps.
Hypothesis Ic : inner_corners (polygon ps) (s * e) eps qs.
Hypothesis Lq : lone_polygon eps qs.
Hypothesis Wi : forall q, In q qs -> within_by s e ps q.
Let n := length qs.
Let P (i : nat) : vec2 R := nth (i mod n) ps (V2 0 0).
Let Q (i : nat) : vec2 R := nth (i mod n) qs (V2 0 0).

Lemma in_n3 : (3 <= n)%nat. Proof. apply Lq. Qed.
Lemma in_len : length (spec_segs ps true) = n /\ length (spec_segs qs true) = n.
Proof. split; [exact (off_segs_len s e eps ps qs Ic)|exact (off_qs_segs_len eps qs Lq)]. Qed.
Lemma in_ps : length ps = n.
Proof. pose proof in_n3. destruct in_len as (E & _). rewrite spec_segs_length in E. destruct (Nat.ltb_spec (length ps) 2); lia. Qed.
Lemma seg_at_nth (l : list (vec2 R)) i : length l = n -> (i < n)%nat -> nth_error (spec_segs l true) i = Some (nth (i mod n) l (V2 0 0), nth ((i + 1) mod n) l (V2 0 0)).
Proof.
  intros E L. pose proof in_n3 as N3. assert (LS : length (spec_segs l true) = n) by (rewrite spec_segs_length, E; destruct (Nat.ltb_spec n 2); lia).
  destruct (nth_error (spec_segs l true) i) as [(a, b)|] eqn:G; [|apply nth_error_None in G; lia].
  destruct (segs_nth l i a b G) as (A & B). rewrite E in B. rewrite Nat.mod_small by exact L. now rewrite (nth_error_nth _ _ _ A), (nth_error_nth _ _ _ B).
Qed.
Lemma seg_sum (l : list (vec2 R)) (f : vec2 R * vec2 R -> R) : length l = n ->
  rsum (map f (spec_segs l true)) = sumn n (fun i => f (nth (i mod n) l (V2 0 0), nth ((i + 1) mod n) l (V2 0 0))).
Proof.
  intros E. pose proof in_n3 as N3. assert (LS : length (spec_segs l true) = n) by (rewrite spec_segs_length, E; destruct (Nat.ltb_spec n 2); lia).
  rewrite (sumn_list f (fun i => f (nth (i mod n) l (V2 0 0), nth ((i + 1) mod n) l (V2 0 0)))); [now rewrite LS|].
  intros i x G. assert (i < n)%nat by (rewrite <- LS; apply nth_error_Some; congruence). rewrite seg_at_nth in G by assumption. now injection G as <-.
Qed.

Lemma trapezoid i : (i < n)%nat ->
  cross (Q i) (Q (i + 1)%nat) = cross (P i) (P (i + 1)%nat) + (cross (P (i + 1)%nat) (Q (i + 1)%nat) + - 1 * cross (P i) (Q i)) + - (s * e) * (dist (P i) (P (i + 1)%nat) + dist (Q i) (Q (i + 1)%nat)).
Proof.
  intros L. pose proof (seg_at_nth ps i in_ps L) as E1. pose proof (seg_at_nth qs i eq_refl L) as E2.
  destruct (off_side s e eps ps qs Hs Heps Cv Ic Lq Wi i _ _ _ _ E1 E2) as (D & k & Hk & X & Y).
  fold (P i) (P (i + 1)%nat) (Q i) (Q (i + 1)%nat) in D, X, Y. set (p := P i) in *. set (p' := P (i + 1)%nat) in *. set (q := Q i) in *. set (q' := Q (i + 1)%nat) in *.
  assert (DQ : dist q q' = k * dist p p').
  { apply dist_eq_sqr; [apply Rmult_le_pos; [lra|unfold dist; apply sqrt_pos]|]. replace (k * dist p p' * (k * dist p p')) with (k * k * (dist p p' * dist p p')) by ring. rewrite dist_sqr.
    replace (vx q - vx q') with (- (k * (vx p' - vx p))) by lra. replace (vy q - vy q') with (- (k * (vy p' - vy p))) by lra. ring. }
  assert (H : s * (s * cross (vec p p') (vec p q)) * (1 + k) = s * e * (dist p p' + dist q q')) by (rewrite D, DQ; ring).
  assert (SS : s * s = 1) by (destruct Hs as [-> | ->]; ring).
  replace (s * (s * cross (vec p p') (vec p q)) * (1 + k)) with (s * s * (cross (vec p p') (vec p q) * (1 + k))) in H by ring. rewrite SS in H.
  assert (G : cross q q' - cross p p' - (cross p' q' - cross p q) + cross (vec p p') (vec p q) * (1 + k) = 0).
  { unfold cross, vec. cbn [vx vy]. replace (vx q') with (vx q + k * (vx p' - vx p)) by lra. replace (vy q') with (vy q + k * (vy p' - vy p)) by lra. ring. }
  lra.
Qed.

Theorem inner_area A L L' : no_tiny (polygon ps) -> no_tiny (polygon qs) -> area (polygon ps) = Ret A -> path_length (polygon ps) = Ret L -> path_length (polygon qs) = Ret L' ->
  area (polygon qs) = Ret (A - s * (e * (L + L') / 2)).
Proof.
  intros T1 T2 EA EL EL'. rewrite polygon_area in EA |- *. rewrite polygon_length in EL, EL' by assumption. injection EA as EA. injection EL as EL. injection EL' as EL'.
  rewrite seg_sum in EA, EL by exact in_ps. rewrite seg_sum in EL' |- * by reflexivity. cbn [fst snd] in *. f_equal.
  change (sumn n (fun i => dist (P i) (P (i + 1)%nat)) = L) in EL. change (sumn n (fun i => dist (Q i) (Q (i + 1)%nat)) = L') in EL'.
  change (sumn n (fun i => cross (P i) (P (i + 1)%nat)) / 2 = A) in EA.
  change (sumn n (fun i => cross (Q i) (Q (i + 1)%nat)) / 2 = A - s * (e * (L + L') / 2)).
  rewrite (sumn_ext n _ _ trapezoid), !sumn_plus, !sumn_scale, !sumn_plus.
  rewrite (sumn_next n (fun i => cross (P i) (Q i))).
  - rewrite EL, EL'. lra.
  - pose proof in_n3 as N3. unfold P, Q. now rewrite Nat.mod_same, Nat.mod_0_l by lia.
Qed.
End Inner.

Theorem inward_measures mk s ps qs e o idx A L L' : makes_index mk -> s = 1 \/ s = -1 -> 0 < e ->
  0 < oo_pos_equal_eps o -> 0 < oo_slice_join_eps o -> 0 < oo_offset_dist_eps o < 2 * e -> oo_handle_self_intersects o = false ->
  convex s ps -> passes_once (polygon ps) -> pline_index (polygon ps) idx ->
  inner_corners (polygon ps) (s * e) (oo_pos_equal_eps o) qs -> lone_polygon (oo_pos_equal_eps o) qs -> (forall q, In q qs -> within_by s e ps q) ->
  no_tiny (polygon ps) -> no_tiny (polygon qs) -> area (polygon ps) = Ret A -> path_length (polygon ps) = Ret L -> path_length (polygon qs) = Ret L' ->
  exists r, parallel_offset mk (polygon ps) idx (s * e) o = Ret [r] /\ path_length r = Ret L' /\ area r = Ret (A - s * (e * (L + L') / 2)).
Proof.
  intros MK Hs He Hq Hj Ho HSI Cv Po IDX Ic Lq Wi T1 T2 EA EL EL'. exists (polygon qs).
  split; [exact (proj1 (convex_offset mk s ps qs e o idx MK Hs He Hq Hj Ho HSI Cv Po IDX Ic Lq Wi))|]. split; [exact EL'|].
  now apply (inner_area s e (oo_pos_equal_eps o) ps qs Hs Hq Cv Ic Lq Wi).
Qed.

(** ** Example *)
Lemma tri_clear a b : In (a, b) (spec_segs tri true) -> clear_direction a b.
Proof. intros I. cbn in I. destruct I as [I|[I|[I|[]]]]; injection I as <- <-; unfold clear_direction; cbn [vx vy]; [right; rewrite Rabs_pos_eq|right; rewrite Rabs_left|left]; lra. Qed.
Lemma tri_big : no_tiny (polygon tri).
Proof.
  intros v w I (T1 & T2 & _). cbn in I. destruct I as [I|[I|[I|[]]]]; injection I as <- <-; unfold vertex_at in *; cbn [px py vx vy] in *;
    [rewrite Rabs_left in T1|rewrite Rabs_pos_eq in T1|rewrite Rabs_pos_eq in T2]; lra.
Qed.
Lemma tri_in_big : no_tiny (polygon tri_in).
Proof.
  intros v w I (T1 & T2 & _). cbn in I. destruct I as [I|[I|[I|[]]]]; injection I as <- <-; unfold vertex_at in *; cbn [px py vx vy] in *;
    [rewrite Rabs_left in T1|rewrite Rabs_pos_eq in T1|rewrite Rabs_pos_eq in T2]; lra.
Qed.
Lemma dist_is a b d : 0 <= d -> (vx a - vx b) * (vx a - vx b) + (vy a - vy b) * (vy a - vy b) = d * d -> dist a b = d.
Proof. intros H E. apply dist_eq_sqr; [exact H|]. rewrite <- E. ring. Qed.
Lemma tri_measures : area (polygon tri) = Ret 24 /\ path_length (polygon tri) = Ret 24.
Proof.
  rewrite polygon_area, polygon_length by apply tri_big. unfold tri. cbn [spec_segs tl app combine map fst snd]. rewrite !rsum_cons, rsum_nil. split; f_equal.
  - unfold cross. cbn [vx vy]. lra.
  - rewrite (dist_is _ _ 8), (dist_is _ _ 10), (dist_is _ _ 6); cbn [vx vy]; lra.
Qed.
Lemma tri_in_length : path_length (polygon tri_in) = Ret 12.
Proof.
  rewrite polygon_length by apply tri_in_big. unfold tri_in. cbn [spec_segs tl app combine map fst snd]. rewrite !rsum_cons, rsum_nil. f_equal.
  rewrite (dist_is _ _ 4), (dist_is _ _ 5), (dist_is _ _ 3); cbn [vx vy]; lra.
Qed.

Lemma tri_steiner : (exists r, parallel_offset_constructed (@list_index R _) (polygon tri) (-1) rect_ex_opts = Ret [r] /\ area r = Ret (48 + PI) /\ path_length r = Ret (24 + 2 * PI))
  /\ exists r, parallel_offset_constructed (@list_index R _) (polygon tri) 1 rect_ex_opts = Ret [r] /\ area r = Ret 6 /\ path_length r = Ret 12.
Proof.
  destruct tri_measures as (EA & EL). split.
  - assert (Co : coarse (oo_pos_equal_eps rect_ex_opts) 1 1) by (cbn; repeat split; lra).
    destruct (round_exists 1 1 (oo_pos_equal_eps rect_ex_opts) 1 tri (or_introl eq_refl) tri_roomy Co) as (vws & RC). exists (round_path vws).
    assert (Neg : - (1) * 1 = -1) by ring. split; [|split].
    + apply (offsets_to_intro (@list_index R _) _ (-1) rect_ex_opts _ list_index_ok); [cbn; lia|]. intros idx PI. rewrite <- Neg.
      exact (proj1 (round_offset (@list_index R _) 1 tri 1 1 rect_ex_opts idx vws list_index_ok (or_introl eq_refl) tri_roomy Co tri_clear ltac:(cbn; lra) ltac:(cbn; lra) eq_refl PI RC)).
    + assert (EL2 := EL). rewrite polygon_length in EL2 by exact tri_big. injection EL2 as EL2.
      rewrite (steiner_area 1 1 (oo_pos_equal_eps rect_ex_opts) 1 tri vws (or_introl eq_refl) ltac:(lra) ltac:(lra) tri_roomy Co tri_clear RC 24 24 EA (eq_sym EL2)). f_equal. lra.
    + rewrite (steiner_length 1 1 (oo_pos_equal_eps rect_ex_opts) 1 tri vws (or_introl eq_refl) ltac:(lra) ltac:(lra) tri_roomy Co tri_clear RC 24 tri_big EL). f_equal. lra.
  - exists (polygon tri_in). split; [apply tri_offset|]. split; [|exact tri_in_length].
    assert (L1 : lone_polygon (oo_pos_equal_eps rect_ex_opts) tri_in) by (apply tri_lone; [cbn; lra|auto]).
    assert (I1 : inner_corners (polygon tri) (1 * 1) (oo_pos_equal_eps rect_ex_opts) tri_in) by (apply tri_inner; cbn; lra).
    rewrite (inner_area 1 1 (oo_pos_equal_eps rect_ex_opts) tri tri_in (or_introl eq_refl) ltac:(cbn; lra) tri_convex I1 L1 tri_within 24 24 12 tri_big tri_in_big EA EL tri_in_length). f_equal. lra.
Qed.
