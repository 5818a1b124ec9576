(** The offset of a polygon whose offset lines meet their neighbours (C60). *)
From Coq Require Import Reals ZArith Bool List Arith Lra Lia.
From Verif Require Import Num RNum Res ModelMath ModelIntr ModelSeg ModelPline ModelView ModelSegIntr ModelIndex ModelIntersects ModelBoolean ModelOffset.
From Verif Require Import Spec SpecPline SpecGeom SpecIntr SpecBox SpecClosest SpecOffset SpecOffsetJoin SpecIndex SpecIntersects SpecCuts SpecOffNear SpecPolyOff.
From Verif Require Import ProofR ProofBase ProofIter ProofIntr ProofArc ProofBox2 ProofIndex2 ProofSlice ProofSegIntr2 ProofClosest2 ProofOffsetJoin2 ProofWinding4 ProofWhole ProofCircleOff ProofPolyOff.
Import ListNotations.
Local Open Scope R_scope.

Lemma cross_dist a b c e : Rabs (cross (vec a b) (vec c e)) <= dist a b * dist c e.
Proof.
  assert (P1 : 0 <= dist a b) by apply sqrt_pos. assert (P2 : 0 <= dist c e) by apply sqrt_pos.
  rewrite <- (Rabs_pos_eq (dist a b * dist c e)) by now apply Rmult_le_pos. apply Rsqr_le_abs_0. unfold Rsqr.
  replace (dist a b * dist c e * (dist a b * dist c e)) with ((dist a b * dist a b) * (dist c e * dist c e)) by ring. rewrite !dist_sqr. unfold cross, vec. cbn [vx vy].
  set (x := vx b - vx a) in *. set (y := vy b - vy a). set (z := vx e - vx c). set (w := vy e - vy c).
  replace (vx a - vx b) with (- x) by (unfold x; ring). replace (vy a - vy b) with (- y) by (unfold y; ring). replace (vx c - vx e) with (- z) by (unfold z; ring). replace (vy c - vy e) with (- w) by (unfold w; ring).
  pose proof (Rle_0_sqr (x * z + y * w)) as Q. unfold Rsqr in Q. lra.
Qed.

Lemma cross_at a b c e t : cross (vec a b) (vec a (line_pt c e t)) = cross (vec a b) (vec a c) + t * cross (vec a b) (vec c e).
Proof. unfold cross, vec, line_pt. cbn [vx vy]. ring. Qed.

Lemma cross_on a b t : cross (vec a b) (vec a (line_pt a b t)) = 0.
Proof. unfold cross, vec, line_pt. cbn [vx vy]. ring. Qed.

Lemma beside_out eps a b c e s t : 0 < eps -> beside eps a b c e -> line_pt a b s = line_pt c e t -> ~ in_range t (dist c e) eps.
Proof.
  intros He (g & G & B) E (R1 & R2). destruct (B c (or_introl eq_refl)) as (_ & Bc). destruct (B e (or_intror eq_refl)) as (Be0 & Be).
  pose proof (cross_on a b s) as Z. rewrite E, cross_at in Z. pose proof (cross_dist a b c e) as X. apply Rabs_le_inv' in X.
  assert (EE : cross (vec a b) (vec a e) = cross (vec a b) (vec a c) + cross (vec a b) (vec c e)) by (unfold cross, vec; cbn [vx vy]; ring).
  assert (D : 0 < dist a b). { destruct (Req_dec (dist a b) 0) as [D|D]; [|assert (0 <= dist a b) by apply sqrt_pos; lra]. exfalso. pose proof (cross_dist a b a e) as Y. rewrite D, Rmult_0_l in Y. apply Rabs_le_inv' in Y. destruct G; subst g; lra. }
  set (m := cross (vec a b) (vec c e)) in *. set (k := cross (vec a b) (vec a c)) in *. rewrite EE in Be, Be0. clear EE. set (A := dist a b) in *. set (L := dist c e) in *.
  assert (Pos : forall x y, 0 <= x -> y <= x * A -> 0 <= x * A - y) by (intros; lra).
  assert (LL : 0 <= L) by apply sqrt_pos.
  assert (T : t * (g * m) = - (g * k)) by (transitivity (g * (t * m)); [ring|]; replace (t * m) with (- k) by lra; ring).
  set (gm := g * m) in *. set (gk := g * k) in *. replace (g * (k + m)) with (gk + gm) in Be by (unfold gk, gm; ring).
  assert (GM : - (A * L) <= gm <= A * L) by (unfold gm; destruct G; subst g; lra).
  assert (EA : 0 < eps * A) by now apply Rmult_lt_0_compat.
  destruct (Rle_dec t 0) as [T0|T0].
  - (* gk = -t gm <= (-t) A L < eps A *) assert (- t * gm <= - t * (A * L)) by (apply Rmult_le_compat_l; lra). assert (- (t * L) * A < eps * A) by (apply Rmult_lt_compat_r; lra). lra.
  - destruct (Rle_dec t 1) as [T1|T1].
    + assert (0 <= (1 - t) * gk) by (apply Rmult_le_pos; lra). assert (0 < t * (gk + gm)) by (apply Rmult_lt_0_compat; lra). lra.
    + assert ((t - 1) * - gm <= (t - 1) * (A * L)) by (apply Rmult_le_compat_l; lra). assert ((t * L - L) * A < eps * A) by (apply Rmult_lt_compat_r; lra). lra.
Qed.

Lemma beside_none eps a b c e : 0 < eps -> beside eps a b c e \/ beside eps c e a b ->
  line_line_intr a b c e eps = LLNoIntersect \/ exists s t, line_line_intr a b c e eps = LLFalseIntersect s t.
Proof.
  intros He B. destruct (Rlt_dec (Rabs (cross (vec a b) (vec c e))) eps) as [P|P].
  - left. unfold line_line_intr. cbv zeta. unfold v2perp_dot, v2sub, fuzzy_eq_zero_eps, cross, vec in *. rnum. cbn [vx vy] in *. rewrite (proj2 (rltb_true _ _) P). cbn [negb].
    destruct B as [(g & G & B)|(g & G & B)].
    + destruct (B c (or_introl eq_refl)) as (B1 & _). unfold cross, vec in B1. cbn [vx vy] in B1.
      rewrite (proj2 (rltb_false (Rabs ((vx b - vx a) * (vy a - vy c) - (vy b - vy a) * (vx a - vx c))) eps)); [reflexivity|].
      replace ((vx b - vx a) * (vy a - vy c) - (vy b - vy a) * (vx a - vx c)) with (- ((vx b - vx a) * (vy c - vy a) - (vy b - vy a) * (vx c - vx a))) by ring. rewrite Rabs_Ropp.
      destruct G; subst g; [pose proof (Rle_abs ((vx b - vx a) * (vy c - vy a) - (vy b - vy a) * (vx c - vx a))); lra|]. rewrite <- Rabs_Ropp. pose proof (Rle_abs (- ((vx b - vx a) * (vy c - vy a) - (vy b - vy a) * (vx c - vx a)))). lra.
    + destruct (B a (or_introl eq_refl)) as (B1 & _). unfold cross, vec in B1. cbn [vx vy] in B1.
      rewrite (proj2 (rltb_false (Rabs ((vx e - vx c) * (vy a - vy c) - (vy e - vy c) * (vx a - vx c))) eps)); [rewrite orb_true_r; reflexivity|].
      destruct G; subst g; [pose proof (Rle_abs ((vx e - vx c) * (vy a - vy c) - (vy e - vy c) * (vx a - vx c))); lra|]. rewrite <- Rabs_Ropp. pose proof (Rle_abs (- ((vx e - vx c) * (vy a - vy c) - (vy e - vy c) * (vx a - vx c)))). lra.
  - right. destruct (line_line_nonparallel a b c e eps He ltac:(lra)) as (s & t & E & _ & [((R1 & R2) & EL)|(_ & EL)]); [|eauto].
    exfalso. destruct B as [B|B]; [exact (beside_out eps a b c e s t He B E R2)|exact (beside_out eps c e a b t s He B (eq_sym E) R1)].
Qed.

Lemma lines_apart (a b c e : vertex R) eps : 0 < eps -> pbulge a = 0 -> pbulge c = 0 -> beside eps (pos a) (pos b) (pos c) (pos e) \/ beside eps (pos c) (pos e) (pos a) (pos b) ->
  pline_seg_intr a b c e eps = SINoIntersect.
Proof.
  intros He Ba Bc B. unfold pline_seg_intr. rewrite (is_zero_line a Ba), (is_zero_line c Bc). cbn [andb].
  destruct (beside_none eps _ _ _ _ He B) as [E|(s & t & E)]; rewrite E; reflexivity.
Qed.

Lemma spec_segs_map {A B} (f : A -> B) l c : spec_segs (map f l) c = map (fun s => (f (fst s), f (snd s))) (spec_segs l c).
Proof.
  assert (C : forall l m, combine (map f l) (map f m) = map (fun s : A * A => (f (fst s), f (snd s))) (combine l m)) by (induction l0 as [|x l0 IH]; intros [|y m]; cbn; [reflexivity..|]; now rewrite IH).
  destruct l as [|x [|y l]]; [reflexivity|reflexivity|]. unfold spec_segs. cbn [map tl]. change (f x :: f y :: map f l) with (map f (x :: y :: l)). change (f y :: map f l) with (map f (y :: l)). rewrite <- C, map_app. destruct c; reflexivity.
Qed.

Lemma polygon_segs qs i : nth_error (spec_segs (vtx (polygon qs)) true) i = option_map (fun s => (lv (fst s), lv (snd s))) (nth_error (spec_segs qs true) i).
Proof. unfold polygon. cbn [vtx]. fold lv. rewrite spec_segs_map. apply nth_error_map. Qed.

Lemma segs_nth {A} (l : list A) i a b : nth_error (spec_segs l true) i = Some (a, b) -> nth_error l i = Some a /\ nth_error l ((i + 1) mod length l) = Some b.
Proof.
  destruct l as [|x [|y l]]; [destruct i; discriminate..|]. unfold spec_segs. intros E. apply combine_nth_some in E as (E1 & E2). split; [exact E1|]. cbn [tl] in E2.
  assert (Hi : (i < length (x :: y :: l))%nat) by (apply nth_error_Some; congruence). set (n := length (x :: y :: l)) in *.
  destruct (Nat.eq_dec (i + 1) n) as [L|L].
  - rewrite L, Nat.mod_same by (unfold n; cbn; lia). assert (I : i = length (y :: l)) by (unfold n in L; cbn in *; lia). rewrite I, nth_error_app2, Nat.sub_diag in E2 by lia. exact E2.
  - rewrite Nat.mod_small by lia. rewrite nth_error_app1 in E2 by (unfold n in *; cbn in *; lia). rewrite Nat.add_1_r. exact E2.
Qed.

Lemma lone_local eps qs i : 0 < eps -> lone_polygon eps qs -> (i < length qs)%nat -> basics (local_pair (polygon qs) eps i ((i + 1) mod length qs)) = [].
Proof.
  intros He (_ & HA & _) Hi. unfold local_pair. change (is_closed (polygon qs)) with true. rewrite !polygon_segs.
  destruct (nth_error (spec_segs qs true) i) as [(a, b)|] eqn:E1; [|reflexivity]. destruct (nth_error (spec_segs qs true) ((i + 1) mod length qs)) as [(b', c)|] eqn:E2; [|reflexivity]. cbn [option_map fst snd].
  assert (B : b' = b).
  { destruct (segs_nth _ _ _ _ E1) as (_ & N1). destruct (segs_nth _ _ _ _ E2) as (N2 & _). rewrite N1 in N2. congruence. } subst b'.
  destruct (v2fuzzy_eq_eps _ _ _); [reflexivity|]. specialize (HA i a b c E1 E2).
  unfold pline_seg_intr. rewrite !lv_zero, !lv_pos. cbn [andb].
  destruct (line_line_nonparallel a b b c eps He HA) as (s & t & E & U & [(_ & EL)|(_ & EL)]); rewrite EL; [|reflexivity].
  destruct (U 1 0) as (S1 & T0). { rewrite line_pt_1. unfold line_pt. apply vec2_eq; cbn [vx vy]; ring. }
  cbn [events_of]. rewrite from_parametric_R, <- S1, line_pt_1. cbn [filter]. rewrite (v2fuzzy_refl b eps He). reflexivity.
Qed.

Lemma lone_no_cuts eps qs pairs : 0 < eps -> lone_polygon eps qs -> pairs_ok (polygon qs) eps (boxes_of (polygon qs)) pairs -> self_cuts (polygon qs) eps pairs = [].
Proof.
  intros He LP (PO & _). unfold self_cuts.
  assert (VC : vertex_count (polygon qs) = length qs) by (unfold vertex_count, polygon; cbn [vtx]; apply map_length).
  assert (B : basics (local_events (polygon qs) eps ++ flat_map (global_pair (polygon qs) eps) pairs) = []).
  { unfold basics. rewrite flat_map_app.
    assert (FM : forall (f : nat -> list (intr_event R)) l, (forall x, In x l -> basics (f x) = []) -> basics (flat_map f l) = []).
    { intros f l K. induction l as [|x l IH]; [reflexivity|]. cbn. unfold basics in *. rewrite flat_map_app, (K x (or_introl eq_refl)), IH; [reflexivity|]. intros y I. apply K. now right. }
    assert (FM' : forall (f : nat * nat -> list (intr_event R)) l, (forall x, In x l -> f x = []) -> flat_map f l = []).
    { intros f l K. induction l as [|x l IH]; [reflexivity|]. cbn. rewrite (K x (or_introl eq_refl)), IH; [reflexivity|]. intros y I. apply K. now right. }
    rewrite (FM' (global_pair (polygon qs) eps) pairs).
    - cbn [flat_map]. rewrite app_nil_r. unfold local_events. rewrite VC. destruct LP as (L3 & LP'). destruct (Nat.ltb_spec (length qs) 3) as [L|L]; [lia|]. change (is_closed (polygon qs)) with true. cbv iota.
      apply FM. intros i I. apply in_seq in I. apply lone_local; [exact He|split; assumption|lia].
    - intros (i, j) I. destruct (PO i j I) as (_ & _ & (A1 & A2 & A3) & _). rewrite VC in *. unfold global_pair. change (is_closed (polygon qs)) with true. rewrite !polygon_segs.
      destruct (nth_error (spec_segs qs true) i) as [(a, b)|] eqn:E1; [|reflexivity]. destruct (nth_error (spec_segs qs true) j) as [(c, e)|] eqn:E2; [|reflexivity]. cbn [option_map fst snd].
      destruct LP as (_ & _ & LP). rewrite lines_apart; [reflexivity|exact He|reflexivity|reflexivity|]. rewrite !lv_pos. exact (LP i j a b c e E1 E2 A1 A2 A3). }
  rewrite B. reflexivity.
Qed.

Lemma dist_squared_dist a b : dist_squared a b = dist a b * dist a b.
Proof. rewrite dist_sqr. unfold dist_squared, v2dot, v2sub. rnum. cbn [vx vy]. ring. Qed.

Lemma line_ok (a b : vertex R) : pbulge a = 0 -> seg_ok a b.
Proof. intros E. split; [left; exact E|]. intros N. contradiction. Qed.

Lemma clear_lies p d o pt : is_polygon p -> 0 < oo_pos_equal_eps o -> lies_clear p (Rabs (Rabs d - oo_offset_dist_eps o)) pt -> clear_point p d o pt.
Proof.
  intros (HC & HB) He LC v1 v2 I _. assert (B : pbulge v1 = 0) by (apply HB, (spec_segs_In_both _ _ _ _ I)).
  destruct (seg_closest v1 v2 pt _ (line_ok v1 v2 B) He) as (ON & _). specialize (ON ltac:(intros (X & _); contradiction)). specialize (LC v1 v2 _ I ON).
  rnum. apply rltb_true. rewrite dist_squared_dist, dist_sym. set (x := Rabs d - oo_offset_dist_eps o) in *. pose proof (Rabs_pos x). replace (x * x) with (Rabs x * Rabs x) by (unfold Rabs; destruct (Rcase_abs x); ring). nra.
Qed.

Lemma unclear_near p d o pt v1 v2 q : is_polygon p -> 0 < oo_pos_equal_eps o -> In (v1, v2) (spec_segs (vtx p) true) -> on_seg v1 v2 q ->
  oo_offset_dist_eps o <= Rabs d ->
  (dist pt q + 3 * oo_pos_equal_eps o) * (dist pt q + 3 * oo_pos_equal_eps o) + 1 / 50000000 <= (Rabs d - oo_offset_dist_eps o) * (Rabs d - oo_offset_dist_eps o) -> ~ clear_point p d o pt.
Proof.
  intros (HC & HB) He I ON HT NM CP. assert (B : pbulge v1 = 0) by (apply HB, (spec_segs_In_both _ _ _ _ I)).
  rewrite <- HC in I. specialize (CP v1 v2 I). set (x := Rabs d - oo_offset_dist_eps o) in *. assert (X : 0 <= x) by (unfold x; lra). assert (D0 : 0 <= dist pt q) by apply sqrt_pos.
  assert (DX : dist pt q <= x). { apply Rnot_lt_le. intros L. assert (x * x <= dist pt q * dist pt q) by (apply Rmult_le_compat; lra). assert (dist pt q * dist pt q <= (dist pt q + 3 * oo_pos_equal_eps o) * (dist pt q + 3 * oo_pos_equal_eps o)) by (apply Rmult_le_compat; lra). lra. }
  assert (OV : aabb_overlaps (seg_fast_approx_bounding_box v1 v2) (AABB (vx pt - x) (vy pt - x) (vx pt + x) (vy pt + x)) = true).
  { destruct (fast_box v1 v2 q (line_ok v1 v2 B) ON) as ((I1 & I2) & (I3 & I4)).
    assert (Y : Rabs (vx pt - vx q) <= Rabs x /\ Rabs (vy pt - vy q) <= Rabs x).
    { pose proof (dist_sqr pt q) as Q. pose proof (Rle_0_sqr (vx pt - vx q)) as Q1. pose proof (Rle_0_sqr (vy pt - vy q)) as Q2. unfold Rsqr in Q1, Q2. assert (dist pt q * dist pt q <= x * x) by (apply Rmult_le_compat; lra). split; apply Rsqr_le_abs_0; unfold Rsqr; lra. }
    rewrite (Rabs_pos_eq x X) in Y. destruct Y as (Y1 & Y2). apply Rabs_le_inv' in Y1, Y2.
    unfold aabb_overlaps. cbn [bmin_x bmin_y bmax_x bmax_y]. rnum. rewrite !(proj2 (rltb_false _ _)) by lra. reflexivity. }
  specialize (CP OV). destruct (seg_closest v1 v2 pt _ (line_ok v1 v2 B) He) as (_ & NF & _). specialize (NF q ON). unfold not_much_further in NF.
  rewrite dist_squared_dist in CP. revert CP. rnum. rewrite (dist_sym _ pt). intros CP. apply rltb_true in CP. fold x in CP. lra.
Qed.

Section Poly.
Context (mk : list (aabb R) -> sindex R) (p : pline R) (idx : sindex R) (d : R) (o : offset_options R) (qs : list (vec2 R)) (q : vec2 R).
Let eps := oo_pos_equal_eps o.
Hypothesis MK : makes_index mk.
Hypothesis IDX : pline_index p idx.
Hypothesis HP : is_polygon p.
Hypothesis He : 0 < eps.
Hypothesis HS : oo_handle_self_intersects o = false.
Hypothesis IC : inner_corners p d eps qs.
Hypothesis LP : lone_polygon eps qs.
Hypothesis HQ : hd_error qs = Some q.

Lemma poly_count : (2 <= vertex_count p)%nat.
Proof.
  destruct IC as (F & _). destruct LP as (L & _). unfold vertex_count. destruct (vtx p) as [|a [|b l]]; [|cbn [spec_segs] in F|cbn; lia]; inversion F; subst; cbn in L; lia.
Qed.

Lemma poly_raw : create_raw_offset_polyline p d eps = Ret (polygon qs).
Proof. apply inner_raw; [exact He|exact HP|exact poly_count|exact IC]. Qed.

Lemma poly_raw_count : (2 <= vertex_count (polygon qs))%nat.
Proof. destruct LP as (L & _). unfold vertex_count, polygon. cbn [vtx]. rewrite map_length. lia. Qed.

Lemma poly_no_cuts cuts : offset_cuts p d o (polygon qs) cuts -> cuts = [].
Proof. unfold offset_cuts. rewrite (proj1 HP), HS. cbn [negb andb]. intros (pairs & PO & ->). exact (lone_no_cuts eps qs pairs He LP PO). Qed.

Lemma poly_hd : hd_error (vtx (polygon qs)) = Some (lv q).
Proof. destruct qs; [discriminate|]. cbn in HQ. injection HQ as ->. reflexivity. Qed.

Lemma poly_whole : 0 < oo_slice_join_eps o -> lies_clear p (Rabs (Rabs d - oo_offset_dist_eps o)) q -> parallel_offset mk p idx d o = Ret [polygon qs].
Proof.
  intros Hj LC. apply (uncut_whole mk p idx d o (polygon qs) MK IDX poly_count (proj1 HP) poly_raw poly_raw_count poly_no_cuts (lv q)).
  - exact Hj.
  - intros a b I. apply In_nth_error in I as (i & E). rewrite polygon_segs in E. destruct (nth_error (spec_segs qs true) i) as [(x, y)|] eqn:EI; [|discriminate]. cbn [option_map fst snd] in E. injection E as <- <-.
    change (pos (vertex_at x 0)) with (pos (lv x)). change (pos (vertex_at y 0)) with (pos (lv y)). rewrite !lv_pos. apply far_of. destruct IC as (_ & F & _). rewrite Forall_forall in F. apply (F (x, y)).
    apply nth_error_In in EI. clear - EI. destruct qs as [|a [|b l]]; [destruct EI..|]. unfold spec_segs in EI. cbn [tl] in EI. unfold with_previous.
    assert (H : forall (l : list (vec2 R)) a z, In (x, y) (combine (a :: l) (l ++ [z])) -> (x, y) = (last l a, z) \/ In (x, y) (combine (a :: l) l)).
    { clear. induction l as [|b l IH]; intros a z I; [destruct I as [I|[]]; left; now rewrite <- I|]. cbn [app combine] in I. destruct I as [I|I]; [right; left; exact I|].
      destruct (IH b z I) as [K|K]; [left|right; right; exact K]. rewrite K. f_equal. destruct l as [|v l]; [reflexivity|]. cbn [last]. clear. revert v. induction l as [|w l IH]; intros v; [reflexivity|]. exact (IH w). }
    destruct (H (b :: l) a a EI) as [K|K]; [left; now rewrite K|right; exact K].
  - exact poly_hd.
  - rewrite lv_pos. apply clear_lies; assumption.
Qed.

Lemma poly_none v1 v2 x : oo_offset_dist_eps o <= Rabs d -> In (v1, v2) (spec_segs (vtx p) true) -> on_seg v1 v2 x ->
  (dist q x + 3 * eps) * (dist q x + 3 * eps) + 1 / 50000000 <= (Rabs d - oo_offset_dist_eps o) * (Rabs d - oo_offset_dist_eps o) -> parallel_offset mk p idx d o = Ret [].
Proof.
  intros HT I ON NM. apply (uncut_none mk p idx d o (polygon qs) MK IDX poly_count (proj1 HP) poly_raw poly_raw_count poly_no_cuts (lv q)); [exact poly_hd|].
  rewrite lv_pos. exact (unclear_near p d o q v1 v2 x HP He I ON HT NM).
Qed.
End Poly.
