(** The offset of a polygon whose raw offset keeps the distance and does not meet itself (C78). *)
From Coq Require Import Reals ZArith Bool List Arith Lra Lia Psatz Classical.
From Verif Require Import Num RNum Res ModelMath ModelIntr ModelSeg ModelPline ModelView ModelSegIntr ModelIndex ModelIntersects ModelBoolean ModelOffset.
From Verif Require Import Spec SpecPline SpecGeom SpecIntr SpecSegIntr SpecWinding SpecOffset SpecOffsetJoin SpecIndex SpecIntersects SpecCuts SpecOffNear SpecBoolean SpecView SpecBox SpecPrune SpecPolyOff SpecJordan SpecConvex SpecRound SpecCurve SpecSimple SpecRegion.
From Verif Require Import ProofR ProofArc ProofWhole ProofPolyOff ProofPolyOff2 ProofWinding6 ProofNest ProofOverlap ProofRay ProofConvexOff ProofRound1 ProofOff1 ProofOff5 ProofOff6 ProofArea6.
From Verif Require ProofIntr ProofConvex ProofJordan2.
Import ListNotations.
Local Open Scope R_scope.

Lemma with_previous_map {A B} (f : A -> B) l : with_previous (map f l) = map (fun s => (f (fst s), f (snd s))) (with_previous l).
Proof.
  destruct l as [|x t]; [reflexivity|]. cbn [map with_previous fst snd]. rewrite (last_map f t x). f_equal.
  revert x. induction t as [|y t IH]; intros x; [reflexivity|]. cbn [map combine fst snd]. f_equal. apply (IH y).
Qed.

Section Whole.
Variables (mk : list (aabb R) -> sindex R) (ps : list (vec2 R)) (d : R) (o : offset_options R) (vss : list (list (vertex R))).
Let p := polygon ps.
Let raw := PL (going_round vss) true.
Let eps := oo_pos_equal_eps o.
Hypothesis He : 0 < eps.
Hypothesis Hd : d <> 0.
Hypothesis Po : passes_once p.
Hypothesis MC : made_corners p d eps vss.
Hypothesis LP : lone_path eps raw.
Hypothesis Keep : forall q y, on_path raw q -> on_path p y -> Rabs d <= dist q y.

Lemma wo_valid : valid_loop p.
Proof.
  split; [|reflexivity]. unfold vertex_count, p, polygon. cbn [vtx]. rewrite map_length. destruct MC as (F & _). pose proof (lp_n raw eps LP) as L. cbn [vtx raw] in L.
  destruct ps as [|x [|y l]]; [| |cbn; lia]; exfalso; cbn in F; inversion F; subst; cbn in L; lia.
Qed.
Lemma wo_made : Forall2 (fun ss vs => corner_made d eps (fst (fst ss)) (snd (fst ss)) (snd (snd ss)) vs) (with_previous (spec_segs ps true)) vss.
Proof.
  destruct MC as (F & _). unfold p, polygon in F. cbn [vtx] in F. rewrite spec_segs_map, with_previous_map in F. clear - F. revert F. generalize (with_previous (spec_segs ps true)) as l. intros l. revert vss. clear.
  induction l as [|x l IH]; intros m F; inversion F as [|a b l' m' H0 H1]; subst; constructor; [|now apply IH]. cbn [fst snd] in H0. rewrite !ProofConvex.pos_vertex in H0. exact H0.
Qed.
Lemma wo_polygon : is_polygon p.
Proof. split; [reflexivity|]. intros v I. unfold p, polygon in I. cbn [vtx] in I. apply in_map_iff in I as (q & <- & _). reflexivity. Qed.

Lemma wo_path idx : makes_index mk -> pline_index p idx -> oo_handle_self_intersects o = false -> 0 < oo_slice_join_eps o -> 0 < oo_offset_dist_eps o < 2 * Rabs d -> parallel_offset mk p idx d o = Ret [raw].
Proof.
  intros MK IDX HS Hj Ho. destruct wo_valid as (VC & _). pose proof (lp_n raw eps LP) as L3. cbn [vtx raw] in L3.
  assert (exists v w l, going_round vss = v :: w :: l) as (v & w & l & EG) by (destruct (going_round vss) as [|v [|w l]]; [cbn in L3; lia..|eauto]).
  assert (Ov : on_path raw (pos v)).
  { exists v, w. unfold raw. cbn [is_closed vtx]. rewrite EG. split; [now left|]. exists 0. split; [lra|]. apply ProofSlice.seg_at_0.
    - apply (lp_ok raw eps He LP). unfold raw. cbn [is_closed vtx]. rewrite EG. now left. }
  apply (uncut_whole mk p idx d o raw MK IDX) with (v := v).
  - exact VC.
  - reflexivity.
  - apply made_raw; [exact He|exact wo_polygon|exact VC|exact MC].
  - unfold vertex_count, raw. cbn [vtx]. lia.
  - intros cuts. unfold offset_cuts. change (is_closed p) with true. rewrite HS. cbn [negb andb]. intros (pairs & PO & ->). exact (lp_no_cuts raw eps He LP pairs PO).
  - exact Hj.
  - intros a b I. apply ProofIntr.not_point_R. destruct (In_nth_error _ _ I) as (i & E). exact (proj1 (proj2 (lp_seg raw eps He LP i a b E))).
  - unfold raw. cbn [vtx]. rewrite EG. reflexivity.
  - apply clear_lies; [exact wo_polygon|exact He|]. intros v1 v2 q I ON. specialize (Keep (pos v) q Ov). assert (Oq : on_path p q) by (exists v1, v2; split; assumption). specialize (Keep Oq). eapply Rlt_le_trans; [|exact Keep]. apply Rabs_def1; lra.
Qed.

Lemma wo_nearest x : exists y, on_path p y /\ forall y', on_path p y' -> dist x y <= dist x y'.
Proof.
  destruct wo_valid as (VC & _). destruct (nearest_side x (spec_segs ps true)) as (a & b & t & I & Ht & M).
  { unfold vertex_count, p, polygon in VC. cbn [vtx] in VC. rewrite map_length in VC. destruct ps as [|u [|v l]]; [cbn in VC; lia..|discriminate]. }
  exists (line_pt a b t). split; [apply ProofConvex.polygon_path; now exists a, b, t|]. intros y' Oy. apply ProofConvex.polygon_path in Oy as (c & e & u & J & Hu & ->). now apply M.
Qed.

Theorem wo_region A : area p = Ret A ->
  (0 < d * A -> forall x, ~ on_path raw x -> (inside raw x = true <-> ~ on_path p x /\ inside p x = true /\ forall y, on_path p y -> Rabs d < dist x y))
  /\ (d * A < 0 -> forall x, ~ on_path raw x -> (inside raw x = true <-> on_path p x \/ inside p x = true \/ exists y, on_path p y /\ dist x y <= Rabs d)).
Proof.
  intros EA. pose proof wo_valid as Vl. pose proof (ProofConvex.polygon_ok ps) as Okp. fold p in Okp. destruct (loop_direction p Okp Vl Po) as (u & A' & _ & No & EA' & S & Wn & _). rewrite EA in EA'. injection EA' as <-.
  set (oz := once u) in *. assert (Ho : oz = 1%Z \/ oz = (-1)%Z) by (unfold oz; destruct u; cbn; auto; now destruct No).
  assert (W : forall x, ~ on_path p x -> wn p x = 0%Z \/ wn p x = oz) by (intros x O; apply (Wn x _ O), winding_wn).
  assert (SG : 0 < IZR oz * d <-> 0 < d * A) by (destruct Ho as [E|E]; rewrite E in *; destruct (Rdichotomy _ _ Hd) as [Q|Q]; split; intros Y; try (exfalso; lra); nra).
  pose proof (lp_ok raw eps He LP) as Okr. pose proof (lp_valid raw eps LP) as Vlr. pose proof (lp_once raw eps He LP) as Por.
  assert (Diff : forall a b, In (a, b) (spec_segs (vtx raw) true) -> pos a <> pos b) by (intros a b I; destruct (In_nth_error _ _ I) as (i & E); exact (proj2 (proj2 (lp_seg raw eps He LP i a b E)))).
  pose proof (right_side ps d eps vss oz Hd He Vl Po Ho W wo_made Okr Keep Diff) as RS.
  pose proof (covers_all ps d eps vss oz Hd He Vl Po Ho W wo_made) as CV.
  assert (Ed : 0 < Rabs d) by now apply Rabs_pos_lt.
  split; intros D.
  - assert (P : 0 < IZR oz * d) by tauto.
    intros x Ox. apply (ring_region p raw (Rabs d) true); auto using wo_nearest.
    + intros q Oq. split; [|intros y Oy; now apply Keep]. apply (RS q Oq). exact P.
    + intros z y Nz I F Oy Dy. apply (CV z y); auto. tauto.
  - assert (P : ~ 0 < IZR oz * d) by (rewrite SG; lra).
    intros x Ox.
    assert (Q : inside raw x = false <-> deep p (Rabs d) false x).
    { apply (ring_region p raw (Rabs d) false); auto using wo_nearest.
      + intros q Oq. split; [|intros y Oy; now apply Keep]. destruct (inside p q) eqn:I; [|reflexivity]. apply (RS q Oq) in I. contradiction.
      + intros z y Nz I F Oy Dy. apply (CV z y); auto. fold p. rewrite I. split; [discriminate|contradiction]. }
    split.
    + intros I. apply NNPP. intros N. assert (Z : inside raw x = false); [|congruence]. apply Q. split; [tauto|]. split; [destruct (inside p x); [tauto|reflexivity]|].
      intros y Oy. apply Rnot_le_lt. intros L. apply N. right. right. eauto.
    + intros C. destruct (inside raw x) eqn:I; [reflexivity|]. exfalso. destruct (proj1 Q eq_refl) as (N1 & N2 & N3). destruct C as [C|[C|(y & Oy & L)]]; [contradiction|congruence|]. specialize (N3 y Oy). lra.
Qed.
End Whole.

Theorem simple_offset mk ps idx d o vss A : let p := polygon ps in let raw := PL (going_round vss) true in
  makes_index mk -> pline_index p idx -> 0 < oo_pos_equal_eps o -> oo_handle_self_intersects o = false ->
  0 < oo_slice_join_eps o -> 0 < oo_offset_dist_eps o < 2 * Rabs d -> passes_once p -> area p = Ret A ->
  made_corners p d (oo_pos_equal_eps o) vss -> lone_path (oo_pos_equal_eps o) raw -> (forall q y, on_path raw q -> on_path p y -> Rabs d <= dist q y) ->
  parallel_offset mk p idx d o = Ret [raw] /\ passes_once raw
  /\ (0 < d * A -> forall x, ~ on_path raw x -> (inside raw x = true <-> ~ on_path p x /\ inside p x = true /\ forall y, on_path p y -> Rabs d < dist x y))
  /\ (d * A < 0 -> forall x, ~ on_path raw x -> (inside raw x = true <-> on_path p x \/ inside p x = true \/ exists y, on_path p y /\ dist x y <= Rabs d)).
Proof.
  intros p raw MK IX He HS Hj Ho Po EA MC LP Keep. assert (Ed : 0 < Rabs d) by lra. assert (Hd : d <> 0) by (intros Z; rewrite Z, Rabs_R0 in Ed; lra).
  split; [now apply wo_path|]. split; [exact (lp_once _ _ He LP)|]. exact (wo_region ps d o vss He Hd Po MC LP Keep A EA).
Qed.
