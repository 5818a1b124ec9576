(** Extents of a whole path (C09). *)
From Coq Require Import Reals ZArith Bool List Arith Lra Lia Psatz.
From Verif Require Import Num RNum Res ModelMath ModelSeg ModelPline Spec SpecGeom SpecBox.
From Verif Require Import ProofR ProofBase ProofIter ProofArc ProofArc2 ProofMeasure ProofSlice ProofBox ProofBox2.
Import ListNotations.
Local Open Scope R_scope.

(** Consecutive segments share a vertex. *)
Fixpoint chain {A} (v : A) (segs : list (A * A)) : Prop :=
  match segs with
  | [] => True
  | (a, b) :: t => a = v /\ chain b t
  end.

Lemma chain_combine {A} (l : list A) : forall a z, chain a (combine (a :: l) (l ++ [z])).
Proof.
  induction l as [|b l IH]; intros a z.
  - cbn. auto.
  - cbn [combine app chain]. split; [reflexivity|]. apply (IH b z).
Qed.
Lemma chain_combine_open {A} (l : list A) : forall a, chain a (combine (a :: l) l).
Proof. induction l as [|b l IH]; intros a; cbn [combine chain]; auto. split; [reflexivity|]. apply (IH b). Qed.

Lemma chain_spec_segs {A} (l : list A) c a t : l = a :: t -> chain a (spec_segs l c).
Proof.
  intros ->. destruct t as [|b t]; [exact I|]. cbn [spec_segs tl]. destruct c.
  - apply (chain_combine (b :: t)).
  - rewrite app_nil_r. apply (chain_combine_open (b :: t)).
Qed.

Definition valid_box (b : aabb R) : Prop := bmin_x b <= bmax_x b /\ bmin_y b <= bmax_y b.
Definition join (b e : aabb R) : aabb R :=
  AABB (Rmin (bmin_x b) (bmin_x e)) (Rmin (bmin_y b) (bmin_y e)) (Rmax (bmax_x b) (bmax_x e)) (Rmax (bmax_y b) (bmax_y e)).
Definition step_box (v1 v2 : vertex R) : aabb R :=
  if bulge_is_zero v1 then AABB (px v2) (py v2) (px v2) (py v2) else arc_seg_bounding_box v1 v2.

Lemma extents_step_join b v1 v2 : valid_box b -> extents_step b (v1, v2) = join b (step_box v1 v2).
Proof.
  intros [V1 VV2]. unfold extents_step, step_box. destruct (bulge_is_zero v1); [|reflexivity].
  unfold join. cbn [bmin_x bmin_y bmax_x bmax_y]. rnum. destruct b as [x0 y0 x1 y1]. cbn [bmin_x bmin_y bmax_x bmax_y] in *.
  unfold Rmin, Rmax.
  destruct (rltb_spec (px v2) x0), (rltb_spec x1 (px v2)); cbn [bmin_x bmin_y bmax_x bmax_y];
  destruct (rltb_spec (py v2) y0), (rltb_spec y1 (py v2)); cbn [bmin_x bmin_y bmax_x bmax_y];
  repeat match goal with |- context [Rle_dec ?a ?b] => destruct (Rle_dec a b) end; f_equal; lra.
Qed.

Lemma join_valid b e : valid_box b -> valid_box (join b e).
Proof.
  intros [V1 VV2]. unfold join, valid_box. cbn [bmin_x bmin_y bmax_x bmax_y].
  split; [eapply Rle_trans; [apply Rmin_l|]; eapply Rle_trans; [exact V1|apply Rmax_l]
         |eapply Rle_trans; [apply Rmin_l|]; eapply Rle_trans; [exact VV2|apply Rmax_l]].
Qed.

Lemma join_inside b e d q : inside b d q \/ inside e d q -> inside (join b e) d q.
Proof.
  unfold inside, join. cbn [bmin_x bmin_y bmax_x bmax_y].
  pose proof (Rmin_l (bmin_x b) (bmin_x e)). pose proof (Rmin_r (bmin_x b) (bmin_x e)).
  pose proof (Rmin_l (bmin_y b) (bmin_y e)). pose proof (Rmin_r (bmin_y b) (bmin_y e)).
  pose proof (Rmax_l (bmax_x b) (bmax_x e)). pose proof (Rmax_r (bmax_x b) (bmax_x e)).
  pose proof (Rmax_l (bmax_y b) (bmax_y e)). pose proof (Rmax_r (bmax_y b) (bmax_y e)).
  lra.
Qed.

Lemma join_reaches b e d (P : vec2 R -> Prop) : reaches b d P -> reaches e d P -> reaches (join b e) d P.
Proof.
  intros (A1 & A2 & A3 & A4) (B1 & B2 & B3 & B4). unfold reaches, join. cbn [bmin_x bmin_y bmax_x bmax_y].
  unfold Rmin, Rmax.
  repeat match goal with |- context [Rle_dec ?a ?b] => destruct (Rle_dec a b) end; auto.
Qed.

Lemma inside_convex b d p q t : inside b d p -> inside b d q -> 0 <= t <= 1 -> inside b d (line_pt p q t).
Proof. unfold inside, line_pt. cbn [vx vy]. intros. split; nra. Qed.

Lemma reaches_mono b d (P Q : vec2 R -> Prop) : (forall q, P q -> Q q) -> reaches b d P -> reaches b d Q.
Proof.
  intros H ((q1 & A1 & B1) & (q2 & A2 & B2) & (q3 & A3 & B3) & (q4 & A4 & B4)).
  repeat split; eauto.
Qed.

Lemma point_reached (P : vec2 R -> Prop) v d : 0 <= d -> P (pos v) -> reaches (AABB (px v) (py v) (px v) (py v)) d P.
Proof.
  intros Hd H. repeat split; exists (pos v); (split; [exact H|]); cbn [pos vx vy bmin_x bmax_x bmin_y bmax_y];
  rewrite Rminus_diag_eq, Rabs_R0 by reflexivity; exact Hd.
Qed.

Lemma step_contains b v1 v2 d q : seg_ok v1 v2 -> (d = 1 / 50000000 \/ d = 0 /\ ~ short_arc v1 v2) ->
  inside b d (pos v1) -> on_seg v1 v2 q -> inside (join b (step_box v1 v2)) d q.
Proof.
  intros Hok Hd I Hq. destruct (seg_box v1 v2 Hok) as (S1 & S2 & _). unfold step_box, seg_bounding_box in *.
  destruct (bulge_is_zero v1) eqn:Z.
  - apply bulge_ok_zero in Z; [|apply Hok]. destruct Hq as (t & Ht & Q). apply seg_at_line in Q; [|exact Z]. subst q.
    apply inside_convex; [apply join_inside; now left| |exact Ht].
    apply join_inside. right. unfold inside, pos. cbn [vx vy bmin_x bmax_x bmin_y bmax_y]. lra.
  - apply join_inside. right. destruct Hd as [->|[-> NS]]; auto.
Qed.

Lemma extents_loop d rho (P : vec2 R -> Prop) : 0 <= rho -> forall segs b v,
  (forall v1 v2, In (v1, v2) segs -> seg_ok v1 v2) ->
  (d = 1 / 50000000 \/ d = 0 /\ forall v1 v2, In (v1, v2) segs -> ~ short_arc v1 v2) ->
  chain v segs -> valid_box b -> inside b d (pos v) ->
  let b' := fold_left extents_step segs b in
  (forall q, inside b d q -> inside b' d q)
  /\ (forall v1 v2 q, In (v1, v2) segs -> on_seg v1 v2 q -> inside b' d q)
  /\ (reaches b (rho * (1 / 10000000000000000)) P ->
      (forall v1 v2 q, In (v1, v2) segs -> on_seg v1 v2 q -> P q) ->
      (forall v1 v2, In (v1, v2) segs -> radius_within rho v1 v2) ->
      reaches b' (rho * (1 / 10000000000000000)) P).
Proof.
  intros Hrho. induction segs as [|[v1 v2] segs IH]; intros b v Hok Hd HC HV HI; cbn [fold_left].
  - split; [auto|]. split; [intros ? ? ? []|auto].
  - destruct HC as [<- HC]. rewrite (extents_step_join b v1 v2 HV).
    assert (Hs : seg_ok v1 v2) by (apply Hok; now left).
    assert (Hd1 : d = 1 / 50000000 \/ d = 0 /\ ~ short_arc v1 v2).
    { destruct Hd as [E|[E F]]; [now left|]. right. split; [exact E|]. apply F. now left. }
    pose proof (step_contains b v1 v2 d) as SC.
    assert (HI2 : inside (join b (step_box v1 v2)) d (pos v2)).
    { apply SC; auto. apply (on_seg_ends _ _ Hs). }
    destruct (IH (join b (step_box v1 v2)) v2) as (I1 & I2 & I3).
    + intros a b' Hin. apply Hok. now right.
    + destruct Hd as [E|[E F]]; [now left|]. right. split; [exact E|]. intros a b' Hin. apply F. now right.
    + exact HC.
    + now apply join_valid.
    + exact HI2.
    + split; [|split].
      * intros q Hq. apply I1. apply join_inside. now left.
      * intros a b' q [E|Hin] Hq; [injection E as <- <-; apply I1; now apply SC|eapply I2; eauto].
      * intros HR HP HW. apply I3.
        { apply join_reaches; [exact HR|]. unfold step_box.
          destruct (seg_box v1 v2 Hs) as (_ & _ & R). unfold seg_bounding_box in R.
          destruct (bulge_is_zero v1).
          - apply point_reached; [lra|]. apply (HP v1 v2); [now left|]. apply (on_seg_ends _ _ Hs).
          - eapply reaches_mono; [|apply R; [exact Hrho|apply HW; now left]]. intros q. apply HP. now left. }
        { intros a b' q Hin. apply HP. now right. }
        { intros a b' Hin. apply HW. now right. }
Qed.

Lemma extents_spec p : pline_ok p ->
  (spec_segs (vtx p) (is_closed p) = [] /\ extents p = Ret None)
  \/ (spec_segs (vtx p) (is_closed p) <> [] /\ exists b, extents p = Ret (Some b)
      /\ (forall q, on_path p q -> inside b (1 / 50000000) q)
      /\ ((forall v1 v2, In (v1, v2) (spec_segs (vtx p) (is_closed p)) -> ~ short_arc v1 v2) ->
          forall q, on_path p q -> inside b 0 q)
      /\ (forall rho, 0 <= rho ->
            (forall v1 v2, In (v1, v2) (spec_segs (vtx p) (is_closed p)) -> radius_within rho v1 v2) ->
            reaches b (rho * (1 / 10000000000000000)) (on_path p))).
Proof.
  intros Hok. unfold extents. rewrite segment_count_spec, iter_segments_spec.
  destruct (spec_segs (vtx p) (is_closed p)) as [|s segs'] eqn:ES; [left; split; reflexivity|].
  right. split; [discriminate|]. cbn [length Nat.eqb]. unfold at_, index.
  destruct (vtx p) as [|v vs] eqn:EV; [discriminate|]. cbn [nth_error rbind].
  pose proof (chain_spec_segs (vtx p) (is_closed p) v vs EV) as HC. rewrite EV, ES in HC.
  set (segs := s :: segs') in *.
  eexists. split; [reflexivity|].
  assert (VB : valid_box (AABB (px v) (py v) (px v) (py v))) by (split; cbn; lra).
  assert (OkS : forall v1 v2, In (v1, v2) segs -> seg_ok v1 v2).
  { intros v1 v2 Hin. apply Hok. rewrite EV, ES. exact Hin. }
  assert (OP : forall q, on_path p q <-> exists v1 v2, In (v1, v2) segs /\ on_seg v1 v2 q).
  { intros q. unfold on_path. rewrite EV, ES. reflexivity. }
  assert (OV : on_path p (pos v)).
  { apply OP. unfold segs in *. destruct s as [a b]. destruct HC as [<- _]. exists a, b. split; [now left|].
    apply on_seg_ends. apply OkS. now left. }
  assert (IV : forall d, 0 <= d -> inside (AABB (px v) (py v) (px v) (py v)) d (pos v)).
  { intros d Hd. unfold inside, pos. cbn. lra. }
  split; [|split].
  - intros q Hq. apply OP in Hq as (v1 & v2 & Hin & Hon).
    destruct (extents_loop (1 / 50000000) 0 (on_path p) (Rle_refl 0) segs _ v OkS (or_introl eq_refl) HC VB (IV (1 / 50000000) ltac:(lra))) as (_ & I2 & _).
    now apply (I2 v1 v2).
  - intros NS q Hq. apply OP in Hq as (v1 & v2 & Hin & Hon).
    destruct (extents_loop 0 0 (on_path p) (Rle_refl 0) segs _ v OkS (or_intror (conj eq_refl NS)) HC VB (IV 0 ltac:(lra))) as (_ & I2 & _).
    now apply (I2 v1 v2).
  - intros rho Hr HW.
    destruct (extents_loop (1 / 50000000) rho (on_path p) Hr segs _ v OkS (or_introl eq_refl) HC VB (IV (1 / 50000000) ltac:(lra))) as (_ & _ & I3).
    apply I3.
    + apply point_reached; [lra|exact OV].
    + intros v1 v2 q Hin Hon. apply OP. eauto.
    + exact HW.
Qed.

(** ** A concrete case: the unit circle drawn as two half circles *)
Lemma ex_circle_no_short : forall v1 v2, In (v1, v2) (spec_segs (vtx ex_circle) (is_closed ex_circle)) -> ~ short_arc v1 v2.
Proof.
  intros v1 v2 H; cbn in H; destruct H as [H|[H|[]]]; injection H as <- <-; intros (_ & T & _); cbn in T; revert T; unfold Rabs;
  destruct (Rcase_abs _); lra.
Qed.

Lemma ex_circle_top : on_path ex_circle (V2 0 1) /\ on_path ex_circle (V2 0 (-1)).
Proof.
  split; [exists (Vtx 1 0 1), (Vtx (-1) 0 1)|exists (Vtx (-1) 0 1), (Vtx 1 0 1)]; (split; [cbn; auto|]);
  exists (1 / 2); (split; [lra|]); right; cbn [pbulge]; (split; [lra|]).
  - exists (V2 0 0), 1, 0. unfold is_arc, circle_pt, pos. cbn [vx vy px py]. rewrite atan_1_val.
    replace (0 + PI) with PI by ring. replace (0 + 1 / 2 * PI) with (PI / 2) by field.
    rewrite cos_0, sin_0, cos_PI, sin_PI, cos_PI2, sin_PI2.
    repeat split; try lra; apply vec2_eq; cbn [vx vy]; ring.
  - exists (V2 0 0), 1, PI. unfold is_arc, circle_pt, pos. cbn [vx vy px py]. rewrite atan_1_val.
    replace (PI + PI) with (2 * PI) by ring. replace (PI + 1 / 2 * PI) with (3 * (PI / 2)) by field.
    rewrite cos_2PI, sin_2PI, cos_PI, sin_PI, cos_3PI2, sin_3PI2.
    repeat split; try lra; apply vec2_eq; cbn [vx vy]; ring.
Qed.

Lemma ex_circle_radius v1 v2 : In (v1, v2) (spec_segs (vtx ex_circle) (is_closed ex_circle)) -> radius_within 1 v1 v2.
Proof.
  intros H _ c r a HA. cbn in H; destruct H as [H|[H|[]]]; injection H as <- <-; cbn [pbulge] in HA;
  destruct (arc_unique _ _ _ _ _ _ R1_neq_R0 HA) as [_ ->]; unfold radius_of, chord2, pos; cbn [vx vy px py];
  rewrite (Rabs_pos_eq 1) by lra; rewrite (sqrt_of_sqr 2) by lra; lra.
Qed.

(** The extents of the unit circle: its top and bottom are found although no vertex is there. *)
Lemma ex_circle_extents : exists b, extents ex_circle = Ret (Some b)
  /\ bmin_y b <= -1 /\ 1 <= bmax_y b /\ bmax_x b <= 1 + 1 / 1000000 .
Proof.
  destruct (extents_spec ex_circle ex_circle_ok) as [[E _]|(_ & b & E & _ & I & R)]; [discriminate|].
  exists b. split; [exact E|].
  pose proof (I ex_circle_no_short _ (proj1 ex_circle_top)) as I1. pose proof (I ex_circle_no_short _ (proj2 ex_circle_top)) as I2.
  unfold inside in *. cbn [vx vy] in *. split; [lra|]. split; [lra|].
  destruct (R 1 ltac:(lra) ex_circle_radius) as (_ & (q & (v1 & v2 & Hin & t & Ht & Q) & A) & _).
  assert (vx q <= 1).
  { pose proof (ex_circle_ok _ _ Hin) as [_ HP].
    cbn in Hin. destruct Hin as [H|[H|[]]]; injection H as <- <-; (destruct Q as [[Q _]|[_ (c & r & a & HA & ->)]]; [cbn in Q; lra|]);
    destruct (arc_unique _ _ 1 _ _ _ R1_neq_R0 HA) as [-> ->]; unfold circle_pt, radius_of, centre_of, chord2, pos;
    cbn [vx vy px py pbulge]; rewrite (Rabs_pos_eq 1) by lra; rewrite (sqrt_of_sqr 2) by lra;
    match goal with |- context [cos ?z] => pose proof (COS_bound z) end; lra. }
  revert A. unfold Rabs. destruct (Rcase_abs (vx q - bmax_x b)); lra.
Qed.

Lemma ex_half_boxes :
  seg_fast_approx_bounding_box (Vtx 1 0 1) (Vtx (-1) 0 0) = AABB (-1) 0 1 1
  /\ seg_ok (Vtx 1 0 1) (Vtx (-1) 0 0) /\ ~ short_arc (Vtx 1 0 1) (Vtx (-1) 0 0)
  /\ on_seg (Vtx 1 0 1) (Vtx (-1) 0 0) (V2 0 1).
Proof.
  assert (Hok : seg_ok (Vtx 1 0 1) (Vtx (-1) 0 0)) by (apply seg_ok_half; [now left|left; lra]).
  split; [|split; [exact Hok|split]].
  - unfold seg_fast_approx_bounding_box. destruct (bulge_is_zero (Vtx 1 0 1)) eqn:Z.
    { apply bulge_ok_zero in Z; [cbn in Z; lra|apply Hok]. }
    rewrite !min_max_R. rnum. cbn [px py pbulge]. unfold Rmin, Rmax.
    repeat match goal with |- context [Rle_dec ?a ?b] => destruct (Rle_dec a b) end; f_equal; lra.
  - intros (_ & T & _). cbn in T. revert T. unfold Rabs. destruct (Rcase_abs _); lra.
  - exists (1 / 2). split; [lra|]. right. cbn [pbulge]. split; [lra|].
    exists (V2 0 0), 1, 0. unfold is_arc, circle_pt, pos. cbn [vx vy px py]. rewrite atan_1_val.
    replace (0 + PI) with PI by ring. replace (0 + 1 / 2 * PI) with (PI / 2) by field.
    rewrite cos_0, sin_0, cos_PI, sin_PI, cos_PI2, sin_PI2.
    repeat split; try lra; apply vec2_eq; cbn [vx vy]; ring.
Qed.
