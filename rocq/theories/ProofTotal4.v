(** Areas of circles and examples for areas that add up (C72). *)
From Coq Require Import Reals ZArith Bool List Arith Lra Lia Psatz Classical.
From Verif Require Import Num RNum Res ModelMath ModelSeg ModelPline ModelIndex ModelIntersects ModelBoolean.
From Verif Require Import Spec SpecPline SpecGeom SpecBox SpecIndex SpecBoolean SpecView SpecOffset SpecOffsetJoin SpecPrune SpecRegion SpecJordan SpecPolyOff SpecPolyBool SpecCircle SpecCurve SpecTotal.
From Verif Require Import ProofR ProofArc ProofIntr ProofMeasure ProofIndex2 ProofCurve3 ProofDisc ProofDisc2 ProofJordan6 ProofCurveEx ProofTotal ProofTotal2 ProofTotal3.
Import ListNotations.
Local Open Scope R_scope.

Section Disc.
Context (c u : vec2 R) (b r : R).
Hypothesis Hu : unit_vec u.
Hypothesis Hb : b = 1 \/ b = -1.
Hypothesis Hr : 0 < r.

Lemma disc_area : area (circle c u r b) = Ret (b * (PI * (r * r))).
Proof.
  rewrite area_sum by (reflexivity || apply pline_ok_bulges, disc_ok; assumption). f_equal.
  unfold data_fun. cbn [circle vtx is_closed spec_segs tl app combine map fst snd]. rewrite !rsum_cons, rsum_nil. unfold SpecPline.seg_data, area_data, arc_area2, vertex_at, moved. cbn [fst snd px py pbulge vx vy].
  destruct (Req_EM_T b 0) as [E|_]; [destruct Hb; lra|].
  assert (D : forall h, (h = 2 * r \/ h = - (2 * r)) -> (h * vx u) * (h * vx u) + (h * vy u) * (h * vy u) = 4 * (r * r)).
  { intros h Hh. unfold unit_vec in Hu. transitivity (h * h * (vx u * vx u + vy u * vy u)); [ring|]. rewrite Hu. destruct Hh as [-> | ->]; ring. }
  unfold unit_vec in Hu.
  replace (vx c + - r * vx u - (vx c + r * vx u)) with (- (2 * r) * vx u) by ring. replace (vy c + - r * vy u - (vy c + r * vy u)) with (- (2 * r) * vy u) by ring.
  replace (vx c + r * vx u - (vx c + - r * vx u)) with (2 * r * vx u) by ring. replace (vy c + r * vy u - (vy c + - r * vy u)) with (2 * r * vy u) by ring.
  rewrite !D by auto.
  assert (SW : sweep b = b * PI) by (destruct Hb as [-> | ->]; [rewrite atan_1_val; ring|]; replace (-1) with (- (1)) by ring; unfold sweep; rewrite atan_opp; pose proof atan_1_val as Q; unfold sweep in Q; lra).
  rewrite SW. destruct Hb as [-> | ->]; field.
Qed.
End Disc.

Lemma disc_abs b r : b = 1 \/ b = -1 -> Rabs (b * (PI * (r * r))) = PI * (r * r).
Proof.
  intros Hb. assert (0 <= PI * (r * r)) by (apply Rmult_le_pos; [pose proof PI_pos; lra|apply Rle_0_sqr]).
  destruct Hb as [-> | ->]; [rewrite Rabs_right; lra|]. rewrite Rabs_left1; lra.
Qed.

Theorem discs_areas mk c1 u1 b1 r1 c2 u2 b2 r2 eps idx boxes : unit_vec u1 -> b1 = 1 \/ b1 = -1 -> unit_vec u2 -> b2 = 1 \/ b2 = -1 ->
  0 < eps -> clear_circles eps c1 u1 r1 c2 u2 r2 -> makes_index mk -> index_of boxes idx ->
  boxes = map (fun s => seg_fast_approx_bounding_box (fst s) (snd s)) (spec_segs (vtx (circle c1 u1 r1 b1)) (is_closed (circle c1 u1 r1 b1))) ->
  exists m : boolean_op -> R, (forall op, exists r, polyline_boolean mk (circle c1 u1 r1 b1) (circle c2 u2 r2 b2) op idx eps = Ret r /\ net_area r (m op))
  /\ m BOr + m BAnd = PI * (r1 * r1) + PI * (r2 * r2) /\ m BNot + m BAnd = PI * (r1 * r1) /\ m BXor + m BAnd = m BOr
  /\ 0 <= m BAnd <= Rmin (PI * (r1 * r1)) (PI * (r2 * r2)).
Proof.
  intros U1 B1 U2 B2 E C MK IO EB. pose proof C as (S1 & S2 & _). pose proof (r_pos r1 eps E S1) as R1. pose proof (r_pos r2 eps E S2) as R2.
  destruct (loops_areas mk (circle c1 u1 r1 b1) (circle c2 u2 r2 b2) eps idx boxes (b1 * (PI * (r1 * r1))) (b2 * (PI * (r2 * r2)))) as (m & H); auto.
  - now apply discs_clear.
  - apply disc_loop.
  - apply disc_loop.
  - now apply disc_once.
  - now apply disc_once.
  - now apply disc_area.
  - now apply disc_area.
  - exists m. rewrite !disc_abs in H by assumption. exact H.
Qed.

(** ** Examples *)
Lemma ex_circles_areas : exists m : boolean_op -> R,
  (forall op, exists r, polyline_boolean (@list_index R RNum) (circle (V2 0 0) (V2 1 0) 5 1) (circle (V2 6 0) (V2 1 0) 5 (-1)) op (ex_index (circle (V2 0 0) (V2 1 0) 5 1)) (1 / 100000) = Ret r /\ net_area r (m op))
  /\ m BOr + m BAnd = 50 * PI /\ m BNot + m BAnd = 25 * PI /\ m BXor + m BAnd = m BOr.
Proof.
  destruct ex_circles as (U & C).
  destruct (discs_areas (@list_index R RNum) (V2 0 0) (V2 1 0) 1 5 (V2 6 0) (V2 1 0) (-1) 5 (1 / 100000) (ex_index (circle (V2 0 0) (V2 1 0) 5 1)) _
    U ltac:(now left) U ltac:(now right) ltac:(lra) C list_index_ok (list_index_ok _) eq_refl) as (m & H & A1 & A2 & A3 & _).
  exists m. split; [exact H|]. split; [lra|]. split; [lra|exact A3].
Qed.

Lemma ex_half_area : area ex_half = Ret (PI / 2).
Proof.
  rewrite area_sum by (reflexivity || apply pline_ok_bulges, ex_half_ok). f_equal.
  unfold data_fun. rewrite ex_half_segs. cbn [map]. rewrite !rsum_cons, rsum_nil. unfold SpecPline.seg_data, area_data, arc_area2. cbn [fst snd px py pbulge]. rewrite atan_1_val.
  destruct (Req_EM_T 1 0) as [E|_]; [lra|]. destruct (Req_EM_T 0 0) as [_|E]; [|lra]. field.
Qed.

Lemma ex_slab_area : area (polygon ex_slab) = Ret (28 / 5).
Proof.
  rewrite area_sum by (reflexivity || apply pline_ok_bulges; intros v1 v2 I; apply (proj1 (proj2 (proj2 (proj2 ex_loops))) v1 v2 I)). f_equal.
  unfold data_fun, polygon, ex_slab. cbn [map vtx is_closed spec_segs tl app combine]. rewrite !rsum_cons, rsum_nil. unfold SpecPline.seg_data, area_data, arc_area2, vertex_at. cbn [fst snd px py pbulge vx vy].
  destruct (Req_EM_T 0 0) as [_|E]; [|lra]. field.
Qed.

Lemma ex_loops_areas : exists m : boolean_op -> R,
  (forall op, exists r, polyline_boolean (@list_index R RNum) ex_half (polygon ex_slab) op (ex_index ex_half) (1 / 100000) = Ret r /\ net_area r (m op))
  /\ m BOr + m BAnd = PI / 2 + 28 / 5 /\ m BNot + m BAnd = PI / 2 /\ m BXor + m BAnd = m BOr /\ 0 <= m BAnd <= PI / 2.
Proof.
  destruct (loops_areas (@list_index R RNum) ex_half (polygon ex_slab) (1 / 100000) (ex_index ex_half) _ (PI / 2) (28 / 5) ltac:(lra) ex_loops list_index_ok (list_index_ok _) eq_refl
    ex_half_loop slab_loop ex_half_once slab_once ex_half_area ex_slab_area) as (m & H & A1 & A2 & A3 & A4 & A5).
  pose proof PI_pos. rewrite (Rabs_right (PI / 2)) in * by lra. rewrite (Rabs_right (28 / 5)) in * by lra. pose proof (Rmin_l (PI / 2) (28 / 5)).
  exists m. split; [exact H|]. split; [exact A1|]. split; [exact A2|]. split; [exact A3|lra].
Qed.

(** ** A loop inside another *)
Theorem nested_area (p1 p2 : pline R) A1 A2 : pline_ok p1 -> pline_ok p2 -> valid_loop p1 -> valid_loop p2 -> passes_once p1 -> passes_once p2 ->
  area p1 = Ret A1 -> area p2 = Ret A2 -> (forall x, ~ on_path p1 x -> ~ on_path p2 x -> inside p1 x = true -> inside p2 x = true) -> Rabs A1 <= Rabs A2.
Proof.
  intros O1 O2 V1 V2' P1 P2 E1 E2 H. destruct (ProofArea5.loop_simple p1 O1 V1 P1) as (o1 & S1 & _). destruct (ProofArea5.loop_simple p2 O2 V2' P2) as (o2 & S2 & _).
  rewrite <- (combo_one_area p1 o1 A1 V1 S1 E1), <- (combo_one_area p2 o2 A2 V2' S2 E2). apply (along_le p1 p2 (conj V1 O1) (conj V2' O2)).
  - intros e [<-|[]]. split; [split; assumption|auto].
  - intros e [<-|[]]. split; [split; assumption|auto].
  - intros x X1 X2. rewrite (combo_one_wn p1 o1 x S1 X1), (combo_one_wn p2 o2 x S2 X2). specialize (H x X1 X2). destruct (inside p1 x), (inside p2 x); cbn; lia.
Qed.

Lemma disc_wn c u r b x : unit_vec u -> b = 1 \/ b = -1 -> 0 < r -> ~ on_path (circle c u r b) x ->
  (b = 1 -> ProofWinding6.wn (circle c u r b) x = if Rlt_dec (dist x c) r then 1%Z else 0%Z).
Proof.
  intros U B Hr O B1. assert (D : dist x c <> r) by (intros D; apply O; apply disc_on; auto).
  destruct (ProofArea5.loop_simple _ (disc_ok c u b U B r Hr) (disc_loop c u b r) (disc_once c u b U B r Hr)) as (o & S & No & A & EA & HA).
  pose proof (turn_wn _ x o S O) as T. rewrite (disc_area c u b r U B Hr) in EA. injection EA as <-.
  assert (Q : 0 < PI * (r * r)) by (apply Rmult_lt_0_compat; [apply PI_RGT_0|nra]).
  assert (once o = 1%Z) by (destruct o; cbn in *; auto; rewrite B1 in HA; lra).
  unfold turn in T. rewrite (proj1 S), H in T. rewrite Z.mul_1_l in T. rewrite T. pose proof (disc_inside c u b U B r Hr x D) as I.
  destruct (Rlt_dec (dist x c) r) as [L|L]; destruct (inside (circle c u r b) x); cbn; auto; [apply I in L; discriminate|exfalso; apply L, I; reflexivity].
Qed.

Definition ex_ring (r : R) : pline R := circle (V2 0 0) (V2 1 0) r 1.
Lemma ex_weighed : let F := [(1%Z, ex_ring 3); (1%Z, ex_ring 1)] in let G := [(2%Z, ex_ring 4)] in
  (forall e, In e (F ++ G) -> valid_loop (snd e) /\ pline_ok (snd e))
  /\ (forall x v w, (forall e, In e (F ++ G) -> ~ on_path (snd e) x) -> weighed_winding F x v -> weighed_winding G x w -> (v <= w)%Z)
  /\ weighed_area F (10 * PI) /\ weighed_area G (32 * PI).
Proof.
  intros F G. assert (U : unit_vec (V2 1 0)) by (unfold unit_vec; cbn; lra). assert (B : 1 = 1 \/ 1 = -1) by now left.
  assert (W : forall r x, 0 < r -> ~ on_path (ex_ring r) x -> ProofWinding6.wn (ex_ring r) x = if Rlt_dec (dist x (V2 0 0)) r then 1%Z else 0%Z) by (intros; apply disc_wn; auto).
  assert (A : forall r, 0 < r -> area (ex_ring r) = Ret (1 * (PI * (r * r)))) by (intros; apply disc_area; auto).
  split; [|split; [|split]].
  - intros e I. cbn in I. destruct I as [<-|[<-|[<-|[]]]]; (split; [apply disc_loop|apply disc_ok; auto; lra]).
  - intros x v w O Hv Hw. rewrite (proj1 (weighed_wn _ _ _) Hv), (proj1 (weighed_wn _ _ _) Hw). unfold combo_wn, F, G, ProofWinding7.zsum. cbn [map fst snd fold_right].
    rewrite !W; try lra; [|apply (O (2%Z, ex_ring 4)); cbn; auto|apply (O (1%Z, ex_ring 1)); cbn; auto|apply (O (1%Z, ex_ring 3)); cbn; auto].
    repeat destruct Rlt_dec; lia || lra.
  - exists [1 * (PI * (3 * 3)); 1 * (PI * (1 * 1))]. split; [repeat constructor; apply A; lra|]. unfold F, G. cbn [combine map fold_right fst snd]. lra.
  - exists [1 * (PI * (4 * 4))]. split; [repeat constructor; apply A; lra|]. unfold F, G. cbn [combine map fold_right fst snd]. lra.
Qed.
