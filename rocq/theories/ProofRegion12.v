(** Two triangles that cross (C51). *)
From Coq Require Import Reals ZArith Bool List Arith Lra Lia Psatz.
From Verif Require Import Num RNum Res ModelMath ModelSeg ModelPline ModelView ModelIndex ModelIntr ModelSegIntr ModelIntersects ModelBoolean.
From Verif Require Import Spec SpecPline SpecGeom SpecBox SpecIntr SpecWinding SpecView SpecPruneR SpecStitch SpecPrune SpecRegion SpecBoolean SpecIndex SpecIntersects.
From Verif Require Import ProofR ProofBase ProofIter ProofArc ProofIntr ProofIndex2 ProofWinding6 ProofRegion11.
Import ListNotations.
Local Open Scope R_scope.

Definition tri1 : pline R := PL [Vtx 0 0 0; Vtx 6 0 0; Vtx 0 6 0] true.
Definition tri2 : pline R := PL [Vtx (-2) 1 0; Vtx 2 1 0; Vtx (-2) 3 0] true.
Definition tri_eps : R := 1 / 100000.
Definition tri_cross : list (basic_intr R) := [BI 2 0 (V2 0 1); BI 2 1 (V2 0 2)].

Lemma zero_line x y : bulge_is_zero (Vtx x y 0) = true.
Proof. unfold bulge_is_zero. cbn. rewrite Rabs_R0. apply rltb_true. lra. Qed.

Lemma tri_clear : clear_pline tri_eps tri1 /\ clear_pline tri_eps tri2.
Proof.
  unfold tri_eps. split; intros v1 v2 H; simpl in H;
    repeat (destruct H as [H|H]; [injection H as <- <-; split; [split; [left; reflexivity|intros E; now destruct E]|cbn [px py]]|]);
      try contradiction.
  all: first [left; rabs_lra|right; rabs_lra].
Qed.

Lemma tri_simple : simple_loop tri1 CounterClockwise /\ simple_loop tri2 CounterClockwise.
Proof.
  split; (split; [unfold orientation, area, tri1, tri2; cbn [is_closed negb]; rewrite iter_segments_spec; cbn [rbind spec_segs];
    cbn -[bulge_is_zero]; rewrite !zero_line; cbn; rewrite (proj2 (rltb_false _ _)) by lra; reflexivity|]).
  all: intros x w N; unfold winding_number; rewrite iter_segments_spec; unfold tri1, tri2; cbn -[bulge_is_zero process_line_winding]; rewrite !zero_line;
    intros [= <-]; unfold process_line_winding, is_left, is_left_or_equal, v2perp_dot, v2sub, pos; cbn.
  all: destruct x as [x y]; cbn [vx vy]; rcases; auto; exfalso; try lra.
Qed.

Lemma lines_cross v1 v2 u1 u2 s t : tri_eps <= Rabs (cross (vec v1 v2) (vec u1 u2)) -> line_pt v1 v2 s = line_pt u1 u2 t ->
  0 <= s <= 1 -> 0 <= t <= 1 -> line_line_intr v1 v2 u1 u2 tri_eps = LLTrueIntersect s t.
Proof.
  intros C E Hs Ht. assert (P : 0 < tri_eps) by (unfold tri_eps; lra).
  destruct (line_line_nonparallel v1 v2 u1 u2 tri_eps P C) as (s' & t' & _ & U & [(_ & ->)|(N & _)]).
  - destruct (U s t E) as (-> & ->). reflexivity.
  - destruct (U s t E) as (-> & ->). exfalso. apply N. unfold in_range.
    assert (D : forall a b, 0 <= dist a b) by (intros; unfold dist; apply sqrt_pos). pose proof (D v1 v2). pose proof (D u1 u2). split; nra.
Qed.

Lemma lines_miss v1 v2 u1 u2 s t : tri_eps <= Rabs (cross (vec v1 v2) (vec u1 u2)) -> line_pt v1 v2 s = line_pt u1 u2 t ->
  1 <= dist u1 u2 -> t <= - 1 / 2 \/ 3 / 2 <= t -> line_line_intr v1 v2 u1 u2 tri_eps = LLFalseIntersect s t.
Proof.
  intros C E D Ht. assert (P : 0 < tri_eps) by (unfold tri_eps; lra).
  destruct (line_line_nonparallel v1 v2 u1 u2 tri_eps P C) as (s' & t' & _ & U & [((_ & N) & _)|(_ & ->)]).
  - destruct (U s t E) as (-> & ->). exfalso. unfold in_range, tri_eps in N. destruct Ht; nra.
  - destruct (U s t E) as (-> & ->). reflexivity.
Qed.

Lemma far_apart a b : 1 <= (vx b - vx a) * (vx b - vx a) + (vy b - vy a) * (vy b - vy a) -> 1 <= dist a b.
Proof. intros H. unfold dist. rewrite <- sqrt_1. apply sqrt_le_1; try lra. Qed.

Ltac pt := unfold line_pt, pos; cbn [px py vx vy]; f_equal; lra.
Ltac crossing := unfold tri_eps, cross, vec, pos; cbn [px py vx vy]; rabs_lra.

Lemma seg20 : pline_seg_intr (Vtx 0 6 0) (Vtx 0 0 0) (Vtx (-2) 1 0) (Vtx 2 1 0) tri_eps = SIOne (V2 0 1).
Proof.
  unfold pline_seg_intr. rewrite !zero_line. cbn [andb]. rewrite (lines_cross _ _ _ _ (5 / 6) (1 / 2)); [|crossing|pt|lra|lra].
  f_equal. unfold point_from_parametric, v2add, v2scale, v2sub, pos. cbn. f_equal; lra.
Qed.
Lemma seg21 : pline_seg_intr (Vtx 0 6 0) (Vtx 0 0 0) (Vtx 2 1 0) (Vtx (-2) 3 0) tri_eps = SIOne (V2 0 2).
Proof.
  unfold pline_seg_intr. rewrite !zero_line. cbn [andb]. rewrite (lines_cross _ _ _ _ (2 / 3) (1 / 2)); [|crossing|pt|lra|lra].
  f_equal. unfold point_from_parametric, v2add, v2scale, v2sub, pos. cbn. f_equal; lra.
Qed.
Lemma seg10 : pline_seg_intr (Vtx 6 0 0) (Vtx 0 6 0) (Vtx (-2) 1 0) (Vtx 2 1 0) tri_eps = SINoIntersect.
Proof.
  unfold pline_seg_intr. rewrite !zero_line. cbn [andb].
  rewrite (lines_miss _ _ _ _ (1 / 6) (7 / 4)); [reflexivity|crossing|pt| |lra]. apply far_apart. unfold pos. cbn. lra.
Qed.
Lemma seg11 : pline_seg_intr (Vtx 6 0 0) (Vtx 0 6 0) (Vtx 2 1 0) (Vtx (-2) 3 0) tri_eps = SINoIntersect.
Proof.
  unfold pline_seg_intr. rewrite !zero_line. cbn [andb].
  rewrite (lines_miss _ _ _ _ (- 1 / 3) (- 3 / 2)); [reflexivity|crossing|pt| |lra]. apply far_apart. unfold pos. cbn. lra.
Qed.

Definition tri_boxes : list (aabb R) := map (fun s => seg_fast_approx_bounding_box (fst s) (snd s)) (spec_segs (vtx tri1) (is_closed tri1)).

Lemma box_line x y x' y' : seg_fast_approx_bounding_box (Vtx x y 0) (Vtx x' y' 0) = AABB (Rmin x x') (Rmin y y') (Rmax x x') (Rmax y y').
Proof.
  unfold seg_fast_approx_bounding_box. rewrite zero_line. unfold min_max. cbn. unfold Rmin, Rmax. rcases; repeat destruct (Rle_dec _ _); try lra; f_equal; lra.
Qed.

Lemma box_apart a q : bmax_x q < bmin_x a \/ bmax_y q < bmin_y a \/ bmax_x a < bmin_x q \/ bmax_y a < bmin_y q -> aabb_overlaps a q = false.
Proof. unfold aabb_overlaps. cbn. intros H. rcases; cbn; auto; lra. Qed.
Lemma box_meets a q : bmin_x a <= bmax_x q -> bmin_y a <= bmax_y q -> bmin_x q <= bmax_x a -> bmin_y q <= bmax_y a -> aabb_overlaps a q = true.
Proof. unfold aabb_overlaps. cbn. intros. rcases; cbn; auto; lra. Qed.

Ltac minmax := unfold tri_eps, Rmin, Rmax; cbn; repeat destruct (Rle_dec _ _); lra.

Lemma query0 : ix_query (list_index tri_boxes) (aabb_grow (seg_fast_approx_bounding_box (Vtx (-2) 1 0) (Vtx 2 1 0)) tri_eps) = [1; 2]%nat.
Proof.
  unfold tri_boxes, list_index. cbn [ix_query spec_segs vtx is_closed tri1 map fst snd tl combine app seq length filter]. cbn -[seg_fast_approx_bounding_box aabb_overlaps aabb_grow].
  rewrite !box_line. rewrite box_apart by minmax. rewrite box_meets by minmax. rewrite box_meets by minmax. reflexivity.
Qed.
Lemma query1 : ix_query (list_index tri_boxes) (aabb_grow (seg_fast_approx_bounding_box (Vtx 2 1 0) (Vtx (-2) 3 0)) tri_eps) = [1; 2]%nat.
Proof.
  unfold tri_boxes, list_index. cbn [ix_query spec_segs vtx is_closed tri1 map fst snd tl combine app seq length filter]. cbn -[seg_fast_approx_bounding_box aabb_overlaps aabb_grow].
  rewrite !box_line. rewrite box_apart by minmax. rewrite box_meets by minmax. rewrite box_meets by minmax. reflexivity.
Qed.
Lemma query2 : ix_query (list_index tri_boxes) (aabb_grow (seg_fast_approx_bounding_box (Vtx (-2) 3 0) (Vtx (-2) 1 0)) tri_eps) = [].
Proof.
  unfold tri_boxes, list_index. cbn [ix_query spec_segs vtx is_closed tri1 map fst snd tl combine app seq length filter]. cbn -[seg_fast_approx_bounding_box aabb_overlaps aabb_grow].
  rewrite !box_line. rewrite box_apart by minmax. rewrite box_apart by minmax. rewrite box_apart by minmax. reflexivity.
Qed.

Lemma apart_false x y x' y' : tri_eps < Rabs (x - x') \/ tri_eps < Rabs (y - y') -> v2fuzzy_eq_eps (V2 x y) (V2 x' y') tri_eps = false.
Proof. unfold v2fuzzy_eq_eps, fuzzy_eq_eps. cbn. intros [H|H]; rcases; cbn; auto; lra. Qed.

Lemma tri_find : find_intersects tri1 tri2 (list_index tri_boxes) tri_eps = Ret (tri_cross, []).
Proof.
  pose proof query0 as Q0. pose proof query1 as Q1. pose proof query2 as Q2. set (ix := list_index tri_boxes) in *. clearbody ix.
  unfold find_intersects. cbn [vertex_count tri1 tri2 vtx length Nat.ltb Nat.leb orb].
  unfold iter_segment_indexes. cbn -[find_intersects_seg].
  unfold find_intersects_seg. cbn -[ix_query seg_fast_approx_bounding_box aabb_grow find_intersects_hit].
  fold tri1 tri2. unfold pos. cbn [px py]. rewrite Q0, Q1, Q2.
  cbn [rfold rbind]. unfold find_intersects_hit. cbn -[pline_seg_intr v2fuzzy_eq_eps]. rewrite seg10, seg20, seg11, seg21. cbn -[v2fuzzy_eq_eps].
  unfold pos. cbn [px py]. rewrite !apart_false by (unfold tri_eps; first [left; rabs_lra|right; rabs_lra]). cbn. reflexivity.
Qed.

Lemma tri_lines p k v t u : p = tri1 \/ p = tri2 -> nth_error (vtx p) k = Some v -> part_ok v t u.
Proof.
  intros [-> | ->] E; apply nth_error_In in E; simpl in E; left; repeat (destruct E as [E|E]; [subst v; reflexivity|]); destruct E.
Qed.

Lemma at_line x y x' y' t q : seg_at (Vtx x y 0) (Vtx x' y' 0) t q -> vx q = x + t * (x' - x) /\ vy q = y + t * (y' - y).
Proof.
  intros H. apply seg_at_line in H; [|reflexivity]. subst q. unfold line_pt, pos. cbn. split; reflexivity.
Qed.

Ltac placing t0 := exists t0; split; [|intros v; apply tri_lines; auto]; split; [lra|]; eexists _, _; split; [reflexivity|]; split; [lra|];
  left; split; [reflexivity|]; unfold line_pt, pos; cbn [px py vx vy sp_pos]; f_equal; lra.

Lemma tri_cuts : clear_cuts tri_eps tri1 (cut_points tri1 tri_eps false tri_cross []) /\ clear_cuts tri_eps tri2 (cut_points tri2 tri_eps true tri_cross []).
Proof.
  unfold tri_eps. split; split.
  - intros k sp H. split.
    + intros v Hv. cbn in H, Hv. destruct H as [[= <- <-]|[[= <- <-]|[]]]; destruct Hv as [<-|[<-|[<-|[]]]]; right; unfold pos; cbn [px py vx vy sp_pos];
        first [left; rabs_lra|right; rabs_lra].
    + cbn in H. destruct H as [[= <- <-]|[[= <- <-]|[]]]; [placing (5 / 6)|placing (2 / 3)].
  - intros k sp sp' H H'. split; [|intros t u v _ _ _; apply tri_lines; auto]. cbn in H, H'.
    destruct H as [[= <- <-]|[[= <- <-]|[]]]; destruct H' as [[=]|[[=]|[]]]; subst; unfold crisp; cbn [sp_pos vx vy];
      first [left; reflexivity|right; left; rabs_lra|right; right; rabs_lra].
  - intros k sp H. split.
    + intros v Hv. cbn in H, Hv. destruct H as [[= <- <-]|[[= <- <-]|[]]]; destruct Hv as [<-|[<-|[<-|[]]]]; right; unfold pos; cbn [px py vx vy sp_pos];
        first [left; rabs_lra|right; rabs_lra].
    + cbn in H. destruct H as [[= <- <-]|[[= <- <-]|[]]]; [placing (1 / 2)|placing (1 / 2)].
  - intros k sp sp' H H'. split; [|intros t u v _ _ _; apply tri_lines; auto]. cbn in H, H'.
    destruct H as [[= <- <-]|[[= <- <-]|[]]]; destruct H' as [[=]|[[=]|[]]]; subst; unfold crisp; cbn [sp_pos vx vy];
      first [left; reflexivity|right; left; rabs_lra|right; right; rabs_lra].
Qed.

Lemma same_v2 (q : vec2 R) x y : vx q = x -> vy q = y -> V2 x y = q.
Proof. destruct q. cbn. congruence. Qed.

Lemma tri_found : all_found tri1 tri2 (map (fun b => (bi_index1 b, bi_point b)) tri_cross)
  /\ all_found tri2 tri1 (map (fun b => (bi_index2 b, bi_point b)) tri_cross).
Proof.
  split; intros k t q Lt (a & b & E & Ht & At) (v1 & v2 & I & u & Hu & Au); cbn in I; cbn [map bi_index1 bi_index2 bi_point tri_cross];
  (destruct k as [|[|[|k]]]; cbn in E; [| | |destruct k; discriminate]); injection E as <- <-; apply at_line in At as (X & Y);
  destruct I as [[= <- <-]|[[= <- <-]|[[= <- <-]|[]]]]; apply at_line in Au as (X' & Y'); try (exfalso; lra).
  all: try (left; f_equal; apply same_v2; lra). all: right; left; f_equal; apply same_v2; lra.
Qed.

Lemma tri_clean : clean_crossing tri_eps tri1 tri2 tri_cross.
Proof.
  split; [apply tri_cuts|]. split; [apply tri_cuts|]. split; [intros k sp t v _ _ _; apply tri_lines; auto|]. split; [intros k sp t v _ _ _; apply tri_lines; auto|].
  split; [apply tri_found|]. split; [apply tri_found|].
  unfold tri_eps. intros b b' [<-|[<-|[]]] [<-|[<-|[]]]; cbn; first [left; reflexivity|right; right; rabs_lra].
Qed.

(** The two triangles are as assumed. *)
Lemma triangles : index_of tri_boxes (list_index tri_boxes) /\ length tri_boxes = length (spec_segs (vtx tri1) (is_closed tri1))
  /\ valid_loop tri1 /\ valid_loop tri2 /\ clear_pline tri_eps tri1 /\ clear_pline tri_eps tri2
  /\ simple_loop tri1 CounterClockwise /\ simple_loop tri2 CounterClockwise
  /\ find_intersects tri1 tri2 (list_index tri_boxes) tri_eps = Ret (tri_cross, []) /\ clean_crossing tri_eps tri1 tri2 tri_cross.
Proof.
  split; [apply list_index_ok|]. split; [reflexivity|]. split; [split; [cbn; lia|reflexivity]|]. split; [split; [cbn; lia|reflexivity]|].
  split; [apply tri_clear|]. split; [apply tri_clear|]. split; [apply tri_simple|]. split; [apply tri_simple|]. split; [exact tri_find|exact tri_clean].
Qed.

Lemma tri_inside x y : 0 < x -> 1 < y -> x + 2 * y < 4 -> inside tri1 (V2 x y) = true /\ inside tri2 (V2 x y) = true.
Proof.
  intros H1 H2 H3. unfold inside, winding_number. rewrite !iter_segments_spec. unfold tri1, tri2. cbn -[bulge_is_zero process_line_winding]. rewrite !zero_line.
  unfold process_line_winding, is_left, perp_dot_test_value, pos. cbn. split; rcases; cbn; auto; exfalso; lra.
Qed.

Lemma tri_off x y : 0 < x -> 1 < y -> x + 2 * y < 4 -> ~ on_path tri1 (V2 x y) /\ ~ on_path tri2 (V2 x y).
Proof.
  intros H1 H2 H3. split; intros (v1 & v2 & I & t & Ht & At); cbn in I;
  destruct I as [[= <- <-]|[[= <- <-]|[[= <- <-]|[]]]]; apply at_line in At as (X & Y); cbn in X, Y; lra.
Qed.

Lemma triangles_region op : exists r, polyline_boolean (@list_index R RNum) tri1 tri2 op (list_index tri_boxes) tri_eps = Ret r
  /\ forall x y, 0 < x -> 1 < y -> x + 2 * y < 4 ->
     wind_together (map brp_pline (br_pos r ++ br_neg r)) (V2 x y) (times_around op true true).
Proof.
  destruct triangles as (T1 & T2 & T3 & T4 & T5 & T6 & T7 & T8 & T9 & T10).
  destruct (region_crossing (@list_index R RNum) tri1 tri2 op _ tri_eps _ _ _ _ list_index_ok T1 T2 T3 T4 ltac:(unfold tri_eps; lra) T5 T6 T7 T8 T9 ltac:(discriminate) T10) as (r & E & _ & W).
  exists r. split; [exact E|]. intros x y H1 H2 H3. destruct (tri_off x y H1 H2 H3) as (N1 & N2). specialize (W _ N1 N2).
  destruct (tri_inside x y H1 H2 H3) as (I1 & I2). rewrite I1, I2 in W. cbn [once] in W. now rewrite Z.mul_1_l in W.
Qed.

(** Every way out of the first triangle meets it. *)
Lemma tri_way_out : winding_number tri1 (V2 1 1) = Ret 1%Z /\ winding_number tri1 (V2 7 7) = Ret 0%Z
  /\ forall x y, continuity x -> continuity y -> V2 (x 0) (y 0) = V2 1 1 -> V2 (x 1) (y 1) = V2 7 7 ->
     ~ forall t, 0 <= t <= 1 -> ~ on_path tri1 (V2 (x t) (y t)).
Proof.
  assert (W : winding_number tri1 (V2 1 1) = Ret 1%Z /\ winding_number tri1 (V2 7 7) = Ret 0%Z).
  { unfold winding_number. rewrite !iter_segments_spec. unfold tri1. cbn -[bulge_is_zero process_line_winding]. rewrite !zero_line.
    unfold process_line_winding, is_left, perp_dot_test_value, pos. cbn. split; rcases; cbn; auto; exfalso; lra. }
  destruct W as (W1 & W2). split; [exact W1|]. split; [exact W2|]. intros x y Cx Cy E0 E1 H.
  pose proof (winding_curve tri1 x y (clear_ok _ _ (proj1 tri_clear)) Cx Cy H) as E. rewrite E0, E1, W1, W2 in E. discriminate.
Qed.

Lemma triangles_op op : exists r, polyline_boolean (@list_index R RNum) tri1 tri2 op (list_index tri_boxes) tri_eps = Ret r
  /\ forall x y, 0 < x -> 1 < y -> x + 2 * y < 4 ->
     wind_together (map brp_pline (br_pos r ++ br_neg r)) (V2 x y) (match op with BOr | BAnd => 1 | BNot | BXor => 0 end)%Z.
Proof. destruct (triangles_region op) as (r & E & W). exists r. split; [exact E|]. destruct op; exact W. Qed.

Lemma times_operation op (in1 in2 : bool) : (times_around op in1 in2 <> 0%Z <-> operation op (in1 = true) (in2 = true))
  /\ (-1 <= times_around op in1 in2 <= 1)%Z.
Proof. destruct op, in1, in2; cbn; split; try lia; split; intuition (try discriminate; try lia). Qed.
