(** Moving the inputs moves the results: points, segments and the intersections of two segments. *)
From Coq Require Import Reals List Lra Lia Bool ZArith.
From Verif Require Import Num RNum Res ModelMath ModelIntr ModelSeg ModelSegIntr ModelPline SpecTranslate ProofR.
Import ListNotations.
Local Open Scope R_scope.

Lemma sub_sh a b c : (a + c) - (b + c) = a - b.
Proof. ring. Qed.
Lemma ltb_sh a b c : rltb (a + c) (b + c) = rltb a b.
Proof. destruct (rltb_spec (a + c) (b + c)), (rltb_spec a b); auto; lra. Qed.
Lemma leb_sh a b c : rleb (a + c) (b + c) = rleb a b.
Proof. destruct (rleb_spec (a + c) (b + c)), (rleb_spec a b); auto; lra. Qed.
Lemma eqb_sh a b c : reqb (a + c) (b + c) = reqb a b.
Proof. destruct (reqb_spec (a + c) (b + c)), (reqb_spec a b); auto; lra. Qed.
Lemma min_sh a b c : Rmin (a + c) (b + c) = Rmin a b + c.
Proof. unfold Rmin. destruct (Rle_dec (a + c) (b + c)), (Rle_dec a b); auto; lra. Qed.
Lemma max_sh a b c : Rmax (a + c) (b + c) = Rmax a b + c.
Proof. unfold Rmax. destruct (Rle_dec (a + c) (b + c)), (Rle_dec a b); auto; lra. Qed.
Lemma add_sh a b c : (a + c) + b = (a + b) + c.
Proof. ring. Qed.
Lemma sub_sh1 a b c : (a + c) - b = (a - b) + c.
Proof. ring. Qed.

Lemma V2_eq (a b c d : R) : a = c -> b = d -> V2 a b = V2 c d.
Proof. congruence. Qed.
Lemma Vtx_eq (a b c d e : R) : a = c -> b = d -> Vtx a b e = Vtx c d e.
Proof. congruence. Qed.

Section Tr.
Variables X Y : R.
Notation tv := (moved_point X Y).
Notation tV := (moved_vertex X Y).

Lemma tv_eta a : V2 (vx (tv a)) (vy (tv a)) = tv a.
Proof. reflexivity. Qed.
Lemma t_pos v : pos (tV v) = tv (pos v).
Proof. reflexivity. Qed.
Lemma t_bulge v : pbulge (tV v) = pbulge v.
Proof. reflexivity. Qed.
Lemma t_bz v : bulge_is_zero (tV v) = bulge_is_zero v.
Proof. reflexivity. Qed.
Lemma t_bp v : bulge_is_pos (tV v) = bulge_is_pos v.
Proof. reflexivity. Qed.
Lemma t_bn v : bulge_is_neg (tV v) = bulge_is_neg v.
Proof. reflexivity. Qed.
Lemma t_sub a b : v2sub (tv a) (tv b) = v2sub a b.
Proof. unfold v2sub, moved_point. rnum. rewrite !sub_sh. reflexivity. Qed.
Lemma t_add_l a b : v2add (tv a) b = tv (v2add a b).
Proof. unfold v2add, moved_point. rnum. apply V2_eq; ring. Qed.
Lemma t_add_r a b : v2add a (tv b) = tv (v2add a b).
Proof. unfold v2add, moved_point. rnum. apply V2_eq; ring. Qed.
Lemma t_sub_l a b : v2sub (tv a) b = tv (v2sub a b).
Proof. unfold v2sub, moved_point. rnum. apply V2_eq; ring. Qed.
Lemma t_fuzzy a b e : v2fuzzy_eq_eps (tv a) (tv b) e = v2fuzzy_eq_eps a b e.
Proof. unfold v2fuzzy_eq_eps, fuzzy_eq_eps, moved_point. rnum. rewrite !sub_sh. reflexivity. Qed.
Lemma t_fuzzy' a b : v2fuzzy_eq (tv a) (tv b) = v2fuzzy_eq a b.
Proof. unfold v2fuzzy_eq. apply t_fuzzy. Qed.
Lemma t_dist a b : dist_squared (tv a) (tv b) = dist_squared a b.
Proof. unfold dist_squared. rewrite t_sub. reflexivity. Qed.
Lemma t_angle a b : angle (tv a) (tv b) = angle a b.
Proof. unfold angle, moved_point. rnum. rewrite !sub_sh. reflexivity. Qed.
Lemma t_mid a b : midpoint (tv a) (tv b) = tv (midpoint a b).
Proof. unfold midpoint, moved_point. rnum. apply V2_eq; lra. Qed.
Lemma t_on_circle r c t : point_on_circle r (tv c) t = tv (point_on_circle r c t).
Proof. unfold point_on_circle, moved_point. rnum. apply V2_eq; ring. Qed.
Lemma t_param a b t : point_from_parametric (tv a) (tv b) t = tv (point_from_parametric a b t).
Proof. unfold point_from_parametric. rewrite t_sub, t_add_l. reflexivity. Qed.
Lemma t_from a b q e : parametric_from_point (tv a) (tv b) (tv q) e = parametric_from_point a b q e.
Proof. unfold parametric_from_point, moved_point. rnum. rewrite !sub_sh. reflexivity. Qed.
Lemma t_line_closest a b q : line_seg_closest_point (tv a) (tv b) (tv q) = tv (line_seg_closest_point a b q).
Proof.
  unfold line_seg_closest_point. rewrite !t_sub.
  destruct (nltb _ _); [reflexivity |]. destruct (nltb _ _); [reflexivity |]. apply t_add_l.
Qed.
Lemma t_perp a b q : perp_dot_test_value (tv a) (tv b) (tv q) = perp_dot_test_value a b q.
Proof. unfold perp_dot_test_value, moved_point. rnum. rewrite !sub_sh. reflexivity. Qed.
Lemma t_left a b q : is_left (tv a) (tv b) (tv q) = is_left a b q.
Proof. unfold is_left. rewrite t_perp. reflexivity. Qed.
Lemma t_left_eq a b q : is_left_or_equal (tv a) (tv b) (tv q) = is_left_or_equal a b q.
Proof. unfold is_left_or_equal. rewrite t_perp. reflexivity. Qed.
Lemma t_sweep c a b w q e :
  point_within_arc_sweep (tv c) (tv a) (tv b) w (tv q) e = point_within_arc_sweep c a b w q e.
Proof.
  unfold point_within_arc_sweep, is_right_or_coincident_eps, is_left_or_coincident_eps.
  rewrite !t_perp. reflexivity.
Qed.

Lemma t_line_line a b c d e : line_line_intr (tv a) (tv b) (tv c) (tv d) e = line_line_intr a b c d e.
Proof. unfold line_line_intr. rewrite !t_sub, !t_fuzzy, !t_from. reflexivity. Qed.

Lemma t_line_circle a b r c e : line_circle_intr (tv a) (tv b) r (tv c) e = line_circle_intr a b r c e.
Proof.
  unfold line_circle_intr. rewrite !t_sub, !t_fuzzy.
  replace (vx (tv b) - vx (tv a))%num with (vx b - vx a)%num by (cbn; ring).
  replace (vy (tv b) - vy (tv a))%num with (vy b - vy a)%num by (cbn; ring).
  replace ((vx (tv a) + vx (tv b)) / ntwo - vx (tv c))%num with ((vx a + vx b) / ntwo - vx c)%num
    by (cbn; lra).
  replace ((vy (tv a) + vy (tv b)) / ntwo - vy (tv c))%num with ((vy a + vy b) / ntwo - vy c)%num
    by (cbn; lra).
  destruct (v2fuzzy_eq_eps a b e); [reflexivity |].
  set (A := v2sub a c). set (B := v2sub b c).
  destruct (if fuzzy_eq_zero (vx b - vx a)%num then _ else _) as [[p q] s].
  destruct (nltb _ _); [reflexivity |].
  set (w := (p * p + q * q)%num).
  assert (P : forall x y, V2 (x + vx (tv c))%num (y + vy (tv c))%num = tv (V2 (x + vx c) (y + vy c))%num).
  { intros x y. unfold moved_point. rnum. apply V2_eq; ring. }
  rewrite P, t_from.
  destruct (fuzzy_eq_eps _ _ _); [reflexivity |].
  set (m := nsqrt _).
  assert (P1 : forall x y u v, V2 (x + vx (tv c) + u)%num (y + vy (tv c) - v)%num
                               = tv (V2 (x + vx c + u) (y + vy c - v))%num).
  { intros x y u v. unfold moved_point. rnum. apply V2_eq; ring. }
  assert (P2 : forall x y u v, V2 (x + vx (tv c) - u)%num (y + vy (tv c) + v)%num
                               = tv (V2 (x + vx c - u) (y + vy c + v))%num).
  { intros x y u v. unfold moved_point. rnum. apply V2_eq; ring. }
  rewrite P1, P2, !t_from. reflexivity.
Qed.

Definition t_cc (r : circle_circle_result R) : circle_circle_result R :=
  match r with
  | CCNoIntersect => CCNoIntersect
  | CCTangentIntersect a => CCTangentIntersect (tv a)
  | CCTwoIntersects a b => CCTwoIntersects (tv a) (tv b)
  | CCOverlapping => CCOverlapping
  end.

Lemma t_circles r c s d e : circle_circle_intr r (tv c) s (tv d) e = t_cc (circle_circle_intr r c s d e).
Proof.
  unfold circle_circle_intr. rewrite !t_sub, t_add_l.
  destruct (fuzzy_eq_zero_eps _ _). { destruct (fuzzy_eq_eps _ _ _); reflexivity. }
  destruct (_ || _); [reflexivity |].
  destruct (nltb _ _); [reflexivity |].
  set (m := v2add c _). set (h := (nsqrt _ / _)%num). set (cv := v2sub d c).
  replace (V2 (vx (tv m) + h * vy cv) (vy (tv m) - h * vx cv))%num
    with (tv (V2 (vx m + h * vy cv) (vy m - h * vx cv))%num)
    by (unfold moved_point; rnum; apply V2_eq; ring).
  replace (V2 (vx (tv m) - h * vy cv) (vy (tv m) + h * vx cv))%num
    with (tv (V2 (vx m - h * vy cv) (vy m + h * vx cv))%num)
    by (unfold moved_point; rnum; apply V2_eq; ring).
  rewrite t_fuzzy. destruct (v2fuzzy_eq_eps _ _ _); reflexivity.
Qed.

(** ** Segments *)
Lemma t_rc v u : seg_arc_radius_and_center (tV v) (tV u)
  = (fst (seg_arc_radius_and_center v u), tv (snd (seg_arc_radius_and_center v u))).
Proof.
  unfold seg_arc_radius_and_center. rewrite !t_pos, t_sub, t_bulge, t_bn.
  destruct (bulge_is_neg v); cbn [fst snd]; f_equal; unfold moved_point, moved_vertex; cbn [px py]; rnum;
    apply V2_eq; ring.
Qed.

Lemma t_split v u q e : seg_split_at_point (tV v) (tV u) (tv q) e = moved_split X Y (seg_split_at_point v u q e).
Proof.
  unfold seg_split_at_point. rewrite !t_pos, !t_fuzzy, t_bz, t_bn, t_rc.
  destruct (bulge_is_zero v); [reflexivity |].
  destruct (_ || _); [reflexivity |].
  destruct (v2fuzzy_eq_eps _ _ _); [reflexivity |].
  destruct (seg_arc_radius_and_center v u) as [r c]. cbn [fst snd].
  rewrite !t_angle. reflexivity.
Qed.

Lemma t_tangent v u q : seg_tangent_vector (tV v) (tV u) (tv q) = seg_tangent_vector v u q.
Proof.
  unfold seg_tangent_vector. rewrite !t_pos, t_sub, t_bz, t_bp, t_rc.
  destruct (bulge_is_zero v); [reflexivity |].
  destruct (seg_arc_radius_and_center v u) as [r c]. cbn [fst snd].
  unfold moved_point. rnum. rewrite !sub_sh. reflexivity.
Qed.

Lemma t_closest v u q e : seg_closest_point (tV v) (tV u) (tv q) e = tv (seg_closest_point v u q e).
Proof.
  unfold seg_closest_point. rewrite !t_pos, t_bz, t_bn, t_rc, t_line_closest, !t_dist.
  destruct (bulge_is_zero v); [reflexivity |].
  destruct (seg_arc_radius_and_center v u) as [r c]. cbn [fst snd].
  rewrite t_fuzzy, t_sweep, t_sub, t_add_r.
  destruct (v2fuzzy_eq_eps _ _ _); [reflexivity |].
  destruct (point_within_arc_sweep _ _ _ _ _ _); [reflexivity |].
  destruct (nltb _ _); reflexivity.
Qed.

Lemma t_minmax a b c : min_max (a + c) (b + c) = (fst (min_max a b) + c, snd (min_max a b) + c).
Proof. unfold min_max. rnum. rewrite ltb_sh. destruct (rltb _ _); reflexivity. Qed.

Lemma t_minmax2 a b c o :
  min_max (a + c + o) (b + c + o) = (fst (min_max (a + o) (b + o)) + c, snd (min_max (a + o) (b + o)) + c).
Proof.
  replace (a + c + o) with (a + o + c) by ring. replace (b + c + o) with (b + o + c) by ring. apply t_minmax.
Qed.

Lemma t_fast_box v u : seg_fast_approx_bounding_box (tV v) (tV u) = moved_box X Y (seg_fast_approx_bounding_box v u).
Proof.
  unfold seg_fast_approx_bounding_box. rewrite t_bz, t_bulge.
  unfold moved_vertex. cbn [px py pbulge]. rnum.
  rewrite !sub_sh, !t_minmax2.
  rewrite (t_minmax (px v) (px u)), (t_minmax (py v) (py u)).
  destruct (bulge_is_zero v).
  { destruct (min_max (px v) (px u)), (min_max (py v) (py u)). reflexivity. }
  destruct (min_max (px v) (px u)), (min_max (py v) (py u)).
  destruct (min_max (_ + _) _) as [a b], (min_max (_ + _) _) as [a' b']. cbn [fst snd].
  unfold moved_box. cbn [bmin_x bmin_y bmax_x bmax_y].
  rewrite !min_sh, !max_sh. reflexivity.
Qed.

Lemma t_arc_box v u : arc_seg_bounding_box (tV v) (tV u) = moved_box X Y (arc_seg_bounding_box v u).
Proof.
  unfold arc_seg_bounding_box. rewrite !t_pos, t_fuzzy', t_bn, t_rc.
  destruct (v2fuzzy_eq _ _); [reflexivity |].
  destruct (seg_arc_radius_and_center v u) as [r c]. cbn [fst snd]. rewrite !t_angle.
  unfold moved_box. cbn [bmin_x bmin_y bmax_x bmax_y].
  f_equal; destruct (angle_is_within_sweep _ _ _); unfold moved_vertex, moved_point; cbn [px py]; rnum;
    rewrite ?min_sh, ?max_sh; ring.
Qed.

Lemma t_box v u : seg_bounding_box (tV v) (tV u) = moved_box X Y (seg_bounding_box v u).
Proof.
  unfold seg_bounding_box. rewrite t_bz, t_arc_box.
  destruct (bulge_is_zero v); [| reflexivity].
  unfold moved_vertex. cbn [px py]. rewrite !t_minmax.
  destruct (min_max (px v) (px u)), (min_max (py v) (py u)). reflexivity.
Qed.

Lemma t_midp v u : seg_midpoint (tV v) (tV u) = tv (seg_midpoint v u).
Proof.
  unfold seg_midpoint. rewrite !t_pos, t_bz, t_bn, t_rc, t_mid.
  destruct (bulge_is_zero v); [reflexivity |].
  destruct (seg_arc_radius_and_center v u) as [r c]. cbn [fst snd].
  rewrite !t_angle, t_on_circle. reflexivity.
Qed.

(** ** Intersections of two segments *)
Lemma t_on_arc r c a1 a2 e q :
  point_lies_on_arc r (tv c) (tV a1) (tV a2) e (tv q) = point_lies_on_arc r c a1 a2 e q.
Proof. unfold point_lies_on_arc. rewrite !t_pos, t_bn, t_sweep, t_dist. reflexivity. Qed.

Lemma t_in_sweep p0 p1 c a1 a2 e t :
  point_in_sweep (tv p0) (tv p1) (tv c) (tV a1) (tV a2) e t
  = option_map tv (point_in_sweep p0 p1 c a1 a2 e t).
Proof.
  unfold point_in_sweep. rewrite !t_pos, t_bn, t_param, t_sweep, t_sub.
  destruct (negb _); [reflexivity |]. destruct (point_within_arc_sweep _ _ _ _ _ _); reflexivity.
Qed.

Lemma t_line_arc p0 p1 a1 a2 w e :
  line_arc_intr (tv p0) (tv p1) (tV a1) (tV a2) w e = moved_intr X Y (line_arc_intr p0 p1 a1 a2 w e).
Proof.
  unfold line_arc_intr. rewrite t_rc. destruct (seg_arc_radius_and_center a1 a2) as [r c]. cbn [fst snd].
  rewrite t_line_circle. destruct (line_circle_intr _ _ _ _ _) as [| t0 | t0 t1]; [reflexivity | |].
  - rewrite !t_on_arc, t_in_sweep.
    destruct (point_lies_on_arc r c a1 a2 e p0); [reflexivity |].
    destruct (point_lies_on_arc r c a1 a2 e p1); [reflexivity |].
    destruct (point_in_sweep _ _ _ _ _ _ _); reflexivity.
  - rewrite !t_on_arc, !t_in_sweep, !t_pos.
    destruct (point_in_sweep p0 p1 c a1 a2 e t0) as [u |], (point_in_sweep p0 p1 c a1 a2 e t1) as [u' |];
      cbn [option_map]; try reflexivity.
    2, 3: destruct (point_lies_on_arc r c a1 a2 e p0); [reflexivity |];
      destruct (point_lies_on_arc r c a1 a2 e p1); reflexivity.
    rewrite !t_dist.
    destruct (point_lies_on_arc r c a1 a2 e p0), (point_lies_on_arc r c a1 a2 e p1);
      repeat match goal with
      | |- context [if nltb ?a ?b then (_, _) else _] => destruct (nltb a b)
      end; rewrite !t_dist; destruct (_ || _); reflexivity.
Qed.

Lemma t_two v1 v2 u1 u2 e r1 c1 r2 c2 q1 q2 :
  arc_arc_two (tV v1) (tV v2) (tV u1) (tV u2) e r1 (tv c1) r2 (tv c2) (tv q1) (tv q2)
  = moved_intr X Y (arc_arc_two v1 v2 u1 u2 e r1 c1 r2 c2 q1 q2).
Proof.
  unfold arc_arc_two. rewrite !t_pos, !t_on_arc, !t_bn, !t_sweep.
  generalize (point_within_arc_sweep c1 (pos v1) (pos v2) (bulge_is_neg v1) q1 e
              && point_within_arc_sweep c2 (pos u1) (pos u2) (bulge_is_neg u1) q1 e)%bool.
  generalize (point_within_arc_sweep c1 (pos v1) (pos v2) (bulge_is_neg v1) q2 e
              && point_within_arc_sweep c2 (pos u1) (pos u2) (bulge_is_neg u1) q2 e)%bool.
  intros i2 i1.
  destruct (point_lies_on_arc r1 c1 v1 v2 e (pos u1)), (point_lies_on_arc r1 c1 v1 v2 e (pos u2)),
    (point_lies_on_arc r2 c2 u1 u2 e (pos v1)), (point_lies_on_arc r2 c2 u1 u2 e (pos v2));
    unfold try_add_end_point;
    repeat (rewrite ?t_fuzzy;
            match goal with |- context [v2fuzzy_eq_eps ?a ?b e] => destruct (v2fuzzy_eq_eps a b e) end);
    rewrite ?t_dist;
    destruct i1, i2; cbn [andb]; try reflexivity;
    match goal with |- context [nltb ?a ?b] => destruct (nltb a b) end; reflexivity.
Qed.

Lemma t_overlap v1 v2 u1 u2 e r1 c1 r2 c2 :
  arc_arc_overlap (tV v1) (tV v2) (tV u1) (tV u2) e r1 (tv c1) r2 (tv c2)
  = moved_intr X Y (arc_arc_overlap v1 v2 u1 u2 e r1 c1 r2 c2).
Proof.
  unfold arc_arc_overlap. rewrite !t_pos, !t_bn, !t_angle, !t_bulge.
  destruct (if Bool.eqb _ _ then (_, _) else _) as [s2 w2].
  destruct (fuzzy_eq_zero_eps _ _), (fuzzy_eq_zero_eps _ _); try reflexivity.
  destruct (angle_is_within_sweep s2 _ _), (angle_is_within_sweep (s2 + w2)%num _ _); cbn [andb];
    try reflexivity; destruct (Bool.eqb _ _); try reflexivity;
    destruct (angle_is_within_sweep _ s2 _); reflexivity.
Qed.

Lemma t_arc_arc v1 v2 u1 u2 e :
  arc_arc_intr (tV v1) (tV v2) (tV u1) (tV u2) e = moved_intr X Y (arc_arc_intr v1 v2 u1 u2 e).
Proof.
  unfold arc_arc_intr. rewrite !t_rc.
  destruct (seg_arc_radius_and_center v1 v2) as [r1 c1], (seg_arc_radius_and_center u1 u2) as [r2 c2].
  cbn [fst snd]. rewrite t_circles. destruct (circle_circle_intr _ _ _ _ _) as [| q | q1 q2 |]; cbn [t_cc].
  - reflexivity.
  - rewrite !t_pos, !t_on_arc, !t_bn, !t_sweep.
    repeat match goal with |- context [if ?b then _ else _] => destruct b; [reflexivity |] end. reflexivity.
  - apply t_two.
  - apply t_overlap.
Qed.

Lemma t_seg_intr v1 v2 u1 u2 e :
  pline_seg_intr (tV v1) (tV v2) (tV u1) (tV u2) e = moved_intr X Y (pline_seg_intr v1 v2 u1 u2 e).
Proof.
  unfold pline_seg_intr. rewrite !t_bz, !t_pos, t_line_line, !t_line_arc, t_arc_arc.
  destruct (bulge_is_zero v1), (bulge_is_zero u1); cbn [andb]; try reflexivity.
  destruct (line_line_intr _ _ _ _ _); cbn [moved_intr]; rewrite ?t_param; reflexivity.
Qed.
End Tr.
