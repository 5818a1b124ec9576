(** Moving the polyline moves the results of the editing functions. *)
From Coq Require Import Reals List Lra Lia Bool ZArith Arith.
From Verif Require Import Num RNum Res ModelMath ModelSeg ModelPline ModelRedundant SpecTranslate ProofR ProofTranslate ProofTranslate2.
Import ListNotations.
Local Open Scope R_scope.

Section Tr.
Variables X Y : R.
Notation tv := (moved_point X Y).
Notation tV := (moved_vertex X Y).
Notation tp := (moved X Y).
Notation to := (option_map (moved X Y)).

Lemma t_pl l c : PL (map tV l) c = tp (PL l c).
Proof. reflexivity. Qed.
Lemma t_first n p : PL (firstn n (vtx (tp p))) (is_closed (tp p)) = tp (PL (firstn n (vtx p)) (is_closed p)).
Proof. unfold moved. cbn [vtx is_closed]. rewrite firstn_map. reflexivity. Qed.

Lemma t_repeat_loop src c e i l q r :
  remove_repeat_pos_loop (map tV src) c e i (map tV l) (tv q) (to r) = rmap to (remove_repeat_pos_loop src c e i l q r).
Proof.
  revert i q r. induction l as [| v t IH]; intros i q r; [reflexivity |]. cbn [map remove_repeat_pos_loop].
  rewrite t_pos, t_fuzzy. destruct (v2fuzzy_eq_eps _ _ _).
  - replace (match to r with Some a => a | None => PL (firstn i (map tV src)) c end)
      with (tp (match r with Some a => a | None => PL (firstn i src) c end))
      by (destruct r; cbn [option_map]; [reflexivity | rewrite firstn_map; reflexivity]).
    eapply rmap_bind; [apply t_last |]. intros lo. eapply rmap_bind; [apply t_unwrap |]. intros la.
    rewrite t_bulge, t_with. eapply rmap_bind; [apply t_set_last |]. intros r'. apply (IH _ q (Some r')).
  - destruct r as [a |]; cbn [option_map]; [rewrite t_addv; apply (IH _ _ (Some (add_vertex a v))) | apply (IH _ _ None)].
Qed.
Lemma t_repeat p e : remove_repeat_pos (tp p) e = rmap to (remove_repeat_pos p e).
Proof.
  unfold remove_repeat_pos. rewrite t_vc. destruct (_ <? _)%nat; [reflexivity |].
  eapply rmap_bind; [apply t_at |]. intros v0. rewrite !t_closed. change (vtx (tp p)) with (map tV (vtx p)). rewrite skipn_map, !t_pos.
  eapply rmap_bind; [apply (t_repeat_loop _ _ _ _ _ _ None) |]. intros r. destruct (is_closed p) eqn:C; [| reflexivity].
  eapply rmap_bind; [apply t_last |]. intros lo. eapply rmap_bind; [apply t_unwrap |]. intros la.
  rewrite t_pos, t_fuzzy. destruct (v2fuzzy_eq_eps _ _ _); [| reflexivity].
  replace (match to r with Some a => a | None => PL (map tV (vtx p)) true end) with (tp (match r with Some a => a | None => PL (vtx p) true end))
    by (destruct r; reflexivity).
  eapply rmap_bind; [apply t_remove_last |]. reflexivity.
Qed.

Lemma t_wrap p i : wrapping_vertexes_starting_at (tp p) i = map tV (wrapping_vertexes_starting_at p i).
Proof.
  unfold wrapping_vertexes_starting_at. rewrite t_vc, map_app. change (vtx (tp p)) with (map tV (vtx p)).
  rewrite skipn_map, !firstn_map. reflexivity.
Qed.
Lemma t_rotate p i q e : rotate_start (tp p) i (tv q) e = rmap to (rotate_start p i q e).
Proof.
  unfold rotate_start. rewrite t_vc, t_closed. destruct (_ || _); [reflexivity |].
  eapply rmap_bind; [apply t_at |]. intros v. rewrite t_pos, t_fuzzy, !t_wrap, !t_next. destruct (v2fuzzy_eq_eps _ _ _); [reflexivity |].
  eapply rmap_bind; [apply t_at |]. intros u. rewrite t_pos, t_fuzzy. destruct (v2fuzzy_eq_eps _ _ _); [reflexivity |].
  rewrite t_split. unfold moved_split. cbn [split_vertex updated_start].
  eapply rmap_bind; [exact (t_set_last X Y (PL (_ :: _) true) _) |]. reflexivity.
Qed.

Lemma t_approx_step d acc s :
  arcs_to_approx_lines_step d (map tV acc) (tV (fst s), tV (snd s)) = option_map (map tV) (arcs_to_approx_lines_step d acc s).
Proof.
  destruct s as [v u]. unfold arcs_to_approx_lines_step. cbn [fst snd]. rewrite t_bz. destruct (bulge_is_zero v).
  - cbn [option_map]. rewrite map_app. reflexivity.
  - rewrite t_rc. destruct (seg_arc_radius_and_center v u) as [r c]. cbn [fst snd].
    destruct (fuzzy_lt r d); [cbn [option_map]; rewrite map_app; reflexivity |].
    rewrite !t_pos, !t_angle, t_bn. destruct (nto_usize _) as [n |]; [| reflexivity]. cbn [option_map]. f_equal.
    rewrite map_app. cbn [map]. apply f_equal. apply f_equal2; [reflexivity |]. rewrite map_map. apply map_ext. intros k.
    rewrite t_on_circle. reflexivity.
Qed.
Lemma t_approx_loop d l acc :
  arcs_to_approx_lines_loop d (map (fun s => (tV (fst s), tV (snd s))) l) (map tV acc) = option_map (map tV) (arcs_to_approx_lines_loop d l acc).
Proof.
  revert acc. induction l as [| s t IH]; intros acc; [reflexivity |]. cbn [map arcs_to_approx_lines_loop]. rewrite t_approx_step.
  destruct (arcs_to_approx_lines_step d acc s); cbn [option_map]; [apply IH | reflexivity].
Qed.
Lemma t_approx p d : arcs_to_approx_lines (tp p) d = rmap to (arcs_to_approx_lines p d).
Proof.
  unfold arcs_to_approx_lines. rewrite t_empty, t_closed. destruct (is_empty p); [reflexivity |].
  eapply rmap_bind; [apply t_segs |]. intros l. change (@nil (vertex R)) with (map tV []) at 1. rewrite t_approx_loop.
  destruct (arcs_to_approx_lines_loop d l []) as [m |]; cbn [option_map]; [| reflexivity]. destruct (negb _); [| reflexivity].
  eapply rmap_bind; [apply t_last |]. intros lo. eapply rmap_bind; [apply t_unwrap |]. intros la. cbn [rmap option_map].
  unfold moved. cbn [vtx is_closed]. rewrite map_app. reflexivity.
Qed.

Notation tf := (fun r : (nat * vec2 R) + R => match r with inl q => inl (fst q, tv (snd q)) | inr a => inr a end).
Lemma t_seg_length v u : seg_length (tV v) (tV u) = seg_length v u.
Proof.
  unfold seg_length. replace (vfuzzy_eq (tV v) (tV u)) with (vfuzzy_eq v u).
  2: { unfold vfuzzy_eq, vfuzzy_eq_eps, moved_vertex. cbn [px py pbulge]. unfold fuzzy_eq_eps. rnum. rewrite !sub_sh. reflexivity. }
  rewrite t_bz, t_rc, !t_pos, t_dist. destruct (seg_arc_radius_and_center v u) as [r c]. cbn [fst snd]. rewrite !t_angle. reflexivity.
Qed.
Lemma t_find_loop g i l a : find_point_loop g i (map (fun s => (tV (fst s), tV (snd s))) l) a = tf (find_point_loop g i l a).
Proof.
  revert i a. induction l as [| [v u] t IH]; intros i a; [reflexivity |]. cbn [map find_point_loop fst snd]. rewrite t_seg_length.
  destruct (_ <? _)%num; [apply IH |]. rewrite t_bz, !t_pos, t_sub, t_add_l, t_rc, t_bulge. destruct (bulge_is_zero v); [reflexivity |].
  destruct (seg_arc_radius_and_center v u) as [r c]. cbn [fst snd]. rewrite t_angle, t_on_circle. reflexivity.
Qed.
Lemma t_find_point p g : find_point_at_path_length (tp p) g = rmap tf (find_point_at_path_length p g).
Proof.
  unfold find_point_at_path_length. destruct (_ <=? _)%num.
  - eapply rmap_bind; [apply t_at |]. intros v. rewrite t_pos. reflexivity.
  - eapply rmap_bind; [apply t_segs |]. intros l. rewrite t_find_loop. reflexivity.
Qed.

Lemma t_swap f i j p : invert_swap_loop f i j (tp p) = rmap tp (invert_swap_loop f i j p).
Proof.
  revert i j p. induction f as [| f IH]; intros i j p; [reflexivity |]. cbn [invert_swap_loop]. destruct (_ <? _)%nat; [| reflexivity].
  eapply rmap_bind; [apply t_at |]. intros s. eapply rmap_bind; [apply t_at |]. intros e.
  eapply rmap_bind; [apply t_set |]. intros p1. eapply rmap_bind; [apply t_set |]. intros p2. apply same_bind. intros k. apply IH.
Qed.
Lemma t_invert p : invert_direction_mut (tp p) = rmap tp (invert_direction_mut p).
Proof.
  unfold invert_direction_mut. rewrite t_vc. destruct (_ <? _)%nat; [reflexivity |].
  eapply rmap_bind; [apply t_swap |]. intros p1. eapply rmap_bind; [apply t_at |]. intros v0. rewrite t_bulge.
  eapply rmap_bind.
  - apply (rfold_same tp). intros b i. eapply rmap_bind; [apply t_at |]. intros v. apply same_bind. intros k.
    eapply rmap_bind; [apply t_at |]. intros w. rewrite t_bulge, t_with. apply t_set.
  - intros p2. rewrite t_closed. destruct (is_closed p2); [| reflexivity]. eapply rmap_bind; [apply t_at |]. intros w.
    rewrite t_with. apply t_set.
Qed.

(** ** remove_redundant *)
Notation ta := (option_map (fun a : R * vec2 R => (fst a, tv (snd a)))).
Definition t_rst (s : redundant_state R) :=
  RS (tV (rs_v1 s)) (tV (rs_v2 s)) (ta (rs_arc s)) (rs_v1_zero s) (rs_v2_zero s) (rs_v1_pos s) (rs_v2_pos s) (to (rs_result s)).

Lemma t_coll e a b c : is_collinear_same_dir e (tV a) (tV b) (tV c) = is_collinear_same_dir e a b c.
Proof.
  unfold is_collinear_same_dir. rewrite !t_pos, t_fuzzy, !t_sub. destruct (v2fuzzy_eq_eps _ _ _); [reflexivity |].
  cbv zeta. apply f_equal2; [| reflexivity]. apply f_equal2; [| reflexivity]. unfold moved_vertex. cbn [px py]. rnum. ring.
Qed.
Lemma t_start_loop p e f i a b :
  redundant_start_loop (tp p) e f i (tV a) (tV b)
  = rmap (fun r => (tV (fst (fst r)), tV (snd (fst r)), snd r)) (redundant_start_loop p e f i a b).
Proof.
  revert i a b. induction f as [| f IH]; intros i a b; [reflexivity |]. cbn [redundant_start_loop].
  rewrite !t_pos, t_fuzzy, t_bulge, t_with, t_vc. destruct (v2fuzzy_eq_eps _ _ _); [| reflexivity].
  destruct (_ <=? _)%nat; [reflexivity |]. eapply rmap_bind; [apply t_at |]. intros v. apply IH.
Qed.
Lemma t_merge e a b c s arc :
  merge_arcs e (tV a) (tV b) (tV c) s (ta arc)
  = ((fst (fst (merge_arcs e a b c s arc)), tv (snd (fst (merge_arcs e a b c s arc)))), snd (merge_arcs e a b c s arc)).
Proof.
  unfold merge_arcs. rewrite !t_rc.
  replace (match ta arc with Some a0 => a0 | None => (fst (seg_arc_radius_and_center a b), tv (snd (seg_arc_radius_and_center a b))) end)
    with (fst (match arc with Some a0 => a0 | None => seg_arc_radius_and_center a b end),
          tv (snd (match arc with Some a0 => a0 | None => seg_arc_radius_and_center a b end))) by (destruct arc; reflexivity).
  destruct (match arc with Some a0 => a0 | None => seg_arc_radius_and_center a b end) as [r1 c1].
  destruct (seg_arc_radius_and_center b c) as [r2 c2]. cbn [fst snd]. rewrite t_fuzzy, !t_pos, !t_angle. reflexivity.
Qed.
Lemma t_classify p e s i v :
  redundant_classify (tp p) e (t_rst s) i (tV v) = (fst (redundant_classify p e s i v), ta (snd (redundant_classify p e s i v))).
Proof.
  destruct s as [v1 v2 arc z1 z2 p1 p2 r]. unfold redundant_classify, t_rst. cbn [rs_v1 rs_v2 rs_arc rs_v1_zero rs_v2_zero rs_v1_pos rs_v2_pos rs_result].
  rewrite !t_pos, t_fuzzy, t_coll, t_closed, t_vc, t_merge. destruct (v2fuzzy_eq_eps _ _ _); [reflexivity |].
  destruct (z1 && z2); [destruct (_ && _); reflexivity |]. destruct (_ && _); [| reflexivity].
  destruct (merge_arcs e v1 v2 v p1 arc) as [[r1 c1] [b |]]; reflexivity.
Qed.
Lemma t_rstep p e s iv :
  redundant_step (tp p) e (t_rst s) (fst iv, tV (snd iv)) = rmap t_rst (redundant_step p e s iv).
Proof.
  destruct iv as [i v]. unfold redundant_step. cbn [fst snd]. rewrite t_classify. destruct (redundant_classify p e s i v) as [c arc]. cbn [fst snd].
  destruct s as [v1 v2 arc0 z1 z2 p1 p2 r]. unfold t_rst at 1. cbn [rs_v1 rs_v2 rs_arc rs_v1_zero rs_v2_zero rs_v1_pos rs_v2_pos rs_result].
  assert (H : (match to r with Some r => Ret r | None => let! n := usub i 1 in Ret (PL (firstn n (vtx (tp p))) (is_closed (tp p))) end)
    = rmap tp (match r with Some r => Ret r | None => let! n := usub i 1 in Ret (PL (firstn n (vtx p)) (is_closed p)) end)).
  { destruct r; [reflexivity |]. cbn [option_map]. apply same_bind. intros n. rewrite t_first. reflexivity. }
  rewrite t_bz, t_bp. destruct c as [| | b].
  - cbn [rmap]. unfold t_rst. cbn [rs_v1 rs_v2 rs_arc rs_v1_zero rs_v2_zero rs_v1_pos rs_v2_pos rs_result]. destruct r; cbn [option_map]; rewrite ?t_addv; reflexivity.
  - eapply rmap_bind; [exact H |]. reflexivity.
  - eapply rmap_bind; [exact H |]. intros r'. eapply rmap_bind; [apply t_last |]. intros lo. eapply rmap_bind; [apply t_unwrap |]. intros la.
    rewrite !t_with. eapply rmap_bind; [apply t_set_last |]. reflexivity.
Qed.
Lemma t_cycle p i n : cycle_enumerate_skip_take (tp p) i n = rmap (map (fun iv => (fst iv, tV (snd iv)))) (cycle_enumerate_skip_take p i n).
Proof.
  unfold cycle_enumerate_skip_take. apply rmapM_same. intros j. rewrite t_vc. eapply rmap_bind; [apply map_index |]. reflexivity.
Qed.
Lemma t_fin_closed p e s : redundant_finish_closed (tp p) e (t_rst s) = rmap to (redundant_finish_closed p e s).
Proof.
  destruct s as [v1 v2 arc z1 z2 p1 p2 r]. unfold redundant_finish_closed, t_rst. cbn [rs_v1 rs_v2 rs_arc rs_v1_zero rs_v2_zero rs_v1_pos rs_v2_pos rs_result].
  change (PL (vtx (tp p)) (is_closed (tp p))) with (tp (PL (vtx p) (is_closed p))).
  eapply (rmap_bind to).
  - destruct r as [q |]; cbn [option_map]; (eapply rmap_bind; [apply t_last |]); intros lo; (eapply rmap_bind; [apply t_unwrap |]); intros la;
      (eapply rmap_bind; [apply t_at |]); intros v0; rewrite !t_pos, t_fuzzy; (destruct (v2fuzzy_eq_eps _ _ _); [| reflexivity]);
      (eapply rmap_bind; [apply t_remove_last |]); reflexivity.
  - intros r'.
    replace (match to r' with Some pl => at_ pl 1 | None => at_ (tp p) 1 end) with (rmap tV (match r' with Some pl => at_ pl 1 | None => at_ p 1 end))
      by (destruct r'; cbn [option_map]; rewrite t_at; reflexivity).
    replace (match to r' with Some pl => pl | None => tp (PL (vtx p) (is_closed p)) end) with (tp (match r' with Some pl => pl | None => PL (vtx p) (is_closed p) end))
      by (destruct r'; reflexivity).
    eapply rmap_bind; [reflexivity |]. intros v3. rewrite t_coll, !t_pos, t_fuzzy, t_merge.
    destruct (_ && _ && _).
    + eapply rmap_bind; [apply t_remove_last |]. intros [la pl]. cbn [fst snd]. eapply rmap_bind; [apply t_set |]. reflexivity.
    + destruct (_ && _); [| reflexivity]. destruct (merge_arcs e v1 v2 v3 p1 arc) as [a [b |]]; cbn [fst snd]; [| reflexivity].
      eapply rmap_bind; [apply t_remove_last |]. intros [la pl]. cbn [fst snd]. rewrite t_with. eapply rmap_bind; [apply t_set |]. reflexivity.
Qed.
Lemma t_vfuzzy a b e : vfuzzy_eq_eps (tV a) (tV b) e = vfuzzy_eq_eps a b e.
Proof. unfold vfuzzy_eq_eps, moved_vertex. cbn [px py pbulge]. unfold fuzzy_eq_eps. rnum. rewrite !sub_sh. reflexivity. Qed.
Lemma t_fin_open p e s : redundant_finish_open (tp p) e (t_rst s) = rmap to (redundant_finish_open p e s).
Proof.
  unfold redundant_finish_open. cbn [t_rst rs_result]. destruct (rs_result s) as [q |]; cbn [option_map].
  - eapply rmap_bind; [apply t_last |]. intros lo. eapply rmap_bind; [apply t_unwrap |]. intros la. rewrite t_addr. reflexivity.
  - rewrite t_vc. apply same_bind. intros i2. apply same_bind. intros i1. eapply rmap_bind; [apply t_at |]. intros a.
    eapply rmap_bind; [apply t_at |]. intros b. rewrite t_vfuzzy. destruct (vfuzzy_eq_eps _ _ _); [| reflexivity].
    change (PL (vtx (tp p)) (is_closed (tp p))) with (tp (PL (vtx p) (is_closed p))).
    eapply rmap_bind; [apply t_remove_last |]. reflexivity.
Qed.
Lemma t_redundant p e : remove_redundant (tp p) e = rmap to (remove_redundant p e).
Proof.
  unfold remove_redundant. rewrite t_vc, t_closed. destruct (_ <? _)%nat; [reflexivity |]. destruct (Nat.eqb _ 2).
  - eapply rmap_bind; [apply t_at |]. intros a. eapply rmap_bind; [apply t_at |]. intros b. rewrite !t_pos, t_fuzzy.
    destruct (v2fuzzy_eq_eps _ _ _); reflexivity.
  - eapply rmap_bind; [apply t_at |]. intros a. eapply rmap_bind; [apply t_at |]. intros b.
    eapply rmap_bind; [apply t_start_loop |]. intros [[v1 v2] i]. cbn [fst snd]. destruct (_ <=? _)%nat; [destruct (Nat.eqb i 2); reflexivity |].
    eapply rmap_bind; [apply t_cycle |]. intros l. eapply rmap_bind.
    + match goal with |- rfold _ _ ?s = _ => match goal with |- _ = rmap _ (rfold _ _ ?s') => replace s with (t_rst s') end end.
      2: { unfold t_rst. cbn [rs_v1 rs_v2 rs_arc rs_v1_zero rs_v2_zero rs_v1_pos rs_v2_pos rs_result]. rewrite !t_bz, !t_bp. destruct (Nat.eqb i 2); reflexivity. }
      apply rfold_map. intros. apply t_rstep.
    + intros st. destruct (is_closed p); [apply t_fin_closed | apply t_fin_open].
Qed.
End Tr.
