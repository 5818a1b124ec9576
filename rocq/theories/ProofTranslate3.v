(** Moving the polyline moves its raw offset. *)
From Coq Require Import Reals List Lra Lia Bool ZArith Arith.
From Verif Require Import Num RNum Res ModelMath ModelIntr ModelSeg ModelSegIntr ModelPline ModelView ModelIndex
  ModelIntersects ModelBoolean ModelOffset SpecTranslate ProofR ProofTranslate ProofTranslate2.
Import ListNotations.
Local Open Scope R_scope.

Section Tr.
Variables X Y : R.
Notation tv := (moved_point X Y).
Notation tV := (moved_vertex X Y).
Notation tp := (moved X Y).
Notation t2 := (fun s => (tV (fst s), tV (snd s))).

Definition t_rs (s : raw_seg R) : raw_seg R :=
  RS (tV (rs_v1 s)) (tV (rs_v2 s)) (tv (rs_orig_v2_pos s)) (rs_collapsed_arc s).

Lemma t_raw_line o v u : raw_line_seg o (tV v) (tV u) = t_rs (raw_line_seg o v u).
Proof. unfold raw_line_seg. rewrite !t_pos, t_sub, !t_add_l. reflexivity. Qed.
Lemma t_raw_arc o v u : raw_arc_seg o (tV v) (tV u) = t_rs (raw_arc_seg o v u).
Proof.
  unfold raw_arc_seg. rewrite !t_pos, t_bn, t_rc, !t_bulge.
  destruct (seg_arc_radius_and_center v u) as [r c]. cbn [fst snd]. rewrite !t_sub, !t_add_r.
  destruct (if fuzzy_lt _ _ then _ else _) as [b k]. reflexivity.
Qed.
Lemma t_raw_segs p o :
  create_untrimmed_raw_offset_segs (tp p) o = rmap (map t_rs) (create_untrimmed_raw_offset_segs p o).
Proof.
  unfold create_untrimmed_raw_offset_segs. eapply rmap_bind; [apply t_segs |]. intros l. cbn [rmap rbind]. f_equal.
  rewrite !map_map. apply map_ext. intros [v u]. cbn [fst snd]. rewrite t_bz, t_raw_line, t_raw_arc.
  destruct (bulge_is_zero v); reflexivity.
Qed.

Lemma t_conn c a b w : bulge_for_connection (tv c) (tv a) (tv b) w = bulge_for_connection c a b w.
Proof. unfold bulge_for_connection. rewrite !t_angle. reflexivity. Qed.

Lemma t_using s1 s2 w p e : connect_using_arc (t_rs s1) (t_rs s2) w (tp p) e = tp (connect_using_arc s1 s2 w p e).
Proof.
  unfold connect_using_arc. cbn [t_rs rs_v1 rs_v2 rs_orig_v2_pos]. rewrite !t_pos, t_conn, !t_addr2, t_bulge.
  reflexivity.
Qed.

Lemma t_ll s1 s2 w e p : line_line_join (t_rs s1) (t_rs s2) w e (tp p) = tp (line_line_join s1 s2 w e p).
Proof.
  unfold line_line_join. rewrite t_using. cbn [t_rs rs_v1 rs_v2 rs_orig_v2_pos rs_collapsed_arc].
  rewrite !t_pos, t_line_line. destruct (_ || _); [reflexivity |].
  destruct (line_line_intr _ _ _ _ _); rewrite ?t_param, ?t_addr2, ?t_addr3, ?t_bulge; try reflexivity.
  destruct (_ && _); reflexivity.
Qed.

Lemma t_la_process s1 s2 w e p c t q :
  line_arc_process (t_rs s1) (t_rs s2) w e (tp p) (tv c) t (tv q) = tp (line_arc_process s1 s2 w e p c t q).
Proof.
  unfold line_arc_process. rewrite t_using. cbn [t_rs rs_v1 rs_v2 rs_orig_v2_pos rs_collapsed_arc].
  rewrite !t_pos, t_bn, t_sweep, !t_angle, !t_bulge, !t_addr2, !t_addr3, !t_addr, t_bp.
  destruct (_ && _). { destruct (Bool.eqb _ _); reflexivity. }
  destruct (_ && _); [reflexivity |]. destruct (rs_collapsed_arc s1); reflexivity.
Qed.

Lemma t_la s1 s2 w e p : line_arc_join (t_rs s1) (t_rs s2) w e (tp p) = tp (line_arc_join s1 s2 w e p).
Proof.
  unfold line_arc_join. rewrite t_using.
  change (rs_v1 (t_rs s2)) with (tV (rs_v1 s2)). change (rs_v2 (t_rs s2)) with (tV (rs_v2 s2)).
  change (rs_v1 (t_rs s1)) with (tV (rs_v1 s1)). change (rs_v2 (t_rs s1)) with (tV (rs_v2 s1)).
  change (rs_orig_v2_pos (t_rs s1)) with (tv (rs_orig_v2_pos s1)).
  rewrite t_rc. destruct (seg_arc_radius_and_center _ _) as [r c]. cbn [fst snd].
  rewrite !t_pos, t_line_circle. destruct (line_circle_intr _ _ _ _ _); rewrite ?t_param, ?t_dist, ?t_la_process;
    try reflexivity.
  destruct (nltb _ _); reflexivity.
Qed.

Lemma t_trim p v c q e :
  trim_previous_arc (tp p) (tV v) (tv c) (tv q) e = rmap tp (trim_previous_arc p v c q e).
Proof.
  unfold trim_previous_arc. eapply rmap_bind; [apply t_last |]. intros o.
  eapply rmap_bind; [apply t_unwrap |]. intros u. rewrite !t_pos, t_fuzzy, t_bz, t_bp, t_angle, t_rc. cbn [snd].
  rewrite t_angle, t_with, t_set_last. destruct (_ && _); [| reflexivity]. destruct (Bool.eqb _ _); reflexivity.
Qed.

Lemma t_al_process s1 s2 w e p c t q :
  arc_line_process (t_rs s1) (t_rs s2) w e (tp p) (tv c) t (tv q) = rmap tp (arc_line_process s1 s2 w e p c t q).
Proof.
  unfold arc_line_process. rewrite t_using. cbn [t_rs rs_v1 rs_v2 rs_orig_v2_pos rs_collapsed_arc].
  rewrite !t_pos, t_bn, t_sweep. destruct (_ && _); [| reflexivity].
  eapply rmap_bind; [apply t_trim |]. intros r. rewrite t_addr2. reflexivity.
Qed.

Lemma t_al s1 s2 w e p : arc_line_join (t_rs s1) (t_rs s2) w e (tp p) = rmap tp (arc_line_join s1 s2 w e p).
Proof.
  unfold arc_line_join. rewrite t_using.
  change (rs_v1 (t_rs s2)) with (tV (rs_v1 s2)). change (rs_v2 (t_rs s2)) with (tV (rs_v2 s2)).
  change (rs_v1 (t_rs s1)) with (tV (rs_v1 s1)). change (rs_v2 (t_rs s1)) with (tV (rs_v2 s1)).
  change (rs_orig_v2_pos (t_rs s1)) with (tv (rs_orig_v2_pos s1)).
  change (rs_collapsed_arc (t_rs s2)) with (rs_collapsed_arc s2).
  rewrite t_rc. destruct (seg_arc_radius_and_center _ _) as [r c]. cbn [fst snd].
  rewrite !t_pos, t_line_circle. destruct (line_circle_intr _ _ _ _ _); rewrite ?t_param, ?t_al_process;
    try reflexivity.
  destruct (rs_collapsed_arc s2); rewrite !t_dist; destruct (nltb _ _); reflexivity.
Qed.

Lemma t_aa_process s1 s2 w e p c d q b :
  arc_arc_process (t_rs s1) (t_rs s2) w e (tp p) (tv c) (tv d) (tv q) b
  = rmap tp (arc_arc_process s1 s2 w e p c d q b).
Proof.
  unfold arc_arc_process. rewrite t_using. destruct (negb b); [reflexivity |].
  cbn [t_rs rs_v1 rs_v2]. eapply rmap_bind; [apply t_trim |]. intros r.
  rewrite !t_pos, !t_angle, t_bp, t_bulge, !t_addr2. destruct (Bool.eqb _ _); reflexivity.
Qed.

Lemma t_aa s1 s2 w e p : arc_arc_join (t_rs s1) (t_rs s2) w e (tp p) = rmap tp (arc_arc_join s1 s2 w e p).
Proof.
  unfold arc_arc_join. rewrite t_using.
  change (rs_v1 (t_rs s2)) with (tV (rs_v1 s2)). change (rs_v2 (t_rs s2)) with (tV (rs_v2 s2)).
  change (rs_v1 (t_rs s1)) with (tV (rs_v1 s1)). change (rs_v2 (t_rs s1)) with (tV (rs_v2 s1)).
  change (rs_orig_v2_pos (t_rs s1)) with (tv (rs_orig_v2_pos s1)).
  rewrite !t_rc. destruct (seg_arc_radius_and_center (rs_v1 s1) _) as [r c].
  destruct (seg_arc_radius_and_center (rs_v1 s2) _) as [r' c']. cbn [fst snd].
  rewrite t_circles, !t_pos, !t_bn. destruct (circle_circle_intr _ _ _ _ _); cbn [t_cc];
    rewrite ?t_sweep, ?t_dist, ?t_aa_process, ?t_addr; try reflexivity.
  destruct (fuzzy_eq_eps _ _ _).
  - destruct (_ && _); reflexivity.
  - destruct (nltb _ _); reflexivity.
Qed.

Lemma t_join w e p s : join_seg_pair w e (tp p) (t_rs (fst s), t_rs (snd s)) = rmap tp (join_seg_pair w e p s).
Proof.
  destruct s as [s1 s2]. unfold join_seg_pair. cbn [fst snd].
  change (rs_v1 (t_rs s1)) with (tV (rs_v1 s1)). change (rs_v1 (t_rs s2)) with (tV (rs_v1 s2)).
  rewrite !t_bz, t_ll, t_la, t_al, t_aa.
  destruct (bulge_is_zero _), (bulge_is_zero _); reflexivity.
Qed.

Lemma t_first p q : update_first_vertex (tp p) (tv q) = rmap tp (update_first_vertex p q).
Proof.
  unfold update_first_vertex. eapply rmap_bind; [apply t_at |]. intros v.
  rewrite t_bz, t_bulge, t_vc, t_bp, t_bn.
  assert (H : forall b, set_vertex (tp p) 0 (Vtx (vx (tv q)) (vy (tv q)) b)
                        = rmap tp (set_vertex p 0 (Vtx (vx q) (vy q) b))).
  { intros b. exact (t_set X Y p 0 (Vtx (vx q) (vy q) b)). }
  rewrite H. destruct (bulge_is_zero v); [reflexivity |]. destruct (1 <? _)%nat; [| reflexivity].
  eapply rmap_bind; [apply t_at |]. intros u. rewrite t_rc, t_pos. cbn [snd]. rewrite !t_angle, H.
  destruct (_ || _); reflexivity.
Qed.

Lemma t_prune p e : prune_singularity (tp p) e = rmap tp (prune_singularity p e).
Proof.
  unfold prune_singularity. rewrite t_vc. destruct (1 <? _)%nat; [| reflexivity].
  eapply rmap_bind; [apply t_at |]. intros v. eapply rmap_bind; [apply t_last |]. intros o.
  eapply rmap_bind; [apply t_unwrap |]. intros l. rewrite !t_pos, t_fuzzy.
  eapply (rmap_bind tp).
  - destruct (v2fuzzy_eq_eps _ _ _); [| reflexivity]. eapply rmap_bind; [apply t_remove_last | reflexivity].
  - intros r. rewrite t_vc. destruct (1 <? _)%nat; [| reflexivity].
    eapply rmap_bind; [apply t_at |]. intros a. eapply rmap_bind; [apply t_at |]. intros b.
    rewrite !t_pos, t_fuzzy. destruct (v2fuzzy_eq_eps _ _ _); [| reflexivity].
    eapply rmap_bind; [apply t_remove | reflexivity].
Qed.

Lemma t_close w e s1 s2 f p :
  close_raw_offset w e (t_rs s1) (t_rs s2) f (tp p) = rmap tp (close_raw_offset w e s1 s2 f p).
Proof.
  unfold close_raw_offset. eapply rmap_bind; [apply t_last |]. intros o.
  eapply rmap_bind; [apply t_unwrap |]. intros l.
  eapply rmap_bind; [exact (t_join w e (PL [l] false) (s1, s2)) |]. intros q.
  eapply rmap_bind; [apply t_at |]. intros c. eapply rmap_bind; [apply t_set_last |]. intros r.
  cbn [moved vtx]. rewrite skipn_map, t_extend.
  eapply (rmap_bind tp).
  - destruct (negb f); [| reflexivity]. eapply rmap_bind; [apply (t_last X Y q) |]. intros o'.
    eapply rmap_bind; [apply t_unwrap |]. intros l'. rewrite t_pos. apply t_first.
  - intros r'. apply t_prune.
Qed.

Lemma windows2_map {A B} (f : A -> B) l : windows2 (map f l) = map (fun s => (f (fst s), f (snd s))) (windows2 l).
Proof. induction l as [| a [| b t] IH]; try reflexivity. cbn in *. rewrite IH. reflexivity. Qed.
Lemma last_map {A B} (f : A -> B) l d : last (map f l) (f d) = f (last l d).
Proof. induction l as [| a [| b t] IH]; try reflexivity. cbn in *. exact IH. Qed.

Lemma t_raw p o e : create_raw_offset_polyline (tp p) o e = rmap tp (create_raw_offset_polyline p o e).
Proof.
  unfold create_raw_offset_polyline. rewrite t_vc, t_closed. destruct (_ <? _)%nat; [reflexivity |].
  eapply rmap_bind; [apply t_raw_segs |]. intros [| s0 rest]; [reflexivity |].
  cbn [map]. cbv beta iota.
  match goal with |- (if ?b then _ else _) = rmap _ (if ?c then _ else _) =>
    assert (Q : b = c) by (destruct rest; reflexivity); rewrite Q; destruct c; [reflexivity |]; clear Q end.
  change (t_rs s0 :: map t_rs rest) with (map t_rs (s0 :: rest)). rewrite windows2_map, firstn_map, skipn_map.
  eapply rmap_bind.
  { apply (rfold_map (fun s => (t_rs (fst s), t_rs (snd s))) tp _ _ _ (PL [rs_v1 s0] (is_closed p))).
    intros. apply t_join. }
  intros r. eapply rmap_bind. { apply rfold_map. intros. apply t_join. }
  intros r'. rewrite !t_vc, last_map.
  eapply (rmap_bind tp).
  - destruct (_ && _); [apply t_close |]. cbn [rmap rbind]. f_equal. apply t_addr.
  - intros q. cbn [rmap rbind]. f_equal. rewrite t_vc. destruct (Nat.eqb _ _); reflexivity.
Qed.
End Tr.
