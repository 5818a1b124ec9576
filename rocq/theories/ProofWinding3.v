(** The winding number of a whole polyline (C15). *)
From Coq Require Import Reals ZArith Bool List Arith Lra Lia Psatz.
From Verif Require Import Num RNum Res ModelMath ModelSeg ModelPline Spec SpecGeom SpecWalk SpecBox SpecWinding.
From Verif Require Import ProofR ProofBase ProofIter ProofInvert ProofArc ProofArc2 ProofSlice ProofMeasure ProofWalk ProofWinding ProofWinding2.
Import ListNotations.
Local Open Scope R_scope.

Lemma perp_swap v1 v2 pt : perp v2 v1 pt = - perp v1 v2 pt.
Proof. unfold perp. ring. Qed.

Lemma wide_cw (v1 v2 : vertex R) (pt : vec2 R) (d : R) (w : Z) (k : R) :
  pos v1 <> pt -> pos v2 <> pt -> d = br pt (pos v2) - br pt (pos v1) + IZR w * (2 * PI) ->
  0 < k -> perp v1 v2 pt = k * sin (br pt (pos v2) - br pt (pos v1)) ->
  - (2 * PI) < d < 0 ->
  ((vy pt < py v1 /\ vy pt < py v2 \/ py v1 <= vy pt /\ py v2 <= vy pt) -> 0 <= perp v1 v2 pt ->
     (vx pt - px v1) * (vx pt - px v2) + (vy pt - py v1) * (vy pt - py v2) < 0) ->
  w = (if rleb (py v1) (vy pt)
       then if rltb (vy pt) (py v2) then 0%Z
            else if rleb 0 (perp v1 v2 pt) && rltb (px v1) (vx pt) && rltb (vx pt) (px v2) then (-1)%Z else 0%Z
       else if rleb (py v2) (vy pt) then (-1)%Z
            else if rleb 0 (perp v1 v2 pt) && rltb (px v2) (vx pt) && rltb (vx pt) (px v1) then (-1)%Z else 0%Z).
Proof.
  intros N1 N2 Hd Hk HC B HT.
  assert (E : (- w)%Z = (if rleb (py v2) (vy pt)
       then if rltb (vy pt) (py v1) then 1%Z
            else if negb (rltb 0 (perp v2 v1 pt)) && rltb (px v1) (vx pt) && rltb (vx pt) (px v2) then 1%Z else 0%Z
       else if rleb (py v1) (vy pt) then 0%Z
            else if negb (rltb 0 (perp v2 v1 pt)) && rltb (px v2) (vx pt) && rltb (vx pt) (px v1) then 1%Z else 0%Z)).
  { apply (wide_ccw v2 v1 pt (- d) (- w)%Z N2 N1) with (k := k).
    - rewrite opp_IZR. lra.
    - exact Hk.
    - rewrite perp_swap, HC. replace (br pt (pos v1) - br pt (pos v2)) with (- (br pt (pos v2) - br pt (pos v1))) by ring.
      rewrite sin_neg. ring.
    - lra.
    - intros HH HP. rewrite perp_swap in HP. specialize (HT ltac:(tauto) ltac:(lra)). lra. }
  assert (EP : negb (rltb 0 (perp v2 v1 pt)) = rleb 0 (perp v1 v2 pt)).
  { rewrite perp_swap. destruct (rltb_spec 0 (- perp v1 v2 pt)), (rleb_spec 0 (perp v1 v2 pt)); cbn; try reflexivity; lra. }
  rewrite EP in E.
  destruct (rleb_spec (py v1) (vy pt)) as [L1|L1], (rltb_spec (vy pt) (py v2)) as [L2|L2], (rleb_spec (py v2) (vy pt)) as [L3|L3],
    (rltb_spec (vy pt) (py v1)) as [L4|L4]; try lra; try lia;
    repeat match goal with |- context [if ?b then _ else _] => destruct b end; lia.
Qed.

Lemma seg_turn v1 v2 pt : seg_ok v1 v2 -> ~ on_seg v1 v2 pt ->
  exists d w, turns_by v1 v2 pt d /\ d = br pt (pos v2) - br pt (pos v1) + IZR w * (2 * PI)
    /\ forall z, winding_step pt z (v1, v2) = (z + w)%Z.
Proof.
  intros Hok Hoff. destruct (Req_dec (pbulge v1) 0) as [E|E].
  - destruct (turn_line v1 v2 pt E Hoff) as (d & HT & B).
    destruct (turn_ends v1 v2 pt d Hok Hoff HT) as (N1 & N2 & (w & Hw) & k & Hk & HC).
    exists d, w. split; [exact HT|]. split; [exact Hw|]. intros z. unfold winding_step.
    rewrite (proj2 (bulge_ok_zero v1 (proj1 Hok)) E).
    destruct (narrow_winding v1 v2 pt d w N1 N2 Hw k Hk HC B) as [-> _]. reflexivity.
  - pose proof (proj2 Hok E) as Hp.
    assert (Hb1 : Rabs (pbulge v1) <= 1) by (destruct (proj1 Hok) as [?|[_ ?]]; [contradiction|assumption]).
    pose proof (computed_is_arc (pos v1) (pos v2) (pbulge v1) Hp E) as HA.
    pose proof (radius_pos (pos v1) (pos v2) (pbulge v1) Hp E) as Hr.
    set (c := centre_of (pos v1) (pos v2) (pbulge v1)) in *. set (r := radius_of (pos v1) (pos v2) (pbulge v1)) in *.
    set (a := angle c (pos v1)) in *.
    assert (Hat : forall t q, seg_at v1 v2 t q -> q = circle_pt c r (a + t * sweep (pbulge v1))).
    { intros t q Hq. apply seg_at_arc in Hq; auto. }
    assert (EZ : bulge_is_zero v1 = false).
    { destruct (bulge_is_zero v1) eqn:Z; [|reflexivity]. apply bulge_ok_zero in Z; [contradiction|apply Hok]. }
    assert (EB : bulge_is_pos v1 = rltb 0 (pbulge v1)) by reflexivity.
    assert (EI : rltb (dist_squared c pt) (r * r) = true <-> inside_circle c r pt).
    { rewrite rltb_true. unfold dist_squared, inside_circle. rnum. cbn [vx vy]. tauto. }
    assert (EL : is_left (pos v1) (pos v2) pt = rltb 0 (perp v1 v2 pt)) by reflexivity.
    assert (ELE : is_left_or_equal (pos v1) (pos v2) pt = rleb 0 (perp v1 v2 pt)) by reflexivity.
    destruct (Rlt_dec ((vx c - vx pt) * (vx c - vx pt) + (vy c - vy pt) * (vy c - vy pt)) (r * r)) as [HI|HI].
    + assert (Hin : inside_circle c r pt) by exact HI. apply EI in HI.
      destruct (turn_inside v1 v2 pt c r a E HA Hat Hr Hb1 Hin) as (d & HT & B1 & B2).
      destruct (turn_ends v1 v2 pt d Hok Hoff HT) as (N1 & N2 & (w & Hw) & k & Hk & HC).
      exists d, w. split; [exact HT|]. split; [exact Hw|]. intros z. unfold winding_step. rewrite EZ. f_equal.
      unfold process_arc_winding. rewrite (arc_radius_and_center_eq v1 v2 Hp E). fold c r. rewrite EB, EL, ELE. rnum. rewrite HI.
      pose proof (thales v1 v2 pt (pbulge v1) E Hin) as TH.
      assert (HQ : 0 <= 1 - pbulge v1 * pbulge v1).
      { assert (pbulge v1 * pbulge v1 <= 1); [|lra]. revert Hb1. unfold Rabs. destruct (Rcase_abs _); nra. }
      destruct (rltb_spec 0 (pbulge v1)) as [Lb|Lb].
      * rewrite (wide_ccw v1 v2 pt d w N1 N2 Hw k Hk HC (B1 Lb)).
        -- rewrite !andb_true_r. cbn [andb negb].
           destruct (rleb (py v1) (vy pt)), (rltb (vy pt) (py v2)), (rleb (py v2) (vy pt)), (rltb 0 (perp v1 v2 pt));
             cbn [andb negb]; reflexivity.
        -- intros _ HP. assert (0 <= (1 - pbulge v1 * pbulge v1) / (4 * pbulge v1)).
           { apply Rmult_le_pos; [exact HQ|]. apply Rlt_le, Rinv_0_lt_compat. lra. } nra.
      * assert (Lb' : pbulge v1 < 0) by lra.
        rewrite (wide_cw v1 v2 pt d w k N1 N2 Hw Hk HC (B2 Lb')).
        -- rewrite !andb_true_r. cbn [andb negb].
           destruct (rleb (py v1) (vy pt)), (rltb (vy pt) (py v2)), (rleb (py v2) (vy pt)), (rleb 0 (perp v1 v2 pt));
             cbn [andb negb]; reflexivity.
        -- intros _ HP. assert ((1 - pbulge v1 * pbulge v1) / (4 * pbulge v1) <= 0).
           { assert (0 <= (1 - pbulge v1 * pbulge v1) / (4 * - pbulge v1)).
             { apply Rmult_le_pos; [exact HQ|]. apply Rlt_le, Rinv_0_lt_compat. lra. }
             replace ((1 - pbulge v1 * pbulge v1) / (4 * pbulge v1)) with (- ((1 - pbulge v1 * pbulge v1) / (4 * - pbulge v1))) by (field; lra). lra. }
           nra.
    + assert (Hout : ~ inside_circle c r pt) by exact HI.
      destruct (turn_outside v1 v2 pt c r a E HA Hat Hr Hout Hoff) as (d & HT & B).
      destruct (turn_ends v1 v2 pt d Hok Hoff HT) as (N1 & N2 & (w & Hw) & k & Hk & HC).
      exists d, w. split; [exact HT|]. split; [exact Hw|]. intros z. unfold winding_step. rewrite EZ. f_equal.
      destruct (narrow_winding v1 v2 pt d w N1 N2 Hw k Hk HC B) as [-> HZ].
      assert (HI' : rltb (dist_squared c pt) (r * r) = false).
      { apply not_true_is_false. intros Q. apply Hout, EI, Q. }
      unfold process_arc_winding, process_line_winding. rewrite (arc_radius_and_center_eq v1 v2 Hp E). fold c r. rewrite EB, EL, ELE. rnum. rewrite HI'.
      rewrite !andb_false_r. cbn [negb].
      destruct (rleb_spec (py v1) (vy pt)) as [L1|L1], (rltb_spec (vy pt) (py v2)) as [L2|L2], (rleb_spec (py v2) (vy pt)) as [L3|L3]; try lra;
      destruct (rltb_spec 0 (pbulge v1)), (rltb_spec 0 (perp v1 v2 pt)) as [P1|P1], (rleb_spec 0 (perp v1 v2 pt)) as [P2|P2]; cbn [andb negb]; try reflexivity; try lra;
      exfalso; assert (PZ : perp v1 v2 pt = 0) by lra; specialize (HZ PZ); lra.
Qed.

Lemma winding_sum pt segs : (forall v1 v2, In (v1, v2) segs -> seg_ok v1 v2 /\ ~ on_seg v1 v2 pt) -> forall z,
  exists ds, Forall2 (fun s d => turns_by (fst s) (snd s) pt d) segs ds
    /\ rsum ds = rsum (map (fun s => br pt (pos (snd s)) - br pt (pos (fst s))) segs)
                 + IZR (fold_left (winding_step pt) segs z - z) * (2 * PI).
Proof.
  induction segs as [|[v1 v2] t IH]; intros H z.
  - exists []. split; [constructor|]. cbn. rewrite Z.sub_diag. ring.
  - destruct (H v1 v2 (or_introl eq_refl)) as [Hok Hoff].
    destruct (seg_turn v1 v2 pt Hok Hoff) as (d & w & HT & Hd & Hw).
    destruct (IH (fun a b Hab => H a b (or_intror Hab)) (z + w)%Z) as (ds & F & S).
    exists (d :: ds). split; [constructor; assumption|].
    cbn [fold_left map fst snd]. rewrite Hw, !rsum_cons, S, Hd.
    replace (fold_left (winding_step pt) t (z + w)%Z - z)%Z with (fold_left (winding_step pt) t (z + w)%Z - (z + w) + w)%Z by lia.
    rewrite plus_IZR. ring.
Qed.

Lemma winding_closed p pt : pline_ok p -> is_closed p = true -> (2 <= vertex_count p)%nat -> ~ on_path p pt ->
  exists w, winding_number p pt = Ret w
    /\ path_turns_by p pt (IZR w * (2 * PI))
    /\ forall total, path_turns_by p pt total -> total = IZR w * (2 * PI).
Proof.
  intros Hok Hc Hn Hoff. unfold winding_number. rewrite Hc. cbn [negb orb].
  destruct (Nat.ltb_spec (vertex_count p) 2) as [?|_]; [lia|]. rewrite iter_segments_spec. cbn [rbind].
  eexists. split; [reflexivity|].
  destruct (winding_sum pt (spec_segs (vtx p) (is_closed p))) with (z := 0%Z) as (ds & F & S).
  { intros v1 v2 Hin. split; [now apply Hok|]. intros Hon. apply Hoff. exists v1, v2. auto. }
  rewrite Z.sub_0_r in S. rewrite Hc in S at 1.
  rewrite (loop_telescope (fun v => br pt (pos v)) (vtx p)), Rplus_0_l in S.
  assert (G : path_turns_by p pt (IZR (fold_left (winding_step pt) (spec_segs (vtx p) (is_closed p)) 0%Z) * (2 * PI))).
  { exists ds. split; [exact F|]. symmetry. exact S. }
  split; [exact G|]. intros total HT. eapply path_turns_unique; eassumption.
Qed.

Lemma winding_trivial {T} {N : Num T} (p : pline T) pt : is_closed p = false \/ (vertex_count p < 2)%nat -> winding_number p pt = Ret 0%Z.
Proof.
  intros H. unfold winding_number. destruct H as [->|H]; [reflexivity|].
  apply Nat.ltb_lt in H. rewrite H, orb_true_r. reflexivity.
Qed.
