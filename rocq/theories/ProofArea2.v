(** How the area under a segment grows with the height, and the same for a list of segments (for C65). *)
From Coq Require Import Reals ZArith Bool List Lra Lia Psatz.
From Verif Require Import Num RNum Res ModelMath ModelSeg ModelPline Spec SpecGeom SpecBox SpecWinding.
From Verif Require Import ProofR ProofBase ProofIter ProofArc ProofArc2 ProofSlice ProofMeasure ProofWalk ProofIntr ProofWinding ProofWinding2 ProofWinding3 ProofWinding4 ProofWinding6 ProofWinding7 ProofSegIntr5 ProofPolyOff2 ProofNest ProofJordan ProofJordan2 ProofArea.
Import ListNotations.
Local Open Scope R_scope.

Definition corner (v : vertex R) : R := px v * py v.

(** At every height not among [bad], the integral [D] of x dy over the part of the segments below grows by the
    [moment] of the points [L] in which they cross the height, and these points tell how they wind around all others. *)
Definition profile (l : list seg) (D : R -> R) (L : R -> slice) (bad : list R) (J M : R) : Prop :=
  (forall h, continuity_pt D h)
  /\ (forall h, ~ In h bad -> derivable_pt_lim D h (moment (L h))
        /\ forall u, ~ In u (map snd (L h)) -> offs l (V2 u h) /\ tot l (V2 u h) = count (L h) u)
  /\ (forall m, M <= m -> D m - D (- m) = J)
  /\ (forall s q, In s l -> on s q -> Rabs (vx q) <= M /\ Rabs (vy q) <= M)
  /\ exists Is, Forall2 (fun (s : seg) I => seg_has_integral (fst s) (snd s) I) l Is
       /\ rsum Is = 2 * J - rsum (map (fun s : seg => corner (snd s) - corner (fst s)) l).

Lemma count_app a b u : count (a ++ b) u = (count a u + count b u)%Z.
Proof. unfold count. rewrite map_app. apply zsum_app. Qed.
Lemma moment_app a b : moment (a ++ b) = moment a + moment b.
Proof. unfold moment. rewrite map_app. apply ProofMeasure.rsum_app. Qed.

Lemma profile_nil : profile [] (fun _ => 0) (fun _ => []) [] 0 0.
Proof.
  split; [intros h; apply continuity_pt_const; intros u v; reflexivity|]. split.
  - intros h _. split; [apply derivable_pt_lim_const|]. intros u _. split; [intros s []|reflexivity].
  - split; [intros; ring|]. split; [intros s q []|]. exists []. split; [constructor|]. cbn. ring.
Qed.

Lemma profile_app l1 D1 L1 b1 J1 M1 l2 D2 L2 b2 J2 M2 : profile l1 D1 L1 b1 J1 M1 -> profile l2 D2 L2 b2 J2 M2 ->
  profile (l1 ++ l2) (fun h => D1 h + D2 h) (fun h => L1 h ++ L2 h) (b1 ++ b2) (J1 + J2) (Rmax M1 M2).
Proof.
  intros (C1 & G1 & E1 & B1 & (Is1 & F1 & S1)) (C2 & G2 & E2 & B2 & (Is2 & F2 & S2)).
  pose proof (Rmax_l M1 M2). pose proof (Rmax_r M1 M2).
  split; [intros h; now apply (continuity_pt_plus D1 D2)|]. split; [|split; [|split]].
  - intros h N. rewrite in_app_iff in N. destruct (G1 h ltac:(tauto)) as (d1 & k1). destruct (G2 h ltac:(tauto)) as (d2 & k2).
    split; [rewrite moment_app; now apply (derivable_pt_lim_plus D1 D2)|]. intros u Nu. rewrite map_app, in_app_iff in Nu.
    destruct (k1 u ltac:(tauto)) as (o1 & t1). destruct (k2 u ltac:(tauto)) as (o2 & t2).
    split; [intros s I; apply in_app_iff in I as [I|I]; auto|]. rewrite tot_app, count_app, t1, t2. reflexivity.
  - intros m Hm. rewrite <- (E1 m), <- (E2 m) by lra. ring.
  - intros s q I O. apply in_app_iff in I as [I|I]; [destruct (B1 s q I O)|destruct (B2 s q I O)]; lra.
  - exists (Is1 ++ Is2). split; [now apply Forall2_app|]. rewrite map_app, !ProofMeasure.rsum_app, S1, S2. ring.
Qed.

(** ** Lines *)
Definition clip (a b x : R) : R := Rmax a (Rmin x b).

Lemma continuity_clip a b x : continuity_pt (clip a b) x.
Proof. apply (continuity_pt_comp (fun x => Rmin x b) (Rmax a)); [apply continuity_Rmin|apply continuity_Rmax]. Qed.
Lemma clip_low a b x : a <= b -> x <= a -> clip a b x = a.
Proof. intros. unfold clip. rewrite Rmin_left by lra. apply Rmax_left. lra. Qed.
Lemma clip_high a b x : a <= b -> b <= x -> clip a b x = b.
Proof. intros. unfold clip. rewrite Rmin_right by lra. apply Rmax_right. lra. Qed.
Lemma clip_mid a b x : a <= x <= b -> clip a b x = x.
Proof. intros. unfold clip. rewrite Rmin_left by lra. apply Rmax_right. lra. Qed.

Lemma line_profile v1 v2 : pbulge v1 = 0 -> exists D L bad J M, profile [(v1, v2) : seg] D L bad J M.
Proof.
  intros B. set (x1 := px v1). set (y1 := py v1). set (dx := px v2 - x1). set (dy := py v2 - y1).
  set (M := Rabs x1 + Rabs (px v2) + Rabs y1 + Rabs (py v2)).
  assert (Bd : forall (s : seg) q, In s [(v1, v2) : seg] -> on s q -> Rabs (vx q) <= M /\ Rabs (vy q) <= M).
  { intros s q [<-|[]] (t & Ht & Hq). apply seg_at_line in Hq; [|exact B]. rewrite Hq. unfold line_pt, pos. cbn [fst snd vx vy].
    fold x1 y1. assert (G : forall a b, Rabs (a + t * (b - a)) <= Rabs a + Rabs b).
    { intros a b. replace (a + t * (b - a)) with ((1 - t) * a + t * b) by ring. eapply Rle_trans; [apply Rabs_triang|]. rewrite !Rabs_mult, !(Rabs_right t), (Rabs_right (1 - t)) by lra.
      pose proof (Rabs_pos a). pose proof (Rabs_pos b). nra. }
    pose proof (G x1 (px v2)). pose proof (G y1 (py v2)). pose proof (Rabs_pos x1). pose proof (Rabs_pos y1). pose proof (Rabs_pos (px v2)). pose proof (Rabs_pos (py v2)). unfold M. split; lra. }
  assert (Int : exists Is, Forall2 (fun (s : seg) I => seg_has_integral (fst s) (snd s) I) [(v1, v2) : seg] Is
       /\ rsum Is = 2 * (dy * (x1 + dx / 2)) - rsum (map (fun s : seg => corner (snd s) - corner (fst s)) [(v1, v2) : seg])).
  { exists [2 * (dy * (x1 + dx / 2)) - (corner v2 - corner v1)]. split; [|cbn; ring]. constructor; [|constructor]. cbn [fst snd].
    exists (fun t => px v1 + t * (px v2 - px v1)), (fun t => py v1 + t * (py v2 - py v1)),
      (fun _ => px v2 - px v1), (fun _ => py v2 - py v1), (fun t => 0 + t * (px v1 * py v2 - py v1 * px v2)).
    split; [now apply line_param|]. split; [intros t; eapply deriv_ext; [apply deriv_affine|ring]|]. unfold corner, dx, dy, x1, y1. field. }
  assert (Nw : forall x, nw x (v1, v2) = process_line_winding v1 v2 x).
  { intros x. unfold nw, winding_step. rewrite (proj2 (bulge_ok_zero v1 (or_introl B)) B). reflexivity. }
  assert (Il : forall x, is_left (pos v1) (pos v2) x = rltb 0 (perp v1 v2 x)).
  { intros x. unfold is_left, perp_dot_test_value, perp, pos. rnum. reflexivity. }
  destruct (Req_dec dy 0) as [Z|Z].
  - exists (fun _ => 0), (fun _ => []), [y1], (dy * (x1 + dx / 2)), M. split; [intros h; apply continuity_pt_const; intros u v; reflexivity|]. split; [|split; [|split]].
    + intros h N. assert (Nh : h <> y1) by (intros ->; apply N; now left). split; [apply derivable_pt_lim_const|]. intros u _. split.
      * intros s [<-|[]] (t & Ht & Hq). apply seg_at_line in Hq; [|exact B]. unfold line_pt, pos in Hq. cbn [fst snd vx vy] in Hq. injection Hq as _ Q. fold y1 dy in Q. rewrite Z in Q. apply Nh. lra.
      * unfold tot. cbn [map]. rewrite Nw. unfold process_line_winding. rnum. cbn [vy]. replace (py v2) with y1 by (unfold dy in Z; lra). fold y1.
        destruct (rleb y1 h) eqn:Q1; [apply rleb_true in Q1|apply rleb_false in Q1].
        -- rewrite (proj2 (rltb_false h y1)) by lra. reflexivity.
        -- reflexivity.
    + intros m _. rewrite Z. ring.
    + exact Bd.
    + exact Int.
  - set (e := if Rlt_dec 0 dy then 1%Z else (-1)%Z).
    set (f := fun h => (h - y1) / dy). set (g := fun h => clip 0 1 (f h)).
    set (D := fun h => IZR e * (dy * (x1 * g h + dx / 2 * (g h * g h)))).
    set (L := fun h => [(if Rlt_dec 0 (f h) then if Rlt_dec (f h) 1 then e else 0%Z else 0%Z, x1 + f h * dx)] : slice).
    assert (Cf : forall h, derivable_pt_lim f h (/ dy)).
    { intros h. eapply deriv_ext; [apply (deriv_local _ (fun t => - y1 / dy + t * (/ dy)))|].
      - exists 1. split; [lra|]. intros t _. unfold f. field. exact Z.
      - apply deriv_affine.
      - ring. }
    assert (Cg : forall h, continuity_pt g h).
    { intros h. apply (continuity_pt_comp f (clip 0 1)); [|apply continuity_clip]. apply derivable_continuous_pt. exists (/ dy). apply Cf. }
    exists D, L, [y1; py v2], (dy * (x1 + dx / 2)), M. split; [|split; [|split; [|split]]].
    + intros h. apply (continuity_pt_comp g (fun t => IZR e * (dy * (x1 * t + dx / 2 * (t * t)))) h (Cg h)).
      apply derivable_continuous_pt. reg.
    + intros h N. assert (Nh : h <> y1 /\ h <> py v2) by (split; intros ->; apply N; cbn; auto). destruct Nh as (Nh1 & Nh2).
      assert (Fh : h - y1 = f h * dy) by (unfold f; field; exact Z).
      assert (F0 : f h <> 0) by (intros Q; rewrite Q in Fh; lra).
      assert (F1 : f h <> 1) by (intros Q; rewrite Q in Fh; unfold dy in Fh; lra).
      assert (Cl : exists d, 0 < d /\ forall y, Rabs (y - h) < d -> (f h < 0 -> f y < 0) /\ (f h > 1 -> f y > 1) /\ (0 < f h < 1 -> 0 < f y < 1)).
      { assert (Cc : continuity_pt f h) by (apply derivable_continuous_pt; exists (/ dy); apply Cf).
        destruct (Cc (Rmin (Rabs (f h)) (Rabs (f h - 1)))) as (d & Hd & K).
        - apply Rmin_pos; apply Rabs_pos_lt; lra.
        - exists d. split; [exact Hd|]. intros y Hy. destruct (Req_dec h y) as [<-|NE]; [lra|].
          assert (Q : Rabs (f y - f h) < Rmin (Rabs (f h)) (Rabs (f h - 1))) by (apply (K y); split; [split; [exact I|exact NE]|exact Hy]).
          pose proof (Rmin_l (Rabs (f h)) (Rabs (f h - 1))). pose proof (Rmin_r (Rabs (f h)) (Rabs (f h - 1))).
          unfold Rabs in *. repeat destruct (Rcase_abs _); lra. }
      destruct Cl as (d & Hd & Cl). split.
      * unfold L, moment. cbn [map fst snd rsum fold_right]. rewrite Rplus_0_r.
        destruct (Rlt_dec 0 (f h)) as [P0|P0]; [destruct (Rlt_dec (f h) 1) as [P1|P1]|].
        -- apply (deriv_local _ (fun y => IZR e * (dy * (x1 * f y + dx / 2 * (f y * f y))))).
           ++ exists d. split; [exact Hd|]. intros y Hy. unfold D, g. rewrite clip_mid by (destruct (Cl y Hy) as (_ & _ & Q); specialize (Q (conj P0 P1)); lra). reflexivity.
           ++ eapply deriv_ext.
              ** apply (derivable_pt_lim_comp f (fun t => IZR e * (dy * (x1 * t + dx / 2 * (t * t)))) h _ (IZR e * (dy * (x1 + dx * f h))) (Cf h)).
                 apply (derivable_pt_lim_scal (fun t => dy * (x1 * t + dx / 2 * (t * t))) (IZR e)). apply (derivable_pt_lim_scal (fun t => x1 * t + dx / 2 * (t * t)) dy).
                 eapply deriv_ext.
                 --- apply (derivable_pt_lim_plus (fun t => x1 * t) (fun t => dx / 2 * (t * t))).
                     +++ apply (derivable_pt_lim_scal id x1). apply derivable_pt_lim_id.
                     +++ apply (derivable_pt_lim_scal (fun t => t * t) (dx / 2)). apply (derivable_pt_lim_mult id id); apply derivable_pt_lim_id.
                 --- unfold id. field.
              ** field. exact Z.
        -- apply (deriv_local _ (fun _ => IZR e * (dy * (x1 * 1 + dx / 2 * (1 * 1))))).
           ++ exists d. split; [exact Hd|]. intros y Hy. unfold D, g. rewrite clip_high by (destruct (Cl y Hy) as (_ & Q & _); specialize (Q ltac:(lra)); lra). reflexivity.
           ++ eapply deriv_ext; [apply derivable_pt_lim_const|ring].
        -- apply (deriv_local _ (fun _ => IZR e * (dy * (x1 * 0 + dx / 2 * (0 * 0))))).
           ++ exists d. split; [exact Hd|]. intros y Hy. unfold D, g. rewrite clip_low by (destruct (Cl y Hy) as (Q & _ & _); specialize (Q ltac:(lra)); lra). reflexivity.
           ++ eapply deriv_ext; [apply derivable_pt_lim_const|ring].
      * unfold L. cbn [map snd In]. intros u Nu. assert (Nu' : u <> x1 + f h * dx) by (intros ->; apply Nu; now left). split.
        -- intros s [<-|[]] (t & Ht & Hq). apply seg_at_line in Hq; [|exact B]. unfold line_pt, pos in Hq. cbn [fst snd vx vy] in Hq. injection Hq as Q1 Q2. fold x1 y1 in Q1, Q2. fold dx in Q1. fold dy in Q2.
           assert (f h = t) by (unfold f; rewrite Q2; field; exact Z). apply Nu'. rewrite Q1. subst t. reflexivity.
        -- unfold tot, count, zsum. cbn [map fold_right fst snd]. rewrite !Z.add_0_r, Nw. unfold process_line_winding. rewrite Il. rnum. cbn [vy]. fold y1.
           assert (P : perp v1 v2 (V2 u h) = dy * (x1 + f h * dx - u)).
           { unfold perp. cbn [vx vy]. fold x1 y1. fold dx. fold dy. rewrite Fh. ring. }
           rewrite P. replace (py v2) with (y1 + dy) by (unfold dy; ring).
           unfold e. destruct (Rlt_dec 0 dy) as [Pd|Pd].
           ++ destruct (Rlt_dec 0 (f h)) as [P0|P0]; [destruct (Rlt_dec (f h) 1) as [P1|P1]|].
              ** assert (0 < f h * dy) by nra. assert (f h * dy < dy) by nra.
                 rewrite (proj2 (rleb_true y1 h)) by lra. rewrite (proj2 (rltb_true h (y1 + dy))) by lra. cbn [andb].
                 destruct (Rlt_dec u (x1 + f h * dx)) as [U|U].
                 --- rewrite (proj2 (rltb_true _ _)); [reflexivity|nra].
                 --- rewrite (proj2 (rltb_false _ _)); [reflexivity|nra].
              ** assert (dy < f h * dy) by nra. rewrite (proj2 (rleb_true y1 h)) by lra. rewrite (proj2 (rltb_false h (y1 + dy))) by lra. cbn [andb]. destruct (Rlt_dec u _); reflexivity.
              ** assert (f h * dy < 0) by nra. rewrite (proj2 (rleb_false y1 h)) by lra. rewrite (proj2 (rleb_false (y1 + dy) h)) by lra. cbn [andb]. destruct (Rlt_dec u _); reflexivity.
           ++ assert (Pd' : dy < 0) by lra. destruct (Rlt_dec 0 (f h)) as [P0|P0]; [destruct (Rlt_dec (f h) 1) as [P1|P1]|].
              ** assert (f h * dy < 0) by nra. assert (dy < f h * dy) by nra.
                 rewrite (proj2 (rleb_false y1 h)) by lra. rewrite (proj2 (rleb_true (y1 + dy) h)) by lra. cbn [andb].
                 destruct (Rlt_dec u (x1 + f h * dx)) as [U|U].
                 --- rewrite (proj2 (rltb_false _ _)); [reflexivity|nra].
                 --- rewrite (proj2 (rltb_true _ _)); [reflexivity|nra].
              ** assert (f h * dy < dy) by nra. rewrite (proj2 (rleb_false y1 h)) by lra. rewrite (proj2 (rleb_false (y1 + dy) h)) by lra. cbn [andb]. destruct (Rlt_dec u _); reflexivity.
              ** assert (0 < f h * dy) by nra. rewrite (proj2 (rleb_true y1 h)) by lra. rewrite (proj2 (rltb_false h (y1 + dy))) by lra. cbn [andb]. destruct (Rlt_dec u _); reflexivity.
    + intros m Hm. unfold D, g.
      assert (Y : - m <= y1 <= m /\ - m <= y1 + dy <= m).
      { unfold M in Hm. pose proof (Rabs_pos x1). pose proof (Rabs_pos (px v2)). pose proof (Rabs_pos (py v2)). pose proof (Rabs_pos y1). pose proof (Rle_abs y1). pose proof (Rle_abs (py v2)). pose proof (Rle_abs (- y1)). pose proof (Rle_abs (- py v2)). rewrite Rabs_Ropp in *. unfold dy. lra. }
      assert (F1 : m - y1 = f m * dy) by (unfold f; field; exact Z). assert (F2 : - m - y1 = f (- m) * dy) by (unfold f; field; exact Z).
      unfold e. destruct (Rlt_dec 0 dy) as [Pd|Pd].
      * rewrite (clip_high 0 1 (f m)), (clip_low 0 1 (f (- m))); try lra; try nra.
      * assert (dy < 0) by lra. rewrite (clip_low 0 1 (f m)), (clip_high 0 1 (f (- m))); try lra; try nra.
    + exact Bd.
    + exact Int.
Qed.
