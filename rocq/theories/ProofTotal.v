(** Areas of several loops and the sums of their winding numbers (C72). *)
From Coq Require Import Reals ZArith Bool List Lra Lia Psatz Classical.
From Verif Require Import Num RNum Res ModelMath ModelSeg ModelPline Spec SpecGeom SpecBox SpecWinding SpecBoolean SpecView SpecRegion SpecJordan.
From Verif Require Import ProofR ProofBase ProofIter ProofArc ProofArc2 ProofSlice ProofMeasure ProofWalk ProofIntr ProofWinding ProofWinding2 ProofWinding3 ProofWinding4 ProofWinding6 ProofWinding7 ProofSegIntr5 ProofPolyOff2 ProofNest ProofJordan ProofJordan2 ProofJordan5 ProofJordan6 ProofArea ProofArea2 ProofArea3 ProofArea4 ProofArea5.
Import ListNotations.
Local Open Scope R_scope.

(** The height integral of a combination of loops. *)
Definition graded (D : R -> R) (L : R -> slice) (bd : list R) (J M : R) : Prop :=
  (forall h, continuity_pt D h)
  /\ (forall h, ~ In h bd -> derivable_pt_lim D h (moment (L h)) /\ weight (L h) = 0%Z)
  /\ (forall m, M <= m -> D m - D (- m) = J).

Lemma weight_app a b : weight (a ++ b) = (weight a + weight b)%Z.
Proof. unfold weight. rewrite map_app. apply zsum_app. Qed.

Lemma graded_add D1 L1 b1 J1 M1 D2 L2 b2 J2 M2 : graded D1 L1 b1 J1 M1 -> graded D2 L2 b2 J2 M2 ->
  graded (fun h => D1 h + D2 h) (fun h => L1 h ++ L2 h) (b1 ++ b2) (J1 + J2) (Rmax M1 M2).
Proof.
  intros (C1 & G1 & E1) (C2 & G2 & E2). pose proof (Rmax_l M1 M2). pose proof (Rmax_r M1 M2).
  split; [intros h; now apply (continuity_pt_plus D1 D2)|]. split.
  - intros h N. rewrite in_app_iff in N. destruct (G1 h ltac:(tauto)) as (d1 & k1). destruct (G2 h ltac:(tauto)) as (d2 & k2).
    split; [rewrite moment_app; now apply (derivable_pt_lim_plus D1 D2)|]. rewrite weight_app, k1, k2. reflexivity.
  - intros m Hm. rewrite <- (E1 m), <- (E2 m) by lra. ring.
Qed.

Lemma graded_scale o D L bd J M : graded D L bd J M -> graded (fun h => IZR o * D h) (fun h => signed o (L h)) bd (IZR o * J) M.
Proof.
  intros (C & G & E). split; [intros h; apply (continuity_pt_mult (fun _ => IZR o) D); [apply continuity_pt_const; intros x y; reflexivity|apply C]|]. split.
  - intros h N. destruct (G h N) as (d & k). split; [rewrite signed_moment; apply (derivable_pt_lim_scal D (IZR o)); exact d|]. rewrite signed_weight, k. lia.
  - intros m Hm. rewrite <- (E m Hm). ring.
Qed.

Lemma graded_sign D L bd J M : graded D L bd J M ->
  (forall h u, ~ In h bd -> ~ In u (map snd (L h)) -> (0 <= count (L h) u)%Z) -> 0 <= J.
Proof.
  intros (C & G & E) S. set (m := Rmax M 0). pose proof (Rmax_l M 0). pose proof (Rmax_r M 0). fold m in H, H0. rewrite <- (E m H).
  assert (D (- m) <= D m); [|lra]. apply (mono_except D (fun h => moment (L h)) bd); [lra|intros; apply C|].
  intros x _ N. destruct (G x N) as (d & k). split; [exact d|]. apply abel; [exact k|]. intros u Nu. now apply S.
Qed.

Definition the_area (p : pline R) : R := match area p with Ret A => A | Panic _ => 0 end.

Definition loop_ok (p : pline R) : Prop := valid_loop p /\ pline_ok p.

Lemma loop_profile p : loop_ok p -> exists D L bd M, graded D L bd (the_area p) M
  /\ forall h u, ~ In h bd -> ~ In u (map snd (L h)) -> ~ on_path p (V2 u h) /\ wn p (V2 u h) = count (L h) u.
Proof.
  intros (vl & ok). pose proof (oks_l p ok) as Ol. pose proof (looped_l p vl) as Ll.
  set (l := spec_segs (vtx p) (is_closed p)) in *.
  destruct (list_profile l Ol) as (D & L & bd & J & M & P).
  assert (PI' : path_has_integral p (2 * J)).
  { destruct P as (_ & _ & _ & _ & (Is & F & S)). exists Is. split; [exact F|]. rewrite S.
    assert (Z : rsum (map (fun s : seg => corner (snd s) - corner (fst s)) l) = 0) by exact (Ll (fun q => vx q * vy q)). fold l in Z |- *. unfold seg in *. lra. }
  assert (EJ : the_area p = J). { unfold the_area. rewrite (area_correct p _ (proj2 vl) ok PI'). field. }
  exists D, L, bd, M. rewrite EJ. split.
  - pose proof P as (C & G & E & _). split; [exact C|]. split; [|exact E]. intros h N. split; [apply (G h N)|]. exact (level_weight l D L bd J M Ol Ll P h N).
  - intros h u N Nu. destruct P as (_ & G & _). destruct (G h N) as (_ & Gu). destruct (Gu u Nu) as (O & Ec).
    assert (Off : ~ on_path p (V2 u h)) by (intros (a & b & I & On); exact (O (a, b) I On)). split; [exact Off|]. rewrite (wn_tot p ok vl _ Off). exact Ec.
Qed.

Definition combo := list (Z * pline R).
Definition combo_wn (F : combo) (x : vec2 R) : Z := zsum (map (fun e => (fst e * wn (snd e) x)%Z) F).
Definition combo_area (F : combo) : R := rsum (map (fun e => IZR (fst e) * the_area (snd e)) F).

Lemma combo_profile F : (forall e, In e F -> loop_ok (snd e)) -> exists D L bd M, graded D L bd (combo_area F) M
  /\ forall h u, ~ In h bd -> ~ In u (map snd (L h)) -> (forall e, In e F -> ~ on_path (snd e) (V2 u h)) /\ combo_wn F (V2 u h) = count (L h) u.
Proof.
  induction F as [|[c p] F IH]; intros H.
  - exists (fun _ => 0), (fun _ => []), [], 0. split.
    + split; [intros h; apply continuity_pt_const; intros u v; reflexivity|]. split; [intros h _; split; [apply derivable_pt_lim_const|reflexivity]|]. intros m _. cbn. ring.
    + intros h u _ _. split; [intros e []|reflexivity].
  - destruct IH as (D2 & L2 & b2 & M2 & G2 & K2); [intros e I; apply H; now right|].
    destruct (loop_profile p (H (c, p) (or_introl eq_refl))) as (D1 & L1 & b1 & M1 & G1 & K1).
    pose proof (graded_add _ _ _ _ _ _ _ _ _ _ (graded_scale c _ _ _ _ _ G1) G2) as G. eexists _, _, _, _. split.
    + unfold combo_area. cbn [map fst snd]. rewrite rsum_cons. exact G.
    + intros h u N Nu. cbv beta in Nu. rewrite in_app_iff in N. rewrite map_app, signed_snd, in_app_iff in Nu. destruct (K1 h u ltac:(tauto) ltac:(tauto)) as (O1 & E1). destruct (K2 h u ltac:(tauto) ltac:(tauto)) as (O2 & E2).
      split; [intros e [<-|I]; [exact O1|now apply O2]|]. unfold combo_wn, zsum in *. cbn [map fold_right fst snd]. rewrite E2, E1, count_app, signed_count. reflexivity.
Qed.

Lemma combo_sign F : (forall e, In e F -> loop_ok (snd e)) ->
  (forall x, (forall e, In e F -> ~ on_path (snd e) x) -> (0 <= combo_wn F x)%Z) -> 0 <= combo_area F.
Proof.
  intros H S. destruct (combo_profile F H) as (D & L & bd & M & G & K). apply (graded_sign _ _ _ _ _ G).
  intros h u N Nu. destruct (K h u N Nu) as (O & E). rewrite <- E. now apply S.
Qed.

Lemma combo_wn_app F G x : combo_wn (F ++ G) x = (combo_wn F x + combo_wn G x)%Z.
Proof. unfold combo_wn. rewrite map_app. apply zsum_app. Qed.
Lemma combo_area_app F G : combo_area (F ++ G) = combo_area F + combo_area G.
Proof. unfold combo_area. rewrite map_app. apply ProofMeasure.rsum_app. Qed.

Definition times_combo (k : Z) (F : combo) : combo := map (fun e => ((k * fst e)%Z, snd e)) F.
Lemma combo_wn_times k F x : combo_wn (times_combo k F) x = (k * combo_wn F x)%Z.
Proof. induction F as [|[c p] F IH]; unfold combo_wn, times_combo, zsum in *; cbn [map fold_right fst snd] in *; [lia|]. rewrite IH. ring. Qed.
Lemma combo_area_times k F : combo_area (times_combo k F) = IZR k * combo_area F.
Proof. induction F as [|[c p] F IH]; unfold combo_area, times_combo in *; cbn [map fst snd] in *; [cbn; ring|]. rewrite !rsum_cons, IH, mult_IZR. ring. Qed.
Lemma times_combo_in k F e : In e (times_combo k F) -> exists e', In e' F /\ snd e = snd e'.
Proof. intros I. apply in_map_iff in I as (e' & <- & I). eauto. Qed.
Lemma times_combo_in' k F e : In e F -> In ((k * fst e)%Z, snd e) (times_combo k F).
Proof. intros I. apply in_map_iff. exists e. auto. Qed.

(** Winding numbers determine areas. *)
Lemma combo_le F G : (forall e, In e (F ++ G) -> loop_ok (snd e)) ->
  (forall x, (forall e, In e (F ++ G) -> ~ on_path (snd e) x) -> (combo_wn F x <= combo_wn G x)%Z) -> combo_area F <= combo_area G.
Proof.
  intros H S. assert (0 <= combo_area (times_combo (-1) F ++ G)); [|rewrite combo_area_app, combo_area_times in *; lra].
  apply combo_sign.
  - intros e I. apply in_app_or in I as [I|I]; [apply times_combo_in in I as (e' & I & ->)|]; apply H; apply in_or_app; auto.
  - intros x O. rewrite combo_wn_app, combo_wn_times. assert (combo_wn F x <= combo_wn G x)%Z; [|lia]. apply S. intros e I. apply in_app_or in I as [I|I].
    + exact (O _ (in_or_app _ _ _ (or_introl (times_combo_in' (-1) F e I)))).
    + apply O. apply in_or_app. now right.
Qed.
