(** The path drawn by joining raw offset lines stays near (C48): the whole raw offset. *)
From Coq Require Import Reals ZArith Bool List Arith Lra Lia Psatz.
From Verif Require Import Num RNum Res ModelMath ModelIntr ModelSeg ModelPline ModelOffset.
From Verif Require Import Spec SpecGeom SpecIntr SpecBox SpecOffset SpecOffsetJoin SpecRawNear.
From Verif Require Import ProofR ProofBase ProofIter ProofArc ProofIntr ProofRepeat ProofSegIntr2 ProofSegIntr5 ProofOffsetJoin ProofOffsetJoin2 ProofOffsetJoin3 ProofOffsetJoin4 ProofOffsetTotal ProofRawNear ProofRawNear2.
Import ListNotations.
Local Open Scope R_scope.

Lemma combine_short {A B} (l : list A) (m t : list B) : (length l <= length m)%nat -> combine l (m ++ t) = combine l m.
Proof. revert m. induction l as [|a l IH]; intros [|b m] H; cbn in *; try reflexivity; try lia. f_equal. apply IH. lia. Qed.

Lemma combine_short' {A B} (l t : list A) (m : list B) : (length m <= length l)%nat -> combine (l ++ t) m = combine l m.
Proof. revert m. induction l as [|a l IH]; intros [|b m] H; cbn in *; try reflexivity; try lia; [destruct t; reflexivity|]. f_equal. apply IH. lia. Qed.

Lemma segs_ring {A} (a : A) t : t <> [] -> spec_segs (a :: t) true = combine (a :: t ++ [a]) (tl (a :: t ++ [a])).
Proof.
  intros N. destruct t as [|b t]; [contradiction|]. cbn [spec_segs tl].
  change (a :: (b :: t) ++ [a]) with ((a :: b :: t) ++ [a]). rewrite combine_short'; [reflexivity|]. rewrite app_length. cbn. lia.
Qed.

Lemma segs_line {A} (l : list A) : spec_segs l false = combine l (tl l).
Proof. destruct l as [|a [|b t]]; cbn [spec_segs tl]; [reflexivity|reflexivity|]. now rewrite app_nil_r. Qed.

Lemma chain_of_In {A} (Q : A -> A -> Prop) l : (forall a b, In (a, b) (combine l (tl l)) -> Q a b) -> chain Q l.
Proof.
  induction l as [|a [|b l] IH]; intros H; [exact I|exact I|]. split; [apply H; now left|]. apply IH. intros x y HI. apply H. now right.
Qed.

Lemma chain_and {A} (Q Q' : A -> A -> Prop) l : chain Q l -> chain Q' l -> chain (fun a b => Q a b /\ Q' a b) l.
Proof. induction l as [|a [|b l] IH]; [easy|easy|]. intros [H1 H2] [H3 H4]. split; [easy|]. now apply IH. Qed.

Lemma segs_adjacent {A} (l : list A) : chain (fun g g' : A * A => fst g' = snd g) (combine l (tl l)).
Proof.
  induction l as [|a [|b l] IH]; [exact I|exact I|]. cbn [tl combine] in *. destruct l as [|c l]; [exact I|]. cbn [combine] in *.
  split; [reflexivity|]. destruct l as [|e l]; [exact I|]. exact IH.
Qed.

Lemma pairs_snoc {A} (l : list A) a b : combine (l ++ [a; b]) (tl (l ++ [a; b])) = combine (l ++ [a]) (tl (l ++ [a])) ++ [(a, b)].
Proof.
  induction l as [|x [|y l] IH]; [reflexivity|reflexivity|].
  change (combine ((x :: y :: l) ++ [a; b]) (tl ((x :: y :: l) ++ [a; b]))) with ((x, y) :: combine ((y :: l) ++ [a; b]) (tl ((y :: l) ++ [a; b]))).
  rewrite IH. reflexivity.
Qed.

Lemma windows2_combine {A} (l : list A) : windows2 l = combine l (tl l).
Proof. induction l as [|a [|b l] IH]; [reflexivity|reflexivity|]. change (windows2 (a :: b :: l)) with ((a, b) :: windows2 (b :: l)). rewrite IH. reflexivity. Qed.

Lemma last_nonempty_default {A} (l : list A) (x y : A) : l <> [] -> last l x = last l y.
Proof. induction l as [|a [|b l] IH]; intros N; [contradiction|reflexivity|]. change (last (b :: l) x = last (b :: l) y). apply IH. discriminate. Qed.

Section Raw.
Variables (P : pline R) (d eps : R).
Hypotheses (He : 0 < eps) (Hd : d <> 0).
Variable ccw : bool.
Hypothesis Hccw : ccw = true <-> d < 0.

Definition seg := (vertex R * vertex R)%type.
Definition good (g : seg) : Prop := ~ is_point (pos (fst g)) (pos (snd g)) eps /\ in_path P (pos (fst g)) (pos (snd g)).
Definition corner (g g' : seg) : Prop := pos (fst g') = pos (snd g) /\ clear_corner d eps (pos (fst g)) (pos (snd g)) (pos (snd g')).
Definition ready_at (s : raw_seg R) (g : seg) (vs : list (vertex R)) : Prop :=
  exists n, line_raw s (pos (fst g)) (pos (snd g)) n d /\ ready P d eps (pos (fst g)) (pos (snd g)) n vs.
Definition ext_at (s : raw_seg R) (g : seg) (z : vec2 R) : Prop :=
  exists n, line_raw s (pos (fst g)) (pos (snd g)) n d /\ ext d eps (pos (fst g)) (pos (snd g)) n z.

Lemma not_point_neq p q : ~ is_point p q eps -> p <> q.
Proof. intros N ->. apply N. unfold is_point. rewrite !Rminus_diag_eq, Rabs_R0 by reflexivity. lra. Qed.

Lemma good_end g : good g -> on_path P (pos (snd g)).
Proof. intros [_ H]. rewrite <- (line_pt_1 (pos (fst g)) (pos (snd g))). apply H. lra. Qed.

Lemma line_raw_normal s p q n n' : p <> q -> line_raw s p q n d -> left_normal p q n' -> n' = n.
Proof.
  intros N (H & _) H'. destruct (unit_of p q N) as (e & L & _ & _ & _ & _ & _ & M). rewrite (M n H), (M n' H'). reflexivity.
Qed.

Lemma ready_nonempty p q n vs : ready P d eps p q n vs -> vs <> [].
Proof. intros (pre & w & _ & -> & _) E. apply app_eq_nil in E as [_ E]. discriminate. Qed.

Lemma join_one g g' s s' pl : good g -> good g' -> corner g g' -> ready_at s g (vtx pl) -> raw_of d g' s' ->
  exists pl', join_seg_pair ccw eps pl (s, s') = Ret pl' /\ is_closed pl' = is_closed pl /\ ready_at s' g' (vtx pl') /\ grows (vtx pl) (vtx pl')
  /\ (exists n n', line_raw s (pos (fst g)) (pos (snd g)) n d /\ joins P d eps (pos (fst g)) (pos (snd g)) n (pos (snd g)) (pos (snd g')) n' (vtx pl) (vtx pl'))
  /\ forall pre vs, vtx pl = [vs] -> ready_at s g (pre ++ [vs]) -> ready_at s' g' (pre ++ vtx pl') /\ grows (pre ++ [vs]) (pre ++ vtx pl').
Proof.
  intros [G1 G2] [G1' G2'] [EA CC] (n & HR & HS) (n' & HR'). rewrite EA in G1', HR'.
  destruct (join_joins P d eps He ccw s s' _ _ _ n n' pl Hd Hccw G1 G1' (good_end g (conj G1 G2)) CC HR HR') as (pl' & E & CL & J).
  exists pl'. split; [exact E|]. split; [exact CL|]. pose proof (not_point_neq _ _ G1) as N. pose proof HR as (HN & _).
  split; [|split; [|split]].
  - exists n'. rewrite EA. split; [exact HR'|]. exact (joins_step P d eps He _ _ n _ _ n' _ _ N G2 HN HS J).
  - apply (joins_grows P d eps _ _ _ _ _ _ _ _ (ready_nonempty _ _ _ _ HS) J).
  - exists n, n'. split; [exact HR|exact J].
  - intros pre vs EV HS'. split.
    + destruct HS' as (n2 & HR2 & HS2). assert (n2 = n) by (apply (line_raw_normal s _ _ n n2 N HR); apply HR2). subst n2.
      exists n'. rewrite EA. split; [exact HR'|]. apply (joins_step P d eps He _ _ n _ _ n' (pre ++ [vs]) _ N G2 HN HS2).
      rewrite EV in J. apply joins_app; [discriminate|exact J].
    + rewrite EV in J. apply (joins_grows P d eps (pos (fst g)) (pos (snd g)) n (pos (snd g)) (pos (snd g')) n'); [intros X; apply app_eq_nil in X as [_ X]; discriminate|]. apply joins_app; [discriminate|exact J].
Qed.

Lemma join_all gs : forall ss g s pl, Forall2 (raw_of d) gs ss -> chain corner (g :: gs) -> Forall good (g :: gs) -> ready_at s g (vtx pl) ->
  exists pl', rfold (join_seg_pair ccw eps) (windows2 (s :: ss)) pl = Ret pl' /\ is_closed pl' = is_closed pl
  /\ ready_at (last ss s) (last gs g) (vtx pl') /\ grows (vtx pl) (vtx pl').
Proof.
  induction gs as [|g' gs IH]; intros ss g s pl HR HC HG HS.
  - inversion HR; subst. exists pl. cbn. split; [reflexivity|]. split; [reflexivity|]. split; [exact HS|]. apply grows_refl.
    destruct HS as (n & _ & HS). now apply ready_nonempty in HS.
  - inversion HR as [|? s' ? ss' HR1 HR2]; subst. destruct HC as [HC1 HC2]. inversion HG as [|? ? HG1 HG2]; subst. inversion HG2 as [|? ? HG3 _]; subst.
    destruct (join_one g g' s s' pl HG1 HG3 HC1 HS HR1) as (pl1 & E1 & CL1 & HS1 & GR1 & _).
    destruct (IH ss' g' s' pl1 HR2 HC2 HG2 HS1) as (pl2 & E2 & CL2 & HS2 & GR2).
    exists pl2. cbn [windows2 rfold]. rewrite E1. cbn [rbind]. split; [exact E2|]. split; [congruence|]. split.
    + replace (last (s' :: ss') s) with (last ss' s') by (destruct ss'; [reflexivity|apply (last_nonempty_default (r :: ss') s' s); discriminate]).
      replace (last (g' :: gs) g) with (last gs g') by (destruct gs; [reflexivity|apply (last_nonempty_default (p :: gs) g' g); discriminate]). exact HS2.
    + now apply grows_trans with (vtx pl1).
Qed.

(** The first vertex, or the second, is on the offset of the first segment. *)
Definition head_ok (rep : bool) (s : raw_seg R) (g : seg) (vs : list (vertex R)) : Prop :=
  if rep then exists v0 t, vs = v0 :: t /\ ext_at s g (pos v0)
  else exists v0 v1 t, vs = v0 :: v1 :: t /\ pbulge v0 = 0 /\ ext_at s g (pos v1).

Lemma head_grows rep s g vs vs' : head_ok rep s g vs -> grows vs vs' -> head_ok rep s g vs'.
Proof.
  intros H (pre & w & w' & t' & -> & -> & E). destruct rep; cbn in *.
  - destruct H as (v0 & t & E0 & H). destruct pre as [|a pre]; injection E0 as -> E0.
    + exists w', t'. rewrite E. auto.
    + exists v0, (pre ++ w' :: t'). auto.
  - destruct H as (v0 & v1 & t & E0 & Z & H). destruct pre as [|a pre]; [discriminate|]. injection E0 as -> E0.
    destruct pre as [|b pre]; injection E0 as -> E0.
    + exists v0, w', t'. rewrite E. auto.
    + exists v0, v1, (pre ++ w' :: t'). auto.
Qed.

Lemma ready_start s g : good g -> raw_of d g s -> ready_at s g [rs_v1 s] /\ ext_at s g (pos (rs_v1 s)) /\ pbulge (rs_v1 s) = 0.
Proof.
  intros [G1 G2] (n & HR). pose proof HR as (HN & E1 & _). pose proof (ext_ends d eps He (pos (fst g)) (pos (snd g)) n) as [X1 X2].
  split; [|split].
  - exists n. split; [exact HR|]. exists [], (rs_v1 s), (moved (pos (fst g)) n d). rewrite E1. split; [reflexivity|]. split; [reflexivity|].
    split; [exact X1|]. split; [cbn [pos vertex_at px py]; change (V2 (vx (moved (pos (fst g)) n d)) (vy (moved (pos (fst g)) n d))) with (moved (pos (fst g)) n d); rewrite dist_self; lra|].
    split; [exact I|]. constructor; [|constructor]. cbn. rewrite Rabs_R0. lra.
  - exists n. split; [exact HR|]. rewrite E1. exact X1.
  - rewrite E1. reflexivity.
Qed.

Lemma put_one v0 v vs' : put eps [v0] v vs' ->
  (is_point (pos v0) (pos v) eps /\ vs' = [Vtx (px v0) (py v0) (pbulge v)]) \/ (~ is_point (pos v0) (pos v) eps /\ vs' = [v0; v]).
Proof.
  intros [(pre & w & E & H & ->)|(H & ->)].
  - destruct pre as [|a pre]; [injection E as <-; left; auto|]. injection E as _ E. symmetry in E. apply app_eq_nil in E as [_ E]. discriminate.
  - right. split; [now apply (H [])|reflexivity].
Qed.

Lemma moved_point p q n : is_point (moved p n d) (moved q n d) eps -> is_point p q eps.
Proof.
  unfold is_point, moved. cbn [vx vy]. intros [H1 H2].
  replace (vx q - vx p) with (vx q + d * vx n - (vx p + d * vx n)) by ring. replace (vy q - vy p) with (vy q + d * vy n - (vy p + d * vy n)) by ring. split; assumption.
Qed.

Lemma head_first g (g' : seg) s n n' vs' : good g -> raw_of d g s -> line_raw s (pos (fst g)) (pos (snd g)) n d ->
  joins P d eps (pos (fst g)) (pos (snd g)) n (pos (snd g)) (pos (snd g')) n' [rs_v1 s] vs' -> head_ok (Nat.eqb (length vs') 1) s g vs'.
Proof.
  intros [G1 G2] HR0 HR HJ. destruct (ready_start s g (conj G1 G2) HR0) as (_ & X0 & Z0). destruct HJ as [(x & X1 & _ & H)|(b & _ & _ & (m & H1 & H2))].
  - apply put_one in H as [[_ ->]|[_ ->]]; cbn.
    + eexists _, []. split; [reflexivity|]. exact X0.
    + exists (rs_v1 s), (vertex_at x 0), []. split; [reflexivity|]. split; [exact Z0|]. exists n. split; [exact HR|]. destruct x; exact X1.
  - pose proof HR as (_ & E1 & _).
    apply put_one in H1 as [[B _]|[_ ->]].
    { exfalso. apply G1. apply (moved_point _ _ n). rewrite E1 in B. exact B. }
    assert (HG : grows [rs_v1 s; vertex_at (moved (pos (snd g)) n d) b] vs') by (eapply put_grows; [discriminate|exact H2]).
    assert (HH : head_ok false s g vs').
    { eapply head_grows; [|exact HG]. exists (rs_v1 s), (vertex_at (moved (pos (snd g)) n d) b), []. split; [reflexivity|]. split; [exact Z0|].
      exists n. split; [exact HR|]. apply (ext_ends d eps He (pos (fst g)) (pos (snd g)) n). }
    pose proof HH as (v0 & v1 & t & EV & _). rewrite EV at 1. exact HH.
Qed.

Definition low (v : vertex R) : Prop := Rabs (pbulge v) <= 1.

Lemma chain_end D pre v v' k : 0 <= k -> Forall low pre -> dist (pos v') (pos v) <= k -> chain (sn P D) (pre ++ [v]) -> chain (sn P (D + k)) (pre ++ [v']).
Proof.
  intros Hk HF Dk HC. destruct pre as [|a pre] using rev_ind; [exact I|]. clear IHpre. rewrite <- app_assoc in *. cbn [app] in *.
  apply chain_snoc in HC as [HC1 HC2]. apply chain_snoc. split.
  - eapply chain_weaken; [|exact HC1]. intros x y. apply sn_le. lra.
  - apply sn_end with v; auto. apply Forall_app in HF as [_ HF]. now inversion HF.
Qed.

(** The closed path through the vertexes is near. *)
Definition ring (D : R) (vs : list (vertex R)) : Prop :=
  Forall low vs /\ match vs with [] | [_] => True | v0 :: t => chain (sn P D) (v0 :: t ++ [v0]) end.

Lemma ring_cons D v0 t : Forall low (v0 :: t) -> chain (sn P D) (v0 :: t ++ [v0]) -> ring D (v0 :: t).
Proof. intros H1 H2. split; [exact H1|]. destruct t; [exact I|exact H2]. Qed.

Lemma ring_le D D' vs : D <= D' -> ring D vs -> ring D' vs.
Proof.
  intros L [H1 H2]. split; [exact H1|]. destruct vs as [|v0 [|v1 t]]; [exact I|exact I|]. eapply chain_weaken; [|exact H2]. intros x y. now apply sn_le.
Qed.

Lemma fuzzy_dist a b : v2fuzzy_eq_eps a b eps = true -> dist a b <= 3 / 2 * eps.
Proof. intros H. pose proof (v2fuzzy_dist_true a b eps H). lra. Qed.

Lemma prune_ring vs r : ring (D0 d eps) vs -> prune_singularity (PL vs true) eps = Ret r -> is_closed r = true /\ ring (Rabs d + 6 * eps) (vtx r).
Proof.
  intros HR. unfold prune_singularity. change (vertex_count (PL vs true)) with (length vs).
  assert (L6 : D0 d eps + 3 / 2 * eps + 3 / 2 * eps <= Rabs d + 6 * eps) by (unfold D0; lra).
  destruct (Nat.ltb_spec 1 (length vs)) as [L|L]; [|intros E; injection E as <-; split; [reflexivity|]; apply ring_le with (D0 d eps); [lra|exact HR]].
  destruct vs as [|v0 [|v1 t]]; cbn [length] in L; try lia.
  change (at_ (PL (v0 :: v1 :: t) true) 0) with (Ret v0). cbn [rbind].
  destruct HR as [HF HC].
  assert (STEP : forall vs1 r, ring (D0 d eps + 3 / 2 * eps) vs1 -> (if (1 <? vertex_count (PL vs1 true))%nat then
      let! v0 := at_ (PL vs1 true) 0 in let! v1 := at_ (PL vs1 true) 1 in
      if v2fuzzy_eq_eps (pos v0) (pos v1) eps then let! r := remove (PL vs1 true) 0 in Ret (snd r) else Ret (PL vs1 true)
    else Ret (PL vs1 true)) = Ret r -> is_closed r = true /\ ring (Rabs d + 6 * eps) (vtx r)).
  { clear - He. intros vs1 r HR E. destruct vs1 as [|a [|b t]]; cbn [vertex_count vtx length Nat.ltb Nat.leb] in E;
      try (injection E as <-; split; [reflexivity|]; apply ring_le with (D0 d eps + 3 / 2 * eps); [unfold D0; lra|exact HR]).
    change (at_ (PL (a :: b :: t) true) 0) with (Ret a) in E. change (at_ (PL (a :: b :: t) true) 1) with (Ret b) in E. cbn [rbind] in E.
    destruct (v2fuzzy_eq_eps (pos a) (pos b) eps) eqn:F.
    - cbn in E. injection E as <-. split; [reflexivity|]. cbn [vtx]. destruct HR as [HF HC]. inversion HF as [|? ? HF1 HF2]; subst.
      apply ring_le with (D0 d eps + 3 / 2 * eps + 3 / 2 * eps); [unfold D0; lra|]. apply ring_cons; [exact HF2|].
      change (b :: t ++ [b]) with ((b :: t) ++ [b]). apply chain_end with a; [lra|exact HF2| |].
      + rewrite dist_sym. now apply fuzzy_dist.
      + exact (proj2 HC).
    - injection E as <-. split; [reflexivity|]. apply ring_le with (D0 d eps + 3 / 2 * eps); [unfold D0; lra|exact HR]. }
  assert (NE : v1 :: t <> []) by discriminate. destruct (exists_last NE) as (t' & l & E). rewrite E in *. 
  change (v0 :: t' ++ [l]) with ((v0 :: t') ++ [l]) at 1. rewrite last_snoc_pline. cbn [rbind unwrap].
  destruct (v2fuzzy_eq_eps (pos v0) (pos l) eps) eqn:F.
  - change (v0 :: t' ++ [l]) with ((v0 :: t') ++ [l]) at 1. rewrite remove_last_snoc. cbn [rbind snd]. apply STEP.
    change (v0 :: t' ++ [l]) with ((v0 :: t') ++ [l]) in HF. apply Forall_app in HF as [HF _].
    apply ring_cons; [exact HF|]. change (v0 :: t' ++ [v0]) with ((v0 :: t') ++ [v0]). apply chain_end with l; [lra|exact HF|now apply fuzzy_dist|].
    rewrite <- app_assoc in HC. cbn [app] in HC. change (v0 :: t' ++ [l; v0]) with ((v0 :: t') ++ [l; v0]) in HC. now apply chain_snoc in HC as [HC _].
  - cbn [rbind]. apply STEP. apply ring_le with (D0 d eps); [lra|]. split; [exact HF|]. destruct t'; exact HC.
Qed.

Lemma close_ring gl g0 sl s0 rep vs r : good gl -> good g0 -> corner gl g0 -> raw_of d g0 s0 -> ready_at sl gl vs -> head_ok rep s0 g0 vs ->
  close_raw_offset ccw eps sl s0 rep (PL vs true) = Ret r -> is_closed r = true /\ ring (Rabs d + 6 * eps) (vtx r).
Proof.
  intros GL G0 CC HR0 HS HH. pose proof HS as (nl & HRl & (pre & w & z & EV & Zw & Hz & Dz & HC & HF)).
  unfold close_raw_offset. rewrite EV, last_snoc_pline. cbn [rbind unwrap].
  assert (HSw : ready_at sl gl (vtx (PL [w] false))).
  { exists nl. split; [exact HRl|]. exists [], w, z. split; [reflexivity|]. split; [exact Zw|]. split; [exact Hz|]. split; [exact Dz|]. split; [exact I|].
    rewrite EV in HF. apply Forall_app in HF as [_ HF]. exact HF. }
  destruct (join_one gl g0 sl s0 (PL [w] false) GL G0 CC HSw HR0) as (cl & -> & _ & (n1 & _ & NE) & _ & _ & HA). cbn [rbind]. apply ready_nonempty in NE.
  rewrite EV in HS. destruct (HA pre w eq_refl HS) as [HS2 GR2]. clear HA.
  rewrite EV in HH. pose proof (head_grows rep s0 g0 _ _ HH GR2) as HH2.
  destruct cl as [cvs cc]. cbn [vtx] in *. destruct cvs as [|c0 ct]; [contradiction|].
  change (at_ (PL (c0 :: ct) cc) 0) with (Ret c0). cbn [rbind]. rewrite set_last_snoc_pline. cbn [rbind]. unfold extend_vertexes. cbn [vtx is_closed skipn].
  rewrite <- app_assoc. cbn [app].
  destruct HS2 as (n0 & HRn & (pre2 & w2 & z2 & EV2 & Zw2 & Hz2 & Dz2 & HC2 & HF2)).
  destruct G0 as [G01 G02]. pose proof (not_point_neq _ _ G01) as N0. pose proof HRn as (HN0 & _).
  assert (SN : forall a b y, pbulge a = 0 -> ext d eps (pos (fst g0)) (pos (snd g0)) n0 y -> dist (pos b) y <= 3 / 2 * eps -> pos a = pos w2 -> sn P (D0 d eps) a b).
  { intros a b y Z HY Db EP. unfold D0. replace (Rabs d + 5 / 2 * eps) with (Rabs d + eps + 3 / 2 * eps) by lra.
    apply (ext_line P d eps He (pos (fst g0)) (pos (snd g0)) n0 a b z2 y); auto. rewrite EP. exact Dz2. }
  destruct rep; cbn [negb].
  - destruct HH2 as (v0 & t & E0 & (n0' & HR' & X0)). assert (n0' = n0) by (apply (line_raw_normal s0 _ _ n0 n0' N0 HRn); apply HR'). subst n0'.
    intros E. cbn [rbind] in E. apply (prune_ring (pre ++ c0 :: ct)); [|exact E]. rewrite E0. apply ring_cons.
    + rewrite <- E0. exact HF2.
    + rewrite E0 in EV2. change (v0 :: t ++ [v0]) with ((v0 :: t) ++ [v0]). rewrite EV2, <- app_assoc. cbn [app]. apply chain_snoc. split.
      * rewrite <- EV2, <- E0. exact HC2.
      * apply (SN w2 v0 (pos v0) Zw2 X0); [rewrite dist_self; lra|reflexivity].
  - assert (EL : exists l', c0 :: ct = l' ++ [w2]).
    { destruct (exists_last NE) as (l' & w' & E'). exists l'. rewrite E' in EV2 |- *. rewrite app_assoc in EV2. apply app_inj_tail in EV2 as [_ ->]. reflexivity. }
    destruct EL as (l' & EL). rewrite EL at 1. rewrite last_snoc_pline. cbn [rbind unwrap].
    destruct HH2 as (v0 & v1 & t & E0 & Z0 & (n0' & HR' & X1)). assert (n0' = n0) by (apply (line_raw_normal s0 _ _ n0 n0' N0 HRn); apply HR'). subst n0'.
    rewrite E0. unfold update_first_vertex. change (at_ (PL (v0 :: v1 :: t) true) 0) with (Ret v0). cbn [rbind].
    rewrite (is_zero_line v0 Z0). cbv zeta. change (set_vertex (PL (v0 :: v1 :: t) true) 0) with (fun v => Ret (PL (v :: v1 :: t) true)). cbv beta. cbn [rbind].
    intros E. refine (prune_ring _ r _ E). rewrite Z0. set (v0' := Vtx (vx (pos w2)) (vy (pos w2)) 0).
    assert (EP : pos v0' = pos w2) by reflexivity.
    rewrite E0 in EV2, HC2, HF2. destruct pre2 as [|a pre2]; [destruct t; discriminate EV2|]. injection EV2 as <- EV2.
    apply ring_cons.
    + inversion HF2; subst. constructor; [unfold low; cbn; rewrite Rabs_R0; lra|assumption].
    + change (v0' :: (v1 :: t) ++ [v0']) with (v0' :: v1 :: t ++ [v0']). split.
      * apply (SN v0' v1 (pos v1) eq_refl X1); [rewrite dist_self; lra|exact EP].
      * change (v1 :: t ++ [v0']) with ((v1 :: t) ++ [v0']). rewrite EV2, <- app_assoc. cbn [app]. apply chain_snoc. split; [rewrite <- EV2; exact (proj2 HC2)|].
        apply (SN w2 v0' z2 Zw2 Hz2); [rewrite EP; exact Dz2|reflexivity].
Qed.

(** The end of an open raw offset, and of one that is a single vertex. *)
Lemma end_near g s pl r : good g -> ready_at s g (vtx pl) -> r = add_or_replace_vertex pl (rs_v2 s) eps ->
  is_closed r = is_closed pl /\ chain (sn P (D0 d eps)) (vtx r) /\ grows (vtx pl) (vtx r)
  /\ (forall n, left_normal (pos (fst g)) (pos (snd g)) n -> exists pre w, vtx r = pre ++ [w] /\ dist (pos w) (moved (pos (snd g)) n d) <= 3 / 2 * eps)
  /\ ((length (vtx pl) <= 1)%nat -> ring (Rabs d + 6 * eps) (vtx r)).
Proof.
  intros [G1 G2] (n & HR & HS) ->. pose proof (not_point_neq _ _ G1) as N. pose proof HR as (HN & _ & E2 & _).
  rewrite put_closed. split; [reflexivity|]. pose proof (put_ok pl (rs_v2 s) eps) as HP. rewrite E2 in *.
  set (v := vertex_at (moved (pos (snd g)) n d) 0) in *. set (vs' := vtx (add_or_replace_vertex pl v eps)) in *.
  assert (XV : ext d eps (pos (fst g)) (pos (snd g)) n (pos v)) by apply (ext_ends d eps He (pos (fst g)) (pos (snd g)) n).
  destruct (put_step P d eps He _ _ n (vtx pl) v vs' N G2 HN HS XV) as (pre & w & E & Z & Dw & HC & HF); [cbn; rewrite Rabs_R0; lra|exact HP|].
  split; [exact HC|]. split; [eapply put_grows; [|exact HP]; now apply ready_nonempty in HS|].
  split. { intros n' HN'. rewrite (line_raw_normal s _ _ n n' N HR HN'). exists pre, w. split; [exact E|exact Dw]. }
  intros L. destruct HS as (pre0 & w0 & z0 & E0 & Z0 & Hz0 & Dz0 & _ & _).
  destruct pre0 as [|a pre0]; [|rewrite E0 in L; cbn in L; rewrite app_length in L; cbn in L; lia].
  rewrite E0 in HP. cbn [app] in HP. clearbody vs'. apply put_one in HP as [[_ HP]|[_ HP]]; rewrite HP in *.
  - split; [exact HF|exact I].
  - apply ring_cons; [exact HF|]. change (chain (sn P (Rabs d + 6 * eps)) [w0; v; w0]). split; [|split; [|exact I]].
    + apply sn_le with (D0 d eps); [unfold D0; lra|]. exact (proj1 HC).
    + apply sn_le with (Rabs d + eps + 3 / 2 * eps); [lra|]. apply (ext_line P d eps He (pos (fst g)) (pos (snd g)) n v w0 (pos v) z0); auto. rewrite dist_self. lra.
Qed.
End Raw.

Lemma in_segs_path p v1 v2 : all_lines p -> In (v1, v2) (spec_segs (vtx p) (is_closed p)) -> pbulge v1 = 0 /\ in_path p (pos v1) (pos v2).
Proof.
  intros HA HI. assert (Z : pbulge v1 = 0).
  { apply HA. destruct (vtx p) as [|a [|b t]]; [destruct HI|destruct HI|]. cbn [spec_segs] in HI. apply in_combine_l in HI. exact HI. }
  split; [exact Z|]. intros s Hs. exists v1, v2. split; [exact HI|]. exists s. split; [exact Hs|]. left. auto.
Qed.

Lemma chain_last {A} (g0 : A) gs : spec_segs (g0 :: gs) true = [] \/ In (last gs g0, g0) (spec_segs (g0 :: gs) true).
Proof.
  destruct gs as [|g1 gs]; [left; reflexivity|right]. rewrite segs_ring by discriminate.
  assert (H : forall (l : list A) a x, In (last l a, x) (combine (a :: l ++ [x]) (tl (a :: l ++ [x])))).
  { induction l as [|b l IH]; intros a x; [now left|]. right. replace (last (b :: l) a) with (last l b); [apply IH|].
    destruct l; [reflexivity|]. apply (last_nonempty_default (a0 :: l) b a). discriminate. }
  apply H.
Qed.

Lemma last_of {A} (g0 : A) gs pre g : g0 :: gs = pre ++ [g] -> last gs g0 = g.
Proof.
  intros E. destruct gs as [|g1 gs]; [destruct pre as [|? [|? pre]]; injection E; auto; discriminate|].
  replace (last (g1 :: gs) g0) with (last (g0 :: g1 :: gs) g0) by reflexivity. rewrite E. apply last_app1.
Qed.

Theorem raw_near p d eps raw : 0 < eps -> d <> 0 -> all_lines p -> clear_corners p d eps -> create_raw_offset_polyline p d eps = Ret raw ->
  (forall q, on_path raw q -> near_path p (Rabs d + 6 * eps) q) /\ (is_closed p = false -> vtx raw = [] \/ open_ends p d eps (vtx raw)).
Proof.
  intros He Hd HA [HP HCC]. unfold create_raw_offset_polyline. destruct (Nat.ltb_spec (vertex_count p) 2) as [L|L].
  { intros E; injection E as <-. split; [intros q (v1 & v2 & [] & _)|now left]. }
  unfold create_untrimmed_raw_offset_segs. rewrite iter_segments_spec. cbn [rbind].
  set (segs := spec_segs (vtx p) (is_closed p)) in *.
  assert (GS : Forall (good p eps) segs).
  { apply Forall_forall. intros [v1 v2] HI. split; [now apply HP|]. now apply in_segs_path. }
  assert (RW : Forall2 (raw_of d) segs (map (fun s => if bulge_is_zero (fst s) then raw_line_seg d (fst s) (snd s) else raw_arc_seg d (fst s) (snd s)) segs)).
  { assert (H : forall g, In g segs -> raw_of d g (if bulge_is_zero (fst g) then raw_line_seg d (fst g) (snd g) else raw_arc_seg d (fst g) (snd g))).
    { intros [v1 v2] HI. cbn [fst snd]. destruct (in_segs_path p v1 v2 HA HI) as [Z _]. rewrite (is_zero_line v1 Z).
      assert (N : pos v1 <> pos v2) by (apply (not_point_neq eps He); now apply HP). pose proof (left_normal_exists _ _ N) as HN.
      eexists. cbn [fst snd]. rewrite (raw_line_val d v1 v2 _ N HN). split; [exact HN|]. cbn. auto. }
    clearbody segs. clear - H. induction segs as [|g l IH]; constructor; [apply H; now left|]. apply IH. intros g' HI. apply H. now right. }
  assert (ADJ : forall g g', In (g, g') (spec_segs segs (is_closed p)) -> corner d eps g g').
  { intros [v1 v2] [u1 u2] HI. split; [|exact (HCC _ _ _ _ HI)]. cbn [fst snd]. f_equal. revert HI. unfold segs. destruct (is_closed p).
    - destruct (vtx p) as [|a [|b t]]; [intros []|intros []|]. intros HI.
      rewrite (segs_ring a (b :: t)) in HI by discriminate.
      change (combine (a :: (b :: t) ++ [a]) (tl (a :: (b :: t) ++ [a]))) with ((a, b) :: combine (b :: t ++ [a]) (t ++ [a])) in HI.
      rewrite segs_ring in HI by (destruct t; discriminate).
      apply (chain_In (fun g g' : seg => fst g' = snd g) _ (v1, v2) (u1, u2) (segs_adjacent (a :: b :: t ++ [a; b]))).
      change (a :: b :: t ++ [a; b]) with ((a :: b :: t) ++ [a; b]). rewrite pairs_snoc. exact HI.
    - intros HI. rewrite !segs_line in HI. exact (chain_In (fun g g' : seg => fst g' = snd g) _ (v1, v2) (u1, u2) (segs_adjacent (vtx p)) HI). }
  assert (SL : is_closed p = true -> (2 <= length segs)%nat).
  { intros CP. unfold segs. rewrite spec_segs_length, CP. unfold vertex_count in L. destruct (Nat.ltb_spec (length (vtx p)) 2); lia. }
  assert (SEQ : spec_segs (vtx p) (is_closed p) = segs) by reflexivity. clearbody segs. destruct segs as [|g0 gs]; [intros E; injection E as <-; split; [intros q (v1 & v2 & [] & _)|now left]|].
  match goal with |- context [map ?f (g0 :: gs)] => set (ss := map f gs) in *; change (map f (g0 :: gs)) with (f g0 :: ss) in *; set (s0 := f g0) in * end.
  cbv beta in s0. clearbody ss s0. inversion RW as [|? ? ? ? R0 RR]; subst. clear RW.
  inversion GS as [|? ? G0 GG]; subst.
  assert (HCH : chain (corner d eps) (g0 :: gs)).
  { apply chain_of_In. intros g g' HI. apply ADJ. destruct (is_closed p); [|rewrite segs_line; exact HI].
    destruct gs as [|g1 gs]; [destruct HI|]. rewrite segs_ring by discriminate. destruct (exists_last (l := g1 :: gs)) as (l' & x & EX); [discriminate|].
    change (g0 :: (g1 :: gs) ++ [g0]) with ((g0 :: g1 :: gs) ++ [g0]). rewrite EX in *. change (g0 :: l' ++ [x]) with ((g0 :: l') ++ [x]) in *. rewrite <- app_assoc. cbn [app].
    change (g0 :: l' ++ [x; g0]) with ((g0 :: l') ++ [x; g0]). rewrite pairs_snoc. apply in_or_app. left. exact HI. }
  destruct R0 as (n0 & HR0). pose proof HR0 as (_ & _ & _ & _ & COL). rewrite COL.
  replace (match ss with [] => false | _ :: _ => false end) with false by (destruct ss; reflexivity).
  cbv zeta. pose proof (ready_start p d eps He s0 g0 G0 (ex_intro _ n0 HR0)) as (HS0 & X0 & Z0).
  set (ccw := nltb d nzero). assert (Hccw : ccw = true <-> d < 0) by (unfold ccw; rnum; apply rltb_true).
  (* the first join *)
  assert (FIRST : exists r1, rfold (join_seg_pair ccw eps) (firstn 1 (windows2 (s0 :: ss))) (PL [rs_v1 s0] (is_closed p)) = Ret r1
    /\ head_ok d eps (Nat.eqb (vertex_count r1) 1) s0 g0 (vtx r1)
    /\ exists r2, rfold (join_seg_pair ccw eps) (skipn 1 (windows2 (s0 :: ss))) r1 = Ret r2 /\ is_closed r2 = is_closed p
       /\ ready_at p d eps (last ss s0) (last gs g0) (vtx r2) /\ grows (vtx r1) (vtx r2) /\ grows [rs_v1 s0] (vtx r2)).
  { inversion RR as [|g1 s1 gs' ss' R1 RR' EG ES]; subst.
    - exists (PL [rs_v1 s0] (is_closed p)). split; [reflexivity|]. split; [cbn; eexists _, []; split; [reflexivity|exact X0]|].
      exists (PL [rs_v1 s0] (is_closed p)). split; [reflexivity|]. split; [reflexivity|]. split; [exact HS0|]. split; apply grows_refl; discriminate.
    - inversion GG as [|? ? G1 _]; subst. destruct HCH as [HC1 HC2].
      destruct (join_one p d eps He Hd ccw Hccw g0 g1 s0 s1 (PL [rs_v1 s0] (is_closed p)) G0 G1 HC1 HS0 R1) as (r1 & E1 & CL1 & HS1 & GR1 & (n & n' & HRn & HJ) & _).
      exists r1. change (windows2 (s0 :: s1 :: ss')) with ((s0, s1) :: windows2 (s1 :: ss')). cbn [firstn skipn rfold]. rewrite E1. cbn [rbind]. split; [reflexivity|].
      split; [exact (head_first p d eps He g0 g1 s0 n n' (vtx r1) G0 (ex_intro _ n0 HR0) HRn HJ)|].
      destruct (join_all p d eps He Hd ccw Hccw gs' ss' g1 s1 r1 RR' HC2 GG HS1) as (r2 & E2 & CL2 & HS2 & GR2).
      exists r2. split; [exact E2|]. split; [rewrite CL2, CL1; reflexivity|]. split; [|split; [exact GR2|exact (grows_trans _ _ _ GR1 GR2)]].
      replace (last (s1 :: ss') s0) with (last ss' s1) by (destruct ss'; [reflexivity|apply (last_nonempty_default (r :: ss') s1 s0); discriminate]).
      replace (last (g1 :: gs') g0) with (last gs' g1) by (destruct gs'; [reflexivity|apply (last_nonempty_default (p0 :: gs') g1 g0); discriminate]). exact HS2. }
  destruct FIRST as (r1 & -> & HH1 & r2 & E2 & CL2 & HS2 & GR2 & GR0). cbn [rbind]. rewrite E2. cbn [rbind].
  pose proof (head_grows d eps _ _ _ _ _ HH1 GR2) as HH2.
  assert (GL : good p eps (last gs g0)).
  { rewrite Forall_forall in GS. apply GS. destruct gs as [|g1 gs]; [now left|right]. destruct (exists_last (l := g1 :: gs)) as (l' & x & EX); [discriminate|]. rewrite EX, last_app1. apply in_or_app. right. now left. }
  destruct (is_closed p && (1 <? vertex_count r2)%nat) eqn:CB.
  - apply andb_true_iff in CB as [CP CV]. apply Nat.ltb_lt in CV.
    destruct (close_raw_offset ccw eps (last ss s0) s0 (vertex_count r1 =? 1)%nat r2) as [r3|] eqn:E3; [|discriminate]. cbn [rbind]. intros E. split; [|rewrite CP; discriminate]. intros q HQ.
    assert (LC : corner d eps (last gs g0) g0).
    { apply ADJ. rewrite CP. destruct (chain_last g0 gs) as [X|X]; [|exact X]. exfalso. specialize (SL CP). destruct gs as [|g1 gs]; [cbn in SL; lia|discriminate X]. }
    destruct r2 as [vs2 c2]. cbn [is_closed vtx] in *. subst c2. rewrite CP in E3.
    destruct (close_ring p d eps He Hd ccw Hccw _ g0 _ s0 _ vs2 r3 GL G0 LC (ex_intro _ n0 HR0) HS2 HH2 E3) as [CL3 [_ HR3]].
    destruct r3 as [vs3 c3]. cbn [is_closed vtx] in *. subst c3. change (vertex_count (PL vs3 true)) with (length vs3) in E.
    destruct vs3 as [|a [|b t]]; cbn in E; injection E as <-; [destruct HQ as (? & ? & [] & _)|destruct HQ as (? & ? & [] & _)|].
    destruct HQ as (v1 & v2 & HI & HQ). cbn [vtx is_closed] in HI. rewrite segs_ring in HI by discriminate. exact (chain_In _ _ _ _ HR3 HI q HQ).
  - cbn [rbind]. set (r3 := add_or_replace_vertex r2 (rs_v2 (last ss s0)) eps). intros E.
    destruct (end_near p d eps He ccw Hccw _ _ r2 r3 GL HS2 eq_refl) as (CL3 & HC3 & GR3 & HE3 & HR3). rewrite CL2 in CL3.
    destruct r3 as [vs3 c3]. cbn [is_closed vtx] in *. subst c3. change (vertex_count (PL vs3 (is_closed p))) with (length vs3) in E.
    destruct (is_closed p).
    + split; [|discriminate]. intros q HQ. cbn [andb] in CB. apply Nat.ltb_ge in CB. destruct (HR3 CB) as [_ HR4].
      destruct vs3 as [|a [|b t]]; cbn in E; injection E as <-; [destruct HQ as (? & ? & [] & _)|destruct HQ as (? & ? & [] & _)|].
      destruct HQ as (v1 & v2 & HI & HQ). cbn [vtx is_closed] in HI. rewrite segs_ring in HI by discriminate. exact (chain_In _ _ _ _ HR4 HI q HQ).
    + destruct (Nat.eqb_spec (length vs3) 1) as [EL|EL]; injection E as <-; (split; [intros q HQ|intros _; cbn [vtx]]); [destruct HQ as (? & ? & [] & _)|now left| |right].
      2:{ split.
          - intros v1 v2 n HH HN. rewrite SEQ in HH. injection HH as ->. pose proof (grows_trans _ _ _ GR0 GR3) as (pr & w & w' & t & EW & EV & EP).
            destruct pr as [|? pr]; [|injection EW as _ EW; symmetry in EW; apply app_eq_nil in EW as [_ EW]; discriminate]. injection EW as <-. exists w'. rewrite EV. split; [reflexivity|].
            rewrite EP. pose proof HR0 as (HN0 & E0 & _). rewrite E0. rewrite (line_raw_normal d s0 _ _ n0 n (not_point_neq eps He _ _ (proj1 G0)) HR0 HN). reflexivity.
          - intros pr v1 v2 n HH HN. rewrite SEQ in HH. rewrite (last_of g0 gs pr (v1, v2) HH) in HE3. exact (HE3 n HN). }
      destruct HQ as (v1 & v2 & HI & HQ). cbn [vtx is_closed] in HI. rewrite segs_line in HI.
      apply near_le with (D0 d eps); [unfold D0; lra|]. exact (chain_In _ _ _ _ HC3 HI q HQ).
Qed.

Lemma raw_near_total p d eps : 0 < eps -> d <> 0 -> all_lines p -> clear_corners p d eps ->
  exists raw, create_raw_offset_polyline p d eps = Ret raw
  /\ (forall q, on_path raw q -> near_path p (Rabs d + 6 * eps) q) /\ (is_closed p = false -> vtx raw = [] \/ open_ends p d eps (vtx raw)).
Proof.
  intros He Hd HA HC. destruct (raw_total p d eps) as (raw & E & _). exists raw. split; [exact E|]. now apply (raw_near p d eps raw).
Qed.

(** A path with a corner, a straight continuation and a way back. *)
Definition near_ex : pline R := PL [Vtx 0 0 0; Vtx 4 0 0; Vtx 8 0 0; Vtx 8 4 0; Vtx 8 2 0] false.

Lemma near_ex_ok : all_lines near_ex /\ clear_corners near_ex 1 (1 / 100000) /\ vertex_count near_ex = 5%nat.
Proof.
  split; [|split; [split|reflexivity]].
  - intros v H. cbn in H. intuition (subst; reflexivity).
  - intros v1 v2 H. cbn in H. unfold is_point.
    repeat (destruct H as [H|H]; [injection H as <- <-; cbn [pos px py vx vy]; intros [X1 X2]; unfold Rabs in X1, X2; repeat destruct (Rcase_abs _); lra|]). destruct H.
  - intros v1 v2 u1 u2 H. cbn in H. unfold clear_corner, ahead, back, cross, vec.
    repeat (destruct H as [H|H]; [injection H as <- <- <- <-; cbn [pos px py vx vy] in *|]); [| | |destruct H].
    + right. left. split; [lra|]. replace (dist (pos (Vtx 0 0 0)) (pos (Vtx 4 0 0))) with 4; [lra|]. symmetry. apply dist_eq_sqr; cbn; lra.
    + left. replace ((8 - 4) * (4 - 0) - (0 - 0) * (8 - 8)) with 16 by lra. rewrite Rabs_right; lra.
    + right. right. split; [lra|]. rewrite Rabs_right by lra. pose proof (Rmax_l (dist (V2 8 0) (V2 8 4)) (dist (V2 8 4) (V2 8 2))) as M.
      assert (D4 : dist (V2 8 0) (V2 8 4) = 4) by (apply dist_eq_sqr; cbn [vx vy]; lra). rewrite D4 in M. change (pos (Vtx 8 0 0)) with (V2 8 0). change (pos (Vtx 8 4 0)) with (V2 8 4). change (pos (Vtx 8 2 0)) with (V2 8 2). rewrite D4. lra.
Qed.
