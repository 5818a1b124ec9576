(** The raw offset of a polygon with met and rounded corners (C70). *)
From Coq Require Import Reals ZArith Bool List Arith Lra Lia.
From Verif Require Import Num RNum Res ModelMath ModelIntr ModelSeg ModelPline ModelView ModelSegIntr ModelIndex ModelIntersects ModelBoolean ModelOffset.
From Verif Require Import Spec SpecPline SpecGeom SpecIntr SpecOffset SpecOffsetJoin SpecIndex SpecIntersects SpecCuts SpecOffNear SpecPolyOff SpecRound.
From Verif Require Import ProofR ProofBase ProofIter ProofIntr ProofArc ProofRepeat ProofIndex2 ProofSlice ProofSegIntr2 ProofSegIntr5 ProofCuts2 ProofRawNear3 ProofOffsetJoin2 ProofOffsetJoin3 ProofOffsetJoin4 ProofShape3 ProofWhole ProofPolyOff ProofConvexOff.
Import ListNotations.
Local Open Scope R_scope.

Section Fold.
Context (eps : R).
Hypothesis He : 0 < eps.

Definition put_all (vs : list (vertex R)) (r : pline R) : pline R := fold_left (fun r v => add_or_replace_vertex r v eps) vs r.

(** The join adds exactly [vs]. *)
Definition joinsv (ccw : bool) (ss : raw_seg R * raw_seg R) (vs : list (vertex R)) : Prop :=
  forall res, join_seg_pair ccw eps res ss = Ret (put_all vs res).

Lemma add_farv l w c v : far eps (pos w) (pos v) -> add_or_replace_vertex (PL (l ++ [w]) c) v eps = PL ((l ++ [w]) ++ [v]) c.
Proof.
  intros F. unfold add_or_replace_vertex. cbn [vtx is_closed]. rewrite rev_app_distr. cbn [rev app]. rewrite F. reflexivity.
Qed.

Fixpoint spreadv (w : vertex R) (vs : list (vertex R)) : Prop :=
  match vs with [] => True | v :: t => far eps (pos w) (pos v) /\ spreadv v t end.

Lemma spreadv_app w vs us : spreadv w (vs ++ us) <-> spreadv w vs /\ spreadv (last vs w) us.
Proof.
  revert w. induction vs as [|v vs IH]; intros w; [cbn; tauto|]. cbn [app spreadv]. rewrite (IH v).
  replace (last (v :: vs) w) with (last vs v); [tauto|]. clear. revert v. induction vs as [|u vs IH]; intros v; [reflexivity|]. cbn [last] in *. destruct vs; [reflexivity|]. cbn in *. apply IH.
Qed.

Lemma put_far_all c vs : forall l w, spreadv w vs -> put_all vs (PL (l ++ [w]) c) = PL ((l ++ [w]) ++ vs) c.
Proof.
  induction vs as [|v vs IH]; intros l w SP; [cbn; now rewrite app_nil_r|]. cbn in SP. destruct SP as (S1 & S2). unfold put_all. cbn [fold_left]. rewrite add_farv by exact S1.
  fold (put_all vs (PL ((l ++ [w]) ++ [v]) c)). rewrite (IH (l ++ [w]) v S2). now rewrite <- !app_assoc.
Qed.

Lemma fold_joinsv ccw c ps : forall vss l w, Forall2 (joinsv ccw) ps vss -> spreadv w (concat vss) ->
  rfold (join_seg_pair ccw eps) ps (PL (l ++ [w]) c) = Ret (PL ((l ++ [w]) ++ concat vss) c).
Proof.
  induction ps as [|s ps IH]; intros vss l w F SP.
  - inversion F. subst. cbn. now rewrite app_nil_r.
  - inversion F as [|? vs ? vss' J F']. subst. cbn [concat] in *. apply spreadv_app in SP as (S1 & S2). cbn [rfold]. rewrite J. cbn [rbind]. rewrite put_far_all by exact S1.
    assert (E : exists l', (l ++ [w]) ++ vs = l' ++ [last vs w]).
    { destruct vs as [|v vs] using rev_ind; [exists l; now rewrite app_nil_r|]. rewrite last_last. exists ((l ++ [w]) ++ vs). now rewrite !app_assoc. }
    destruct E as (l' & E). rewrite E, (IH vss' l' (last vs w) F' S2), <- E. now rewrite <- !app_assoc.
Qed.

Lemma raw_made p d s0 s1 rest q0 us0 vs1 vss :
  (2 <= vertex_count p)%nat -> is_closed p = true -> create_untrimmed_raw_offset_segs p d = Ret (s0 :: s1 :: rest) -> bulge_is_zero (rs_v1 s0) = true -> pbulge (rs_v1 s0) = 0 ->
  joinsv (d <? nzero)%num (last (s1 :: rest) s0, s0) (us0 ++ [lv q0]) -> Forall2 (joinsv (d <? nzero)%num) (windows2 (s0 :: s1 :: rest)) (vs1 :: vss) ->
  vs1 <> [] -> spreadv (rs_v1 s0) (concat (vs1 :: vss) ++ us0 ++ [lv q0]) -> spreadv (lv q0) (firstn 1 vs1) ->
  create_raw_offset_polyline p d eps = Ret (PL (lv q0 :: concat (vs1 :: vss) ++ us0) true).
Proof.
  intros TP HC ES BZ B0 J0 JS NE SP F1. unfold create_raw_offset_polyline. destruct (Nat.ltb_spec (vertex_count p) 2); [lia|]. rewrite ES. cbn [rbind].
  set (ccw := (d <? nzero)%num) in *. change (windows2 (s0 :: s1 :: rest)) with ((s0, s1) :: windows2 (s1 :: rest)) in *. remember (windows2 (s1 :: rest)) as ps. cbn [firstn skipn rfold].
  inversion JS as [|? ? ? ? J1 J2]. subst. rewrite J1. cbn [rbind]. rewrite HC.
  cbn [concat] in *. rewrite <- app_assoc in SP. apply spreadv_app in SP as (S1 & SP). apply spreadv_app in SP as (S2 & S3).
  pose proof (put_far_all true vs1 [] (rs_v1 s0) S1) as A. cbn [app] in A. rewrite A.
  assert (FR : Nat.eqb (vertex_count (PL (rs_v1 s0 :: vs1) true)) 1 = false) by (destruct vs1; [contradiction|reflexivity]). rewrite FR.
  set (lst := last vs1 (rs_v1 s0)) in *. destruct (exists_last NE) as (m1 & l1 & E1). assert (EL : lst = l1) by (unfold lst; rewrite E1; apply last_last).
  rewrite E1. rewrite app_comm_cons. rewrite (fold_joinsv ccw true _ vss (rs_v1 s0 :: m1) l1 J2) by (rewrite <- EL; exact S2). cbn [rbind andb].
  rewrite <- app_comm_cons. rewrite <- E1. rewrite <- app_comm_cons.
  set (M := vs1 ++ concat vss) in *. assert (NM : M <> []) by (unfold M; destruct vs1; [contradiction|discriminate]).
  assert (VC : (1 <? vertex_count (PL (rs_v1 s0 :: M) true))%nat = true) by (destruct M; [contradiction|reflexivity]). rewrite VC.
  assert (LM : last (concat vss) lst = last M (rs_v1 s0)).
  { unfold M, lst. destruct (concat vss) as [|x y] eqn:EC using rev_ind; [now rewrite app_nil_r|]. now rewrite app_assoc, !last_last. }
  rewrite LM in S3. destruct (exists_last NM) as (m & ql & EM). rewrite EM, last_last in S3.
  unfold close_raw_offset. rewrite EM. rewrite app_comm_cons, last_snoc_pline. cbn [rbind unwrap].
  rewrite J0. cbn [rbind]. pose proof (put_far_all false (us0 ++ [lv q0]) [] ql S3) as A2. cbn [app] in A2. rewrite A2.
  change (at_ (PL (ql :: us0 ++ [lv q0]) false) 0) with (Ret ql). cbn [rbind]. rewrite set_last_snoc_pline. cbn [rbind negb skipn vtx].
  rewrite app_comm_cons, last_snoc_pline. cbn [rbind unwrap]. unfold extend_vertexes. cbn [vtx is_closed].
  rewrite <- !app_comm_cons. rewrite <- EM.
  assert (U : update_first_vertex (PL (rs_v1 s0 :: M ++ us0 ++ [lv q0]) true) (pos (lv q0)) = Ret (PL (lv q0 :: M ++ us0 ++ [lv q0]) true)).
  { unfold update_first_vertex. change (at_ (PL (rs_v1 s0 :: M ++ us0 ++ [lv q0]) true) 0) with (Ret (rs_v1 s0)). cbn [rbind]. rewrite BZ, lv_pos, B0. reflexivity. }
  rewrite U. cbn [rbind]. unfold prune_singularity. replace (1 <? vertex_count (PL (lv q0 :: M ++ us0 ++ [lv q0]) true))%nat with true by (destruct M; [contradiction|reflexivity]).
  change (at_ (PL (lv q0 :: M ++ us0 ++ [lv q0]) true) 0) with (Ret (lv q0)). cbn [rbind]. rewrite app_assoc, app_comm_cons, last_snoc_pline. cbn [rbind unwrap].
  replace (v2fuzzy_eq_eps (pos (lv q0)) (pos (lv q0)) eps) with true. 2:{ symmetry. apply v2fuzzy_R. rewrite !Rminus_diag_eq, Rabs_R0 by reflexivity. auto. }
  rewrite remove_last_snoc. cbn [rbind snd]. replace (1 <? vertex_count (PL (lv q0 :: M ++ us0) true))%nat with true by (destruct M; [contradiction|reflexivity]).
  change (at_ (PL (lv q0 :: M ++ us0) true) 0) with (Ret (lv q0)). cbn [rbind].
  destruct vs1 as [|v1 vt]; [contradiction|]. change (at_ (PL (lv q0 :: M ++ us0) true) 1) with (Ret v1). cbn [rbind]. cbn [firstn spreadv] in F1. destruct F1 as (F1 & _). rewrite F1. cbn [rbind].
  replace (Nat.eqb (vertex_count (PL (lv q0 :: M ++ us0) true)) 1) with false by reflexivity. reflexivity.
Qed.
End Fold.

(** ** Corners *)
Lemma atan_le_quarter b : Rabs b <= 1 -> - (PI / 4) <= atan b <= PI / 4.
Proof.
  intros B. assert (B1 : -1 <= b) by (revert B; unfold Rabs; destruct (Rcase_abs b); lra). assert (B2 : b <= 1) by (revert B; unfold Rabs; destruct (Rcase_abs b); lra). clear B. rewrite <- atan_1, <- atan_opp. split.
  - destruct B1 as [L| <-]; [left; now apply atan_increasing|right; f_equal; ring].
  - destruct B2 as [L| ->]; [left; now apply atan_increasing|right; reflexivity].
Qed.

(** An arc of less than half a circle has one bulge. *)
Lemma small_arc_bulge p q c r a a' b b' : 0 < r -> is_arc p q b c r a -> is_arc p q b' c r a' -> Rabs b <= 1 -> Rabs b' <= 1 ->
  (vx p - vx c) * (vy q - vy c) - (vy p - vy c) * (vx q - vx c) <> 0 -> b = b'.
Proof.
  intros Hr (_ & P1 & Q1) (_ & P2 & Q2) B B' X. apply atan_le_quarter in B, B'. pose proof PI_pos as HP.
  pose proof (eq_trans (eq_sym P1) P2) as E. apply circle_pt_inj in E as (k1 & E1); [|exact Hr].
  pose proof (eq_trans (eq_sym Q1) Q2) as F. apply circle_pt_inj in F as (k2 & F1); [|exact Hr]. unfold sweep in *.
  assert (D : 4 * atan b = 4 * atan b' + 2 * IZR (k2 - k1) * PI) by (rewrite minus_IZR; lra).
  assert (K : (k2 - k1 = 0)%Z). {
    assert (NP : 4 * atan b <> PI /\ 4 * atan b <> - PI).
    { split; intros Z; apply X; rewrite P1, Q1, Z; unfold circle_pt; cbn [vx vy].
      - rewrite neg_cos, neg_sin. ring.
      - replace (a + - PI) with (a - PI) by ring. rewrite cos_minus, sin_minus, cos_PI, sin_PI. ring. }
    set (k := (k2 - k1)%Z) in *. assert (- 1 < IZR k < 1). { split; nra. } destruct H as (H1 & H2). apply lt_IZR in H1. apply lt_IZR in H2. lia. }
  rewrite K in D. assert (AB : atan b = atan b') by lra. apply (f_equal tan) in AB. rewrite !tan_atan in AB. exact AB.
Qed.

Lemma corner_joins_round d eps (a b c : vertex R) v w : 0 < eps -> d <> 0 -> corner_round d eps (pos a) (pos b) (pos c) v w -> pbulge a = 0 -> pbulge b = 0 ->
  joinsv eps (d <? nzero)%num (raw_line_seg d a b, raw_line_seg d b c) [v; w].
Proof.
  intros He Hd (n1 & n2 & al & N1 & N2 & TU & Hc & MI & PV & EW & AR & BB) Ba Bb res.
  rewrite (raw_line_val d a b n1 (left_normal_neq _ _ _ N1) N1), (raw_line_val d b c n2 (left_normal_neq _ _ _ N2) N2).
  set (p := pos a) in *. set (q := pos b) in *. set (r := pos c) in *.
  fold (lv (moved p n1 d)) (lv (moved q n1 d)) (lv (moved q n2 d)) (lv (moved r n2 d)).
  unfold join_seg_pair. cbn [rs_v1]. rewrite !lv_zero. unfold line_line_join. cbn [rs_v1 rs_v2 rs_collapsed_arc orb]. rewrite !lv_pos.
  pose proof (left_normal_neq _ _ _ N1) as Npq. pose proof (left_normal_neq _ _ _ N2) as Nqr.
  destruct (unit_of p q Npq) as (e1 & L1 & HL1 & U1 & Eq & Ep & D1 & M1). destruct (unit_of q r Nqr) as (e2 & L2 & HL2 & U2 & Er & _ & D2 & M2).
  pose proof (M1 n1 N1) as Z1. pose proof (M2 n2 N2) as Z2. clear M1 M2.
  assert (EC : cross (vec p q) (vec q r) = L1 * L2 * cross e1 e2).
  { rewrite Ep, Er. unfold cross, vec. cbn [vx vy]. ring. }
  rewrite EC in Hc, TU.
  assert (HLL : 0 < L1 * L2) by (apply Rmult_lt_0_compat; lra).
  assert (HS : cross e1 e2 <> 0). { intros E. rewrite E, Rmult_0_r, Rabs_R0 in Hc. lra. }
  set (C := vx e1 * vx e2 + vy e1 * vy e2). set (g := d * cross e1 e2 / (1 + C)).
  set (x := V2 (vx q + d * (vx n1 + vx n2) / (1 + C)) (vy q + d * (vy n1 + vy n2) / (1 + C))).
  assert (HC : 0 < 1 + C) by (apply (corner_C e1 e2); assumption).
  assert (X1 : x = line_pt (moved p n1 d) (moved q n1 d) (1 - g / L1)).
  { unfold x. rewrite Z1, Z2, Ep. exact (mitre_on1 e1 e2 q L1 d U1 U2 HL1 HS). }
  assert (X2 : x = line_pt (moved q n2 d) (moved r n2 d) (g / L2)).
  { unfold x. rewrite Z1, Z2, Er. exact (mitre_on2 e1 e2 q L2 d U1 U2 HL2 HS). }
  destruct (mitre_dist e1 e2 q d U1 U2 HS) as [DX1 _].
  assert (DY1 : dist (moved q n1 d) x = Rabs g) by (rewrite dist_sym; unfold x; rewrite Z1, Z2; exact DX1). clear DX1.
  specialize (MI x). rewrite DY1 in MI. assert (MI' : eps <= Rabs g) by (apply MI; split; eexists; [exact X1|exact X2]). clear MI.
  destruct (corner_lengths e1 e2 q L1 L2 d U1 U2 HL1 HL2) as [DL1 DL2].
  assert (DM1 : dist (moved p n1 d) (moved q n1 d) = L1) by (rewrite Z1, Ep; exact DL1).
  assert (DM2 : dist (moved q n2 d) (moved r n2 d) = L2) by (rewrite Z2, Er; exact DL2). clear DL1 DL2.
  assert (GN : g < 0).
  { assert (EG : d * (L1 * L2 * cross e1 e2) = (L1 * L2 * (1 + C)) * g) by (unfold g; field; lra).
    assert (0 < L1 * L2 * (1 + C)) by (apply Rmult_lt_0_compat; lra). rewrite EG in TU. apply Rnot_le_lt. intros G. assert (0 <= L1 * L2 * (1 + C) * g) by (apply Rmult_le_pos; lra). lra. }
  rewrite Rabs_left in MI' by exact GN.
  assert (Hc' : eps <= Rabs (cross (vec (moved p n1 d) (moved q n1 d)) (vec (moved q n2 d) (moved r n2 d)))).
  { replace (cross _ _) with (L1 * L2 * cross e1 e2); [exact Hc|]. rewrite <- EC. unfold cross, vec, moved. cbn [vx vy]. ring. }
  destruct (line_line_nonparallel _ _ _ _ eps He Hc') as (s & t & Est & Ust & K).
  destruct (Ust (1 - g / L1) (g / L2)) as [Es Et]; [rewrite <- X1; exact X2|]. rewrite <- Es, <- Et in K. clear s t Est Ust Es Et.
  rewrite DM1, DM2 in K.
  destruct K as [((K & _) & _)|(_ & ->)].
  { exfalso. unfold in_range in K. replace ((1 - g / L1) * L1) with (L1 - g) in K by (field; lra). lra. }
  assert (T1 : rltb 1 (1 - g / L1) = true). { apply rltb_true. assert (0 < - g / L1) by (apply Rdiv_lt_0_compat; lra). unfold Rdiv in *. lra. }
  assert (T2 : is_false_intersect (g / L2) = true).
  { apply false_intr. left. assert (0 < - g / L2) by (apply Rdiv_lt_0_compat; lra). unfold Rdiv in *. lra. }
  rnum. rewrite T1, T2. cbn [andb].
  assert (HCC : (d <? nzero)%num = true <-> d < 0) by (rnum; apply rltb_true).
  destruct (corner_arc e1 e2 q d U1 U2 HS (d <? nzero)%num Hd) as (a' & Ha & Hb1); [|exact HCC|].
  { assert (EG : d * cross e1 e2 = (1 + C) * g) by (unfold g; field; lra). rewrite EG. assert (0 < (1 + C) * - g) by (apply Rmult_lt_0_compat; lra). lra. }
  rewrite <- Z1, <- Z2 in Ha, Hb1. rewrite EW in AR. change (pos (vertex_at (moved q n2 d) 0)) with (pos (lv (moved q n2 d))) in AR. rewrite lv_pos, PV in AR.
  set (bu := bulge_for_connection q (moved q n1 d) (moved q n2 d) (d <? nzero)%num) in *.
  assert (EB : pbulge v = bu).
  { apply (small_arc_bulge _ _ _ _ _ _ _ _ (Rabs_pos_lt d Hd) AR Ha BB Hb1). unfold moved. cbn [vx vy]. rewrite Z1, Z2. cbn [vx vy]. replace (_ - _) with (d * d * cross e1 e2) by (unfold cross; ring).
    intros Z. apply Rmult_integral in Z as [Z|Z]; [apply Rmult_integral in Z as [Z|Z]|]; contradiction. }
  assert (EV : v = Vtx (vx (moved q n1 d)) (vy (moved q n1 d)) bu).
  { rewrite <- EB, <- PV. destruct v. reflexivity. }
  unfold connect_using_arc. cbn [rs_v1 rs_v2 rs_orig_v2_pos]. rewrite !lv_pos. fold bu. unfold put_all, add_or_replace. cbn [fold_left]. rewrite EV, EW. reflexivity.
Qed.

Lemma corner_joins_made d eps (a b c : vertex R) vs : 0 < eps -> corner_made d eps (pos a) (pos b) (pos c) vs -> pbulge a = 0 -> pbulge b = 0 ->
  joinsv eps (d <? nzero)%num (raw_line_seg d a b, raw_line_seg d b c) vs.
Proof.
  intros He [(q & CM & ->)|(v & w & CR & ->)] Ba Bb.
  - intros res. exact (corner_joins d eps a b c q He CM Ba Bb _ res).
  - apply corner_joins_round; auto. destruct CR as (n & n' & al & _ & _ & TU & _). intros ->. lra.
Qed.

Lemma spreadv_of eps v vs : Forall (fun ab => ~ is_point (pos (fst ab)) (pos (snd ab)) eps) (combine (v :: vs) vs) -> spreadv eps v vs.
Proof.
  revert v. induction vs as [|v' vs IH]; intros v F; [exact I|]. inversion F. subst. cbn. split; [now apply far_of|now apply IH].
Qed.

Lemma made_last d eps a b c vs : corner_made d eps a b c vs -> exists us q, vs = us ++ [lv q].
Proof. intros [(q & _ & ->)|(v & w & (n & n' & al & _ & _ & _ & _ & _ & _ & -> & _) & ->)]; [now exists [], q|]. now exists [v], (moved b n' d). Qed.

Lemma going_round_snoc us (v : vertex R) l : going_round ((us ++ [v]) :: l) = v :: concat l ++ us.
Proof.
  unfold going_round. rewrite app_length. cbn [length]. replace (length us + 1 - 1)%nat with (length us) by lia.
  rewrite skipn_app, skipn_all, Nat.sub_diag. cbn [skipn app]. rewrite firstn_app, firstn_all, Nat.sub_diag. cbn [firstn]. now rewrite app_nil_r.
Qed.

Lemma last_cons_default {A} (l : list A) x y : last (x :: l) y = last l x.
Proof. revert x y. induction l as [|z l IH]; intros x y; [reflexivity|]. change (last (z :: l) y = last (z :: l) x). now rewrite !IH. Qed.

Lemma made_raw p d eps vss : 0 < eps -> is_polygon p -> (2 <= vertex_count p)%nat -> made_corners p d eps vss -> create_raw_offset_polyline p d eps = Ret (PL (going_round vss) true).
Proof.
  intros He (HC & HB) TP (C & F & H1).
  assert (LS : length (spec_segs (vtx p) true) = vertex_count p). { rewrite spec_segs_length. destruct (Nat.ltb_spec (length (vtx p)) 2) as [L|L]; [unfold vertex_count in TP; lia|reflexivity]. }
  assert (ES : create_untrimmed_raw_offset_segs p d = Ret (map (fun s => raw_line_seg d (fst s) (snd s)) (spec_segs (vtx p) true))).
  { unfold create_untrimmed_raw_offset_segs. rewrite iter_segments_spec. cbn [rbind]. rewrite HC. f_equal. apply map_ext_in. intros (a, b) I. cbn [fst snd]. apply spec_segs_In_both in I as (Ia & _). rewrite (is_zero_line a (HB a Ia)). reflexivity. }
  pose proof (fun x y => @previous_adjacent _ (vtx p) x y) as AD. pose proof (fun a b => @spec_segs_In_both _ (vtx p) true a b) as IB.
  destruct (spec_segs (vtx p) true) as [|s0 [|s1 rest]] eqn:EV; [cbn in LS; lia|cbn in LS; lia|]. cbn [with_previous] in C.
  set (SS := s0 :: s1 :: rest) in *. inversion C as [|? vs0 ? vss' C0 C1]. subst. change (combine SS (s1 :: rest)) with ((s0, s1) :: combine (s1 :: rest) rest) in C1. inversion C1 as [|? vs1 ? vss'' C2 C3]. subst. rename vss'' into vss.
  assert (J : forall ss vs, In ss (with_previous SS) -> corner_made d eps (pos (fst (fst ss))) (pos (snd (fst ss))) (pos (snd (snd ss))) vs ->
    joinsv eps (d <? nzero)%num (raw_line_seg d (fst (fst ss)) (snd (fst ss)), raw_line_seg d (fst (snd ss)) (snd (snd ss))) vs).
  { intros ((a, b), (b', c)) vs I CM. cbn [fst snd] in *. pose proof (AD _ _ I) as E. cbn [fst snd] in E. subst b'.
    assert (IS : In (a, b) SS /\ In (b, c) SS). { cbn [with_previous SS] in I. destruct I as [I|I].
      - injection I as I1 I2. split; [|rewrite <- I2; now left]. change (last (s1 :: rest) s0 = (a, b)) in I1. rewrite <- I1. right. destruct (exists_last (l := s1 :: rest) ltac:(discriminate)) as (m & z & ->). rewrite last_last. apply in_or_app. right. now left.
      - split; [now apply in_combine_l in I|]. right. now apply in_combine_r in I. }
    destruct IS as (I1 & I2). apply IB in I1 as (Ia & Ib). apply corner_joins_made; auto. }
  destruct (made_last _ _ _ _ _ _ C0) as (us0 & q0 & ->). rewrite going_round_snoc in *.
  assert (NE : vs1 <> []). { destruct (made_last _ _ _ _ _ _ C2) as (us & q & ->). destruct us; discriminate. }
  cbn [map SS] in ES. cbn [with_previous] in F. inversion F as [|? ? F2 F3]. subst. cbn [fst snd] in F2.
  assert (SP : spreadv eps (lv q0) (concat (vs1 :: vss) ++ us0)) by (apply spreadv_of; exact F3).
  apply (raw_made eps He p d _ _ _ q0 us0 vs1 vss TP HC ES).
  - apply is_zero_line. reflexivity.
  - reflexivity.
  - change (raw_line_seg d (fst s1) (snd s1) :: map (fun s => raw_line_seg d (fst s) (snd s)) rest) with (map (fun s => raw_line_seg d (fst s) (snd s)) (s1 :: rest)).
    rewrite (last_map (fun s => raw_line_seg d (fst s) (snd s)) (s1 :: rest) s0). exact (J (last (s1 :: rest) s0, s0) _ (or_introl eq_refl) C0).
  - change (raw_line_seg d (fst s0) (snd s0) :: raw_line_seg d (fst s1) (snd s1) :: map (fun s => raw_line_seg d (fst s) (snd s)) rest) with (map (fun s => raw_line_seg d (fst s) (snd s)) SS).
    rewrite windows2_map, windows2_combine. change (combine SS (tl SS)) with ((s0, s1) :: combine (s1 :: rest) rest).
    eapply Forall2_map_in; [exact C1|]. intros ss q I CM. cbn [fst snd]. apply J; [|exact CM]. right. exact I.
  - exact NE.
  - rewrite app_assoc. set (M := concat (vs1 :: vss) ++ us0) in *. apply spreadv_app. split.
    + assert (N0 : exists n, left_normal (pos (fst s0)) (pos (snd s0)) n).
      { destruct C2 as [(q & (n & _ & _ & _ & N & _) & _)|(v & w & (n & _ & _ & N & _) & _)]; exists n; exact N. }
      destruct N0 as (n & N). destruct s0 as (a, b). cbn [fst snd] in *. rewrite (raw_line_val d a b n (left_normal_neq _ _ _ N) N). cbn [rs_v1]. fold (lv (moved (pos a) n d)).
      destruct M as [|v M]; [exact I|]. cbn [spreadv] in *. split; [|exact (proj2 SP)]. rewrite lv_pos. apply far_of. apply (H1 a b n v); [reflexivity|exact N|reflexivity].
    + cbn [spreadv]. split; [|exact I]. assert (NM : M <> []) by (unfold M; cbn [concat]; destruct vs1; [contradiction|discriminate]).
      assert (EM : last M (lv q0) = last M (rs_v1 (raw_line_seg d (fst s0) (snd s0)))) by (destruct M; [contradiction|now rewrite !last_cons_default]). rewrite <- EM. apply far_of. exact F2.
  - destruct vs1 as [|v vs1]; [contradiction|]. cbn [concat app] in SP. cbn [firstn spreadv] in *. split; [exact (proj1 SP)|exact I].
Qed.
