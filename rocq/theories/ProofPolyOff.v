(** The raw offset of a polygon whose offset lines meet their neighbours (C60). *)
From Coq Require Import Reals ZArith Bool List Arith Lra Lia.
From Verif Require Import Num RNum Res ModelMath ModelIntr ModelSeg ModelPline ModelView ModelSegIntr ModelIndex ModelIntersects ModelBoolean ModelOffset.
From Verif Require Import Spec SpecPline SpecGeom SpecIntr SpecOffset SpecOffsetJoin SpecIndex SpecIntersects SpecCuts SpecOffNear SpecPolyOff.
From Verif Require Import ProofR ProofBase ProofIter ProofIntr ProofArc ProofRepeat ProofIndex2 ProofSlice ProofSegIntr2 ProofCuts2 ProofRawNear3 ProofOffsetJoin2 ProofOffsetJoin4 ProofShape3 ProofWhole.
Import ListNotations.
Local Open Scope R_scope.

Definition lv (q : vec2 R) : vertex R := vertex_at q 0.
Definition far (eps : R) (a b : vec2 R) : Prop := v2fuzzy_eq_eps a b eps = false.

Lemma far_of e a b : ~ is_point a b e -> far e a b.
Proof. intros H. apply not_true_is_false. intros F. apply v2fuzzy_R in F. apply H. unfold is_point. rewrite (Rabs_minus_sym (vx b)), (Rabs_minus_sym (vy b)). exact F. Qed.

Lemma lv_pos q : pos (lv q) = q.
Proof. destruct q. reflexivity. Qed.

Lemma lv_zero q : bulge_is_zero (lv q) = true.
Proof. apply is_zero_line. reflexivity. Qed.

Section Fold.
Context (eps : R).
Hypothesis He : 0 < eps.

(** The join adds exactly [q]. *)
Definition joins (ss : raw_seg R * raw_seg R) (q : vec2 R) : Prop :=
  forall ccw res, join_seg_pair ccw eps res ss = Ret (add_or_replace_vertex res (lv q) eps).

Lemma add_far l w c q : far eps (pos w) q -> add_or_replace_vertex (PL (l ++ [w]) c) (lv q) eps = PL ((l ++ [w]) ++ [lv q]) c.
Proof.
  intros F. unfold add_or_replace_vertex. cbn [vtx is_closed]. rewrite rev_app_distr. cbn [rev app]. rewrite lv_pos, F. reflexivity.
Qed.

Fixpoint spread (q : vec2 R) (qs : list (vec2 R)) : Prop :=
  match qs with [] => True | q' :: t => far eps q q' /\ spread q' t end.

Lemma fold_joins ccw c ps : forall qs l w, Forall2 joins ps qs -> spread (pos w) qs ->
  rfold (join_seg_pair ccw eps) ps (PL (l ++ [w]) c) = Ret (PL ((l ++ [w]) ++ map lv qs) c).
Proof.
  induction ps as [|s ps IH]; intros qs l w F SP.
  - inversion F. subst. cbn. now rewrite app_nil_r.
  - inversion F as [|? q ? qs' J F']. subst. cbn in SP. destruct SP as (S1 & S2). cbn [rfold]. rewrite J. cbn [rbind]. rewrite add_far by exact S1.
    rewrite (IH qs' (l ++ [w]) (lv q) F'); [|rewrite lv_pos; exact S2]. cbn [map]. now rewrite <- !app_assoc.
Qed.

Lemma raw_polygon p d s0 s1 rest q0 q1 qs :
  (2 <= vertex_count p)%nat -> is_closed p = true -> create_untrimmed_raw_offset_segs p d = Ret (s0 :: s1 :: rest) -> bulge_is_zero (rs_v1 s0) = true ->
  joins (last (s1 :: rest) s0, s0) q0 -> Forall2 joins (windows2 (s0 :: s1 :: rest)) (q1 :: qs) ->
  far eps (pos (rs_v1 s0)) q1 -> far eps q0 q1 -> spread q1 qs -> far eps (last qs q1) q0 -> pbulge (rs_v1 s0) = 0 ->
  create_raw_offset_polyline p d eps = Ret (polygon (q0 :: q1 :: qs)).
Proof.
  intros TP HC ES BZ J0 JS F0 F1 SP FL B0. unfold create_raw_offset_polyline. destruct (Nat.ltb_spec (vertex_count p) 2); [lia|]. rewrite ES. cbn [rbind].
  set (ccw := (d <? nzero)%num). change (windows2 (s0 :: s1 :: rest)) with ((s0, s1) :: windows2 (s1 :: rest)) in *. remember (windows2 (s1 :: rest)) as ps. cbn [firstn skipn rfold].
  inversion JS as [|? ? ? ? J1 J2]. subst. rewrite J1. cbn [rbind]. rewrite HC.
  pose proof (add_far [] (rs_v1 s0) true q1 F0) as A. cbn [app] in A. rewrite A. cbn [vertex_count vtx length Nat.eqb].
  pose proof (fold_joins ccw true _ qs [rs_v1 s0] (lv q1) J2) as FJ. rewrite lv_pos in FJ. specialize (FJ SP). cbn [app] in FJ. rewrite FJ. cbn [rbind andb].
  replace (1 <? vertex_count _)%nat with true by reflexivity.
  destruct (@exists_last _ (q1 :: qs) ltac:(discriminate)) as (m & ql & EM).
  assert (EL : last qs q1 = ql). { transitivity (last (q1 :: qs) q1); [destruct qs; reflexivity|]. rewrite EM. apply last_last. }
  rewrite EL in FL. unfold close_raw_offset.
  change (rs_v1 s0 :: lv q1 :: map lv qs) with (rs_v1 s0 :: map lv (q1 :: qs)). rewrite EM, map_app. cbn [map]. rewrite app_comm_cons, last_snoc_pline. cbn [rbind unwrap].
  rewrite J0. cbn [rbind]. pose proof (add_far [] (lv ql) false q0) as A2. rewrite lv_pos in A2. specialize (A2 FL). cbn [app] in A2. rewrite A2.
  change (at_ (PL [lv ql; lv q0] false) 0) with (Ret (lv ql)). cbn [rbind]. rewrite set_last_snoc_pline. cbn [rbind negb skipn vtx].
  change (last_ (PL [lv ql; lv q0] false)) with (Ret (Some (lv q0))). cbn [rbind unwrap]. unfold extend_vertexes. cbn [vtx is_closed].
  rewrite <- app_comm_cons. change [lv ql] with (map lv [ql]). rewrite <- map_app, <- EM. rewrite <- app_comm_cons.
  assert (U : update_first_vertex (PL (rs_v1 s0 :: map lv (q1 :: qs) ++ [lv q0]) true) (pos (lv q0)) = Ret (PL (lv q0 :: map lv (q1 :: qs) ++ [lv q0]) true)).
  { unfold update_first_vertex. change (at_ (PL (rs_v1 s0 :: map lv (q1 :: qs) ++ [lv q0]) true) 0) with (Ret (rs_v1 s0)). cbn [rbind]. rewrite BZ, lv_pos, B0. reflexivity. }
  rewrite U. cbn [rbind]. unfold prune_singularity. replace (1 <? vertex_count _)%nat with true by reflexivity.
  change (at_ (PL (lv q0 :: map lv (q1 :: qs) ++ [lv q0]) true) 0) with (Ret (lv q0)). cbn [rbind]. rewrite app_comm_cons, last_snoc_pline. cbn [rbind unwrap].
  replace (v2fuzzy_eq_eps (pos (lv q0)) (pos (lv q0)) eps) with true. 2:{ symmetry. apply v2fuzzy_R. rewrite !Rminus_diag_eq, Rabs_R0 by reflexivity. auto. }
  rewrite remove_last_snoc. cbn [rbind snd]. replace (1 <? vertex_count _)%nat with true by reflexivity.
  change (at_ (PL (lv q0 :: map lv (q1 :: qs)) true) 0) with (Ret (lv q0)). change (at_ (PL (lv q0 :: map lv (q1 :: qs)) true) 1) with (Ret (lv q1)). cbn [rbind]. rewrite !lv_pos, F1. cbn [rbind].
  replace (Nat.eqb (vertex_count _) 1) with false by reflexivity. reflexivity.
Qed.
End Fold.

(** ** Corners *)
Lemma left_normal_neq a b n : left_normal a b n -> a <> b.
Proof. intros (_ & _ & H) ->. unfold cross, vec in H. cbn [vx vy] in H. lra. Qed.

Lemma corner_joins d eps (a b c : vertex R) q : 0 < eps -> corner_met d eps (pos a) (pos b) (pos c) q -> pbulge a = 0 -> pbulge b = 0 ->
  joins eps (raw_line_seg d a b, raw_line_seg d b c) q.
Proof.
  intros He (n & n' & t & u & N & N' & T & U & Q1 & Q2 & X) Ba Bb ccw res.
  rewrite (raw_line_val d a b n (left_normal_neq _ _ _ N) N), (raw_line_val d b c n' (left_normal_neq _ _ _ N') N').
  fold (lv (moved (pos a) n d)) (lv (moved (pos b) n d)) (lv (moved (pos b) n' d)) (lv (moved (pos c) n' d)).
  unfold join_seg_pair. cbn [rs_v1]. rewrite !lv_zero. unfold line_line_join. cbn [rs_v1 rs_v2 rs_collapsed_arc orb]. rewrite !lv_pos.
  destruct (line_line_nonparallel (moved (pos a) n d) (moved (pos b) n d) (moved (pos b) n' d) (moved (pos c) n' d) eps He) as (s & t' & _ & UN & K).
  { replace (cross _ _) with (cross (vec (pos a) (pos b)) (vec (pos b) (pos c))); [exact X|]. unfold cross, vec, moved. cbn [vx vy]. ring. }
  destruct (UN t u) as (-> & ->); [congruence|]. clear UN.
  assert (IR : forall x (y z : vec2 R), 0 <= x <= 1 -> in_range x (dist y z) eps). { intros x y z Hx. pose proof (dist_pos y z). unfold in_range. nra. }
  destruct K as [(_ & ->)|(N1 & _)]; [|exfalso; apply N1; auto].
  rewrite from_parametric_R, <- Q1. reflexivity.
Qed.

Lemma spec_segs_In_both {A} (l : list A) c a b : In (a, b) (spec_segs l c) -> In a l /\ In b l.
Proof.
  unfold spec_segs. destruct l as [|x [|y l]]; [intros []|intros []|]. intros I. apply in_combine_l in I as I1. apply in_combine_r in I as I2. split; [exact I1|].
  apply in_app_or in I2 as [I2|I2]; [right; exact I2|]. destruct c; [|destruct I2]. destruct I2 as [<-|[]]. now left.
Qed.

Lemma combine_nth_some {A B} (l : list A) (m : list B) i x y : nth_error (combine l m) i = Some (x, y) -> nth_error l i = Some x /\ nth_error m i = Some y.
Proof.
  revert m i. induction l as [|a l IH]; intros [|b m] [|i] E; try discriminate; cbn in *; [injection E as <- <-; auto|]. now apply IH.
Qed.

Lemma previous_adjacent {A} (l : list A) x y : In (x, y) (with_previous (spec_segs l true)) -> snd x = fst y.
Proof.
  intros I. remember (spec_segs l true) as SS. destruct SS as [|s0 t]; [destruct I|]. cbn [with_previous] in I.
  assert (LS : length (spec_segs l true) = length l). { rewrite spec_segs_length. destruct (Nat.ltb_spec (length l) 2) as [L|L]; [|reflexivity]. exfalso. destruct l as [|? [|? ?]]; try discriminate; cbn in L; lia. }
  assert (L2 : (2 <= length l)%nat) by (destruct l as [|? [|? ?]]; try discriminate; cbn; lia).
  assert (NB : forall i j x y, nth_error (spec_segs l true) i = Some x -> nth_error (spec_segs l true) j = Some y -> j = ((i + 1) mod length l)%nat -> snd x = fst y).
  { intros i j (x1, x2) (y1, y2) Ex Ey ->. assert (Li : (i < length (spec_segs l true))%nat) by (apply nth_error_Some; congruence). assert (Lj : ((i + 1) mod length l < length (spec_segs l true))%nat) by (apply nth_error_Some; congruence).
    destruct (spec_segs_nth l true i Li) as (a & b & E1 & _ & E2). destruct (spec_segs_nth l true _ Lj) as (a' & b' & E3 & E4 & _). cbn [snd fst]. congruence. }
  rewrite <- HeqSS in NB. destruct I as [I|I].
  - injection I as <- <-. apply (NB (length l - 1)%nat 0%nat).
    + rewrite <- LS, <- HeqSS. cbn [length]. replace (S (length t) - 1)%nat with (length t) by lia. destruct (exists_last (l := s0 :: t) ltac:(discriminate)) as (m & z & EM).
      assert (EZ : last t s0 = z). { transitivity (last (s0 :: t) s0); [destruct t; reflexivity|]. rewrite EM. apply last_last. }
      rewrite EZ, EM. assert (length t = length m). { apply (f_equal (@length _)) in EM. rewrite app_length in EM. cbn in EM. lia. } rewrite H, nth_error_app2, Nat.sub_diag by lia. reflexivity.
    + reflexivity.
    + replace (length l - 1 + 1)%nat with (length l) by lia. rewrite Nat.mod_same; lia.
  - apply In_nth_error in I as (i & Ei). apply combine_nth_some in Ei as (E1 & E2). assert (Li : (S i < length (s0 :: t))%nat). { cbn. apply -> Nat.succ_lt_mono. apply nth_error_Some. congruence. }
    apply (NB i (S i)); [exact E1|exact E2|]. rewrite HeqSS, LS in Li. rewrite Nat.mod_small; lia.
Qed.

Lemma last_map {A B} (f : A -> B) l x : last (map f l) (f x) = f (last l x).
Proof. revert x. induction l as [|a [|b l] IH]; intros x; [reflexivity|reflexivity|]. exact (IH x). Qed.

Lemma Forall2_map_in {A B C} (P : A -> C -> Prop) (Q : B -> C -> Prop) (f : A -> B) l m : Forall2 P l m -> (forall x y, In x l -> P x y -> Q (f x) y) -> Forall2 Q (map f l) m.
Proof. induction 1 as [|x y l m H F IH]; intros K; [constructor|]. cbn. constructor; [apply K; [now left|exact H]|]. apply IH. intros a b I. apply K. now right. Qed.

Lemma spread_of eps q qs : Forall (fun ab => ~ is_point (fst ab) (snd ab) eps) (combine (q :: qs) qs) -> spread eps q qs.
Proof.
  revert q. induction qs as [|q' qs IH]; intros q F; [exact I|]. inversion F. subst. cbn. split; [now apply far_of|now apply IH].
Qed.

Lemma inner_raw p d eps qs : 0 < eps -> is_polygon p -> (2 <= vertex_count p)%nat -> inner_corners p d eps qs -> create_raw_offset_polyline p d eps = Ret (polygon qs).
Proof.
  intros He (HC & HB) TP (C & F & H1).
  assert (LS : length (spec_segs (vtx p) true) = vertex_count p). { rewrite spec_segs_length. destruct (Nat.ltb_spec (length (vtx p)) 2) as [L|L]; [unfold vertex_count in TP; lia|reflexivity]. }
  assert (ES : create_untrimmed_raw_offset_segs p d = Ret (map (fun s => raw_line_seg d (fst s) (snd s)) (spec_segs (vtx p) true))).
  { unfold create_untrimmed_raw_offset_segs. rewrite iter_segments_spec. cbn [rbind]. rewrite HC. f_equal. apply map_ext_in. intros (a, b) I. cbn [fst snd]. apply spec_segs_In_both in I as (Ia & _). rewrite (is_zero_line a (HB a Ia)). reflexivity. }
  pose proof (fun x y => @previous_adjacent _ (vtx p) x y) as AD. pose proof (fun a b => @spec_segs_In_both _ (vtx p) true a b) as IB.
  destruct (spec_segs (vtx p) true) as [|s0 [|s1 rest]] eqn:EV; [cbn in LS; lia|cbn in LS; lia|]. cbn [with_previous] in C.
  set (SS := s0 :: s1 :: rest) in *. inversion C as [|? q0 ? qs' C0 C1]. subst. change (combine SS (s1 :: rest)) with ((s0, s1) :: combine (s1 :: rest) rest) in C1. inversion C1 as [|? q1 ? qs'' C2 C3]. subst. rename qs'' into qs.
  assert (J : forall ss q, In ss (with_previous SS) -> corner_met d eps (pos (fst (fst ss))) (pos (snd (fst ss))) (pos (snd (snd ss))) q ->
    joins eps (raw_line_seg d (fst (fst ss)) (snd (fst ss)), raw_line_seg d (fst (snd ss)) (snd (snd ss))) q).
  { intros ((a, b), (b', c)) q I CM. cbn [fst snd] in *. pose proof (AD _ _ I) as E. cbn [fst snd] in E. subst b'.
    assert (IS : In (a, b) SS /\ In (b, c) SS). { cbn [with_previous SS] in I. destruct I as [I|I].
      - injection I as I1 I2. split; [|rewrite <- I2; now left]. change (last (s1 :: rest) s0 = (a, b)) in I1. rewrite <- I1. right. destruct (exists_last (l := s1 :: rest) ltac:(discriminate)) as (m & z & ->). rewrite last_last. apply in_or_app. right. now left.
      - split; [now apply in_combine_l in I|]. right. now apply in_combine_r in I. }
    destruct IS as (I1 & I2). apply IB in I1 as (Ia & Ib). apply corner_joins; auto. }
  cbn [map SS] in ES. apply (raw_polygon eps He p d _ _ _ q0 q1 qs TP HC ES).
  - apply is_zero_line. reflexivity.
  - change (raw_line_seg d (fst s1) (snd s1) :: map (fun s => raw_line_seg d (fst s) (snd s)) rest) with (map (fun s => raw_line_seg d (fst s) (snd s)) (s1 :: rest)).
    rewrite (last_map (fun s => raw_line_seg d (fst s) (snd s)) (s1 :: rest) s0). exact (J (last (s1 :: rest) s0, s0) q0 (or_introl eq_refl) C0).
  - change (raw_line_seg d (fst s0) (snd s0) :: raw_line_seg d (fst s1) (snd s1) :: map (fun s => raw_line_seg d (fst s) (snd s)) rest) with (map (fun s => raw_line_seg d (fst s) (snd s)) SS).
    rewrite windows2_map, windows2_combine. change (combine SS (tl SS)) with ((s0, s1) :: combine (s1 :: rest) rest).
    eapply Forall2_map_in; [exact C1|]. intros ss q I CM. cbn [fst snd]. apply J; [|exact CM]. right. exact I.
  - destruct C2 as (n & _ & _ & _ & N & _). cbn [fst snd] in N. destruct s0 as (a, b). cbn [fst snd] in *. rewrite (raw_line_val d a b n (left_normal_neq _ _ _ N) N). cbn [rs_v1]. fold (lv (moved (pos a) n d)). rewrite lv_pos.
    apply far_of. apply (H1 a b n q1); [reflexivity|exact N|reflexivity].
  - cbn [with_previous] in F. inversion F as [|? ? _ F2]. subst. inversion F2. subst. now apply far_of.
  - cbn [with_previous] in F. inversion F as [|? ? _ F2]. subst. inversion F2 as [|? ? _ F3]. subst. now apply spread_of.
  - cbn [with_previous] in F. inversion F as [|? ? F2 _]. subst. cbn [fst snd] in F2. apply far_of. replace (last qs q1) with (last (q1 :: qs) q0); [exact F2|]. clear. revert q0 q1. induction qs as [|a qs IH]; intros q0 q1; [reflexivity|]. change (last (q1 :: a :: qs) q0) with (last (a :: qs) q0). rewrite IH. destruct qs; [reflexivity|]. change (last (v :: qs) a = last (v :: qs) q1). clear. revert v. induction qs as [|b qs IH]; intros v; [reflexivity|]. exact (IH b).
  - reflexivity.
Qed.
