(** The loops made of the far slices of a loop of lines that is cut where it meets itself (C76). *)
From Coq Require Import Reals ZArith Bool List Arith Lra Lia Psatz Permutation Sorted.
From Verif Require Import Num RNum Res ModelMath ModelSeg ModelPline ModelView ModelIntersects ModelBoolean ModelOffset.
From Verif Require Import Spec SpecPline SpecGeom SpecIntr SpecBox SpecView SpecPruneR SpecStitch SpecShape SpecChain SpecCuts SpecWinding.
From Verif Require Import ProofR ProofBase ProofIter ProofIntr ProofArc ProofView ProofSlice ProofSlice2 ProofWinding2 ProofWinding4 ProofWinding6 ProofWinding7 ProofRegion ProofRegion2 ProofRegion3 ProofRegion4 ProofRegion5 ProofRegion7 ProofRegion8 ProofRegion9 ProofRegion10 ProofPolyOff ProofPolyOff2 ProofOffNear3 ProofChain2 ProofTarget ProofTarget2 ProofTarget3 ProofTarget4 ProofTarget5 ProofTarget6 ProofTarget7.
Import ListNotations.
Local Open Scope R_scope.

Lemma kept_filter (test : view_data R -> bool -> Prop) (f : boolean_slice R * vec2 R -> bool) cs slices :
  SpecShape.kept test (map (fun c => Some (bs_view (fst c))) cs) slices -> (forall c b, In c cs -> test (bs_view (fst c)) b -> b = f c) ->
  slices = map (fun c => bs_view (fst c)) (filter f cs).
Proof.
  revert slices. induction cs as [|c cs IH]; intros slices K H; cbn [map filter] in *.
  - inversion K. reflexivity.
  - inversion K as [|l ds K'|d l ds Y K'|d l ds Nn K']; subst.
    + rewrite <- (H c true (or_introl eq_refl) Y). cbn [map]. f_equal. apply IH; [exact K'|]. intros; apply H; [now right|assumption].
    + rewrite <- (H c false (or_introl eq_refl) Nn). apply IH; [exact K'|]. intros; apply H; [now right|assumption].
Qed.

Lemma forall2_head {X Y} (P : X -> Y -> Prop) x y l m : Forall2 P (x :: l) (y :: m) -> P x y.
Proof. now inversion 1. Qed.

(** A segment of a result is a line and part of the loop. *)
Definition part_of (raw : pline R) (w : seg) : Prop := pbulge (fst w) = 0 /\ forall q, on w q -> on_path raw q.

Lemma part_of_data raw (s s' : seg) : SpecPline.seg_data s = SpecPline.seg_data s' -> part_of raw s -> part_of raw s'.
Proof.
  intros E (Z & H). split.
  - destruct s as [a b], s' as [c d]. unfold SpecPline.seg_data in E. cbn in *. injection E as _ _ _ _ E. congruence.
  - intros q O. apply H. apply (same_on s s'); [now left|exact O].
Qed.

Section SelfLoop.
Variables (p raw : pline R) (offset : R) (o : offset_options R) (cuts : list (nat * vec2 R)) (D : vec2 R -> Z) (far : vec2 R -> bool).
Local Notation eps := (oo_pos_equal_eps o).
Local Notation join := (oo_slice_join_eps o).
Local Notation segs := (spec_segs (vtx raw) (is_closed raw)).
Hypothesis epos : 0 < eps.
Hypothesis jpos : 0 < join.
Hypothesis vc : (2 <= vertex_count raw)%nat.
Hypothesis cl : is_closed raw = true.
Hypothesis clear : clear_pline eps raw.
Hypothesis lines : forall v, In v (vtx raw) -> pbulge v = 0.
Hypothesis clean : clear_cuts eps raw (map as_slice cuts).
Hypothesis nd : NoDup cuts.
Hypothesis many : (2 <= length cuts)%nat.
Hypothesis wide : forall x y, In x cuts -> In y cuts -> snd x = snd y \/
  ((eps <= Rabs (vx (snd x) - vx (snd y)) \/ eps <= Rabs (vy (snd x) - vy (snd y))) /\ (2 * join < Rabs (vx (snd x) - vx (snd y)) \/ 2 * join < Rabs (vy (snd x) - vy (snd y)))).
Hypothesis double : forall k t q, t < 1 -> point_at raw k t q -> ~ lone_at raw q -> In (k, q) cuts.
Hypothesis status : forall k a b s s', nth_error segs k = Some (a, b) -> 0 <= s -> s < s' -> s' <= 1 ->
  (forall x, s <= x <= s' -> lone_at raw (line_pt (pos a) (pos b) x)) -> far (line_pt (pos a) (pos b) s) = far (line_pt (pos a) (pos b) s').
Hypothesis Dlocal : forall x x', (forall t, 0 <= t <= 1 -> ~ on_path raw (line_pt x x' t)) -> D x = D x'.
Hypothesis Dnear : forall k a b s q, nth_error segs k = Some (a, b) -> 0 < s < 1 -> seg_at a b s q -> lone_at raw q ->
  exists r, 0 < r /\ forall x x', dist q x < r -> dist q x' < r -> ~ on_path raw x -> ~ on_path raw x' ->
    (D x' - D x = if far q then lr (a, b) x' - lr (a, b) x else 0)%Z.
Hypothesis Dfar : forall h, exists M, forall u, M <= u -> D (level h u) = 0%Z.
Hypothesis far_ends : forall a b, a <> b -> (forall t, 0 < t < 1 -> far (line_pt a b t) = true) -> far a = true /\ far b = true.
Hypothesis far_clear : forall q, far q = true -> clear_point p offset o q.
Hypothesis far_seg : forall w1 w2, pbulge w1 = 0 -> (forall t, 0 <= t <= 1 -> far (line_pt (pos w1) (pos w2) t) = true) -> clear_seg p o w1 w2.
Hypothesis near_mid : forall k q a b q', In (k, q) cuts -> nth_error segs k = Some (a, b) -> q' = pos b \/ In (k, q') cuts -> q <> q' ->
  far (line_pt q q' (1 / 2)) = false -> ~ clear_point p offset o (line_pt q q' (1 / 2)).

Lemma sl_crisp x y : In x cuts -> In y cuts -> crisp eps (snd x) (snd y).
Proof. intros I J. destruct (wide x y I J) as [E|(E & _)]; [now left|right; exact E]. Qed.

Local Notation okp := (cut_okp raw eps epos clear).

Section WithSlices.
Variables (order : list place) (cs : list (boolean_slice R * vec2 R)).
Hypothesis inc : forall x, In x order -> In (of_place x) cuts.
Hypothesis full : forall y, In y cuts -> exists x, In x order /\ of_place x = y.
Hypothesis ne : order <> [].
Hypothesis placedp : Forall (placed raw) order.
Hypothesis sorted : StronglySorted along order.
Hypothesis betw : Forall2 (between raw) (gaps order) cs.
Hypothesis distinct : forall g, In g (gaps order) -> of_place (fst g) <> of_place (snd g).

Let test := fun c : boolean_slice R * vec2 R => far (snd c).
Local Notation L := (slice_marks raw cs test).

Lemma ws_double k t q : t < 1 -> point_at raw k t q -> ~ lone_at raw q -> exists x, In (k, t, x) order.
Proof.
  intros Ht P NL. destruct (full (k, q) (double k t q Ht P NL)) as ([[k' t'] x] & I & E). unfold of_place in E. cbn [fst snd] in E.
  assert (k' = k) by congruence. assert (sp_pos x = q) by congruence. subst k' q. exists x. replace t with t'; [exact I|].
  pose proof (proj1 (Forall_forall _ _) placedp) as PLF. destruct (PLF _ I) as (_ & a & b & E1 & Ht' & S1). destruct P as (a' & b' & E2 & Ht2 & S2). rewrite E1 in E2. injection E2 as <- <-.
  destruct (okp a b (nth_error_In _ _ E1)) as (Ok & Nd). eapply seg_at_inj; eauto.
Qed.

Lemma ws_pieces e : In e L -> piece_of raw e.
Proof. exact (marks_pieces raw order cs test vc cl lines okp placedp betw e). Qed.
Lemma ws_cover q : on_path raw q -> exists e, In e L /\ on (fst e) q.
Proof. exact (marks_cover raw order cs test vc cl lines okp ne placedp sorted betw q). Qed.
Lemma ws_marks e q : In e L -> on (fst e) q -> q <> pos (fst (fst e)) -> q <> pos (snd (fst e)) -> snd e = far q.
Proof. exact (marks_marks raw order cs far test vc cl lines okp placedp sorted betw ws_double status (fun c _ => eq_refl) e q). Qed.
Lemma ws_once L1 (e : marked) L2 q : L = L1 ++ e :: L2 -> on (fst e) q -> q <> pos (fst (fst e)) -> q <> pos (snd (fst e)) -> off (L1 ++ L2) q /\ lone_at raw q.
Proof. exact (marks_once raw order cs far test vc cl lines okp ne placedp sorted betw ws_double status (fun c _ => eq_refl) L1 e L2 q). Qed.

Lemma ws_target x : ends_off (vy x) L -> ~ on_path raw x -> ProofRegion.kept L x = D x.
Proof. exact (line_target raw L D far lines okp ws_pieces ws_cover ws_once ws_marks Dlocal Dnear Dfar x). Qed.
Lemma ws_balance c : kept_ends (here c) L = 0%Z.
Proof. exact (line_balance raw L D far lines okp ws_pieces ws_cover ws_once ws_marks Dlocal Dnear Dfar c). Qed.

Lemma ws_kept (g : seg -> Z) :
  zsum (map (fun e : marked => if snd e then g (fst e) else 0%Z) L) = zsum (map (fun c => zsum (map g (vsegs raw (bs_view (fst c))))) (filter test cs)).
Proof.
  unfold slice_marks. rewrite zsum_flat. clear. induction cs as [|c l IH]; [reflexivity|]. cbn [map filter]. rewrite map_map. cbn [fst snd].
  destruct (test c) eqn:E.
  - cbn [map zsum fold_right]. change (fold_right Z.add 0%Z) with zsum. rewrite IH. reflexivity.
  - rewrite <- IH. cbn [zsum fold_right]. change (fold_right Z.add 0%Z) with zsum. rewrite zsum_zero by reflexivity. reflexivity.
Qed.

(** A slice as a path. *)
Lemma ws_view c : In c cs -> let d := bs_view (fst c) in vsegs raw d = pairs (view_path_of raw d) /\ (exists a m z, view_path_of raw d = a :: m ++ [z] /\ pos a = slice_from d /\ pos z = slice_to d)
  /\ exists x y, In (x, y) (gaps order) /\ slice_from d = snd (of_place x) /\ slice_to d = snd (of_place y).
Proof.
  intros Ic d. destruct (gap_slice raw order cs betw c Ic) as (i & t & x & j & u & y & IG & B). destruct B as (V & _). destruct V as (V1 & V2 & V3 & V4 & l & first & last & EV & _ & Eh & Ef & En & El).
  fold d in V1, V2, V3, V4, EV, En. destruct (view_forward_spec d raw V1 V2 V3) as (_ & EV' & _). split; [unfold vsegs; rewrite EV'; apply spec_segs_pairs|]. split.
  - unfold view_path_of, spec_view. eexists _, _, _. split; [reflexivity|]. split; [reflexivity|]. unfold slice_to. destruct (vd_end_point d). reflexivity.
  - exists (i, t, x), (j, u, y). split; [exact IG|]. unfold of_place. cbn [fst snd]. rewrite EV in EV'. injection EV' as ->. rewrite <- Ef, <- El. split.
    + cbn in Eh. injection Eh as <-. reflexivity.
    + rewrite fwd_list_nth in En by assumption. destruct (Nat.eqb_spec (vd_end_index_offset d + 1) 0); [lia|].
      destruct (Nat.leb_spec (vd_end_index_offset d + 1) (vd_end_index_offset d)); [lia|].
      rewrite Nat.eqb_refl in En. injection En as <-. unfold slice_to. destruct (vd_end_point d). reflexivity.
Qed.

Lemma ws_in c w : In c cs -> In w (vsegs raw (bs_view (fst c))) -> In (w, test c) L.
Proof. intros Ic Iw. unfold slice_marks. apply in_flat_map. exists c. split; [exact Ic|]. apply in_map_iff. exists w. auto. Qed.

Lemma ws_seg c w : In c cs -> In w (vsegs raw (bs_view (fst c))) ->
  close_by eps (fst w) (snd w) = false /\ part_of raw w /\ pos (fst w) <> pos (snd w)
  /\ (forall q, on w q -> q <> pos (fst w) -> q <> pos (snd w) -> test c = far q).
Proof.
  intros Ic Iw. pose proof (ws_in c w Ic Iw) as I. destruct (gap_slice raw order cs betw c Ic) as (i & t & x & j & u & y & IG & B).
  pose proof (mk_piece raw order vc cl lines okp placedp i t x j u y c IG B) as FP.
  destruct (forall2_right _ _ _ _ FP Iw) as ([[k a] b] & IP & v1 & v2 & E & Ok & Nd & T0 & T1 & T2 & HP & Okw).
  assert (Za : pbulge v1 = 0) by (apply lines; apply (spec_segs_In_both _ _ _ _ (nth_error_In _ _ E))).
  destruct (piece_facts v1 v2 a b _ _ Ok Nd T0 T1 T2 HP) as (_ & [Zw|(Zw & _)]); [|contradiction].
  assert (W1 : seg_at v1 v2 a (pos (fst w))) by (replace a with (a + 0 * (b - a)) by ring; apply HP; now apply seg_at_0).
  assert (W2 : seg_at v1 v2 b (pos (snd w))) by (replace b with (a + 1 * (b - a)) by ring; apply HP; now apply seg_at_1).
  assert (NE' : pos (fst w) <> pos (snd w)) by (apply (seg_ends_neq v1 v2 a b); auto; lra).
  assert (EQ : forall s q q', seg_at v1 v2 s q -> seg_at v1 v2 s q' -> q = q') by (intros; eapply seg_at_unique; eauto).
  assert (VI : In v1 (vtx raw) /\ In v2 (vtx raw)) by (apply (spec_segs_In_both _ _ _ _ (nth_error_In _ _ E))).
  pose proof (gaps_In _ _ _ IG) as (I1 & I2). pose proof (proj1 (Forall_forall _ _) placedp) as PLF. destruct (PLF _ I1) as (L1 & a1 & b1 & E1 & B1 & Q1). destruct (PLF _ I2) as (L2 & a2 & b2 & E2 & B2 & Q2).
  pose proof (inc _ I1) as J1. pose proof (inc _ I2) as J2. unfold of_place in J1, J2. cbn [fst snd] in J1, J2.
  destruct (in_cuts raw eps cuts clean _ J1) as (C1 & _). destruct (in_cuts raw eps cuts clean _ J2) as (C2 & _). cbn [snd] in C1, C2.
  split; [|split; [split; [exact Zw|intros q O; exact (on_raw raw L ws_pieces (w, test c) q I O)]|split; [exact NE'|intros q O N1 N2; exact (ws_marks (w, test c) q I O N1 N2)]]].
  unfold close_by.
  destruct (pieces_cases _ _ _ _ _ _ _ _ L1 IP) as [(EE & Eij & Lt)|[EE|[(-> & ->)|(EE & Lt)]]].
  - injection EE as -> -> ->. subst j. rewrite E in E1, E2. injection E1 as <- <-. injection E2 as <- <-.
    rewrite (EQ _ _ _ W1 Q1), (EQ _ _ _ W2 Q2) in *. apply crisp_false; [|exact NE']. exact (sl_crisp _ _ J1 J2).
  - injection EE as -> -> ->. rewrite E in E1. injection E1 as <- <-. rewrite (EQ _ _ _ W1 Q1), (EQ _ _ _ W2 (seg_at_1 v1 v2 Ok)) in *.
    apply crisp_false; [|exact NE']. apply crisp_sym. apply C1. apply VI.
  - rewrite (EQ _ _ _ W1 (seg_at_0 v1 v2 Ok)), (EQ _ _ _ W2 (seg_at_1 v1 v2 Ok)) in *. apply crisp_false; [|exact NE'].
    right. destruct (clear v1 v2) as (_ & Df); [eapply nth_error_In; exact E|]. exact Df.
  - injection EE as -> -> ->. rewrite E in E2. injection E2 as <- <-. rewrite (EQ _ _ _ W1 (seg_at_0 v1 v2 Ok)), (EQ _ _ _ W2 Q2) in *.
    apply crisp_false; [|exact NE']. apply C2. apply VI.
Qed.

Lemma line_on_at (w : seg) t : pbulge (fst w) = 0 -> 0 <= t <= 1 -> on w (line_pt (pos (fst w)) (pos (snd w)) t).
Proof. intros Z Ht. exists t. split; [exact Ht|]. now apply seg_at_line. Qed.

(** The far slices are clear, the others are not. *)
Lemma ws_far_seg c w : In c cs -> test c = true -> In w (vsegs raw (bs_view (fst c))) -> forall t, 0 <= t <= 1 -> far (line_pt (pos (fst w)) (pos (snd w)) t) = true.
Proof.
  intros Ic Tc Iw. destruct (ws_seg c w Ic Iw) as (_ & (Z & _) & N & M).
  assert (In' : forall t, 0 < t < 1 -> far (line_pt (pos (fst w)) (pos (snd w)) t) = true).
  { intros t Ht. rewrite <- Tc. symmetry. destruct (line_pt_ends (pos (fst w)) (pos (snd w))) as (X0 & X1). apply M; [apply line_on_at; [exact Z|lra]| |]; intros X.
    - rewrite <- X0 in X at 2. apply line_pt_inj in X; [lra|exact N].
    - rewrite <- X1 in X at 2. apply line_pt_inj in X; [lra|exact N]. }
  destruct (far_ends _ _ N In') as (F0 & F1). intros t Ht. destruct (line_pt_ends (pos (fst w)) (pos (snd w))) as (X0 & X1).
  destruct (Req_dec t 0) as [-> |]; [rewrite X0; exact F0|]. destruct (Req_dec t 1) as [-> |]; [rewrite X1; exact F1|]. apply In'. lra.
Qed.

Lemma ws_first c w1 w2 : In c cs -> nth_error (vsegs raw (bs_view (fst c))) 0 = Some (w1, w2) -> seg_midpoint w1 w2 = snd c
  /\ (far (snd c) = false -> ~ clear_point p offset o (snd c)).
Proof.
  intros Ic Ew. destruct (gap_slice raw order cs betw c Ic) as (i & t & x & j & u & y & IG & B).
  pose proof (mk_piece raw order vc cl lines okp placedp i t x j u y c IG B) as FP.
  destruct B as (_ & a0 & b0 & e & Ea & Eb & EH & Q). destruct (slice_pieces (vertex_count raw) i t j u) as [|[[k0 t0] e0] l] eqn:EP; [discriminate|]. cbn [hd_error] in EH. injection EH as -> -> ->.
  destruct (vsegs raw (bs_view (fst c))) as [|w0 l1]; [discriminate|]. cbn [nth_error] in Ew. assert (w0 = (w1, w2)) as -> by congruence.
  assert (FP0 := forall2_head _ _ _ _ _ FP). cbv beta iota in FP0. destruct FP0 as (a & b & E & Ok & Nd & H0 & H1 & H2 & HP & Okw). cbn [fst snd] in HP.
  destruct (segs_at raw i a b E) as (_ & _ & _ & Fa & Fb). assert (a0 = a) by congruence. assert (b0 = b) by congruence. subst a0 b0.
  assert (Za : pbulge a = 0) by (apply lines; eapply nth_error_In; exact Fa).
  split.
  - pose proof (proj1 (HP (1 / 2) _) (seg_midpoint_spec w1 w2 Okw)) as M. replace (t + 1 / 2 * (e - t)) with ((t + e) / 2) in M by field. eapply seg_at_unique; eauto.
  - pose proof (gaps_In _ _ _ IG) as (I1 & I2). pose proof (proj1 (Forall_forall _ _) placedp) as PLF. destruct (PLF _ I1) as (L1 & a1 & b1 & E1 & B1 & Q1). destruct (PLF _ I2) as (L2 & a2 & b2 & E2 & B2 & Q2).
    pose proof (inc _ I1) as J1. pose proof (inc _ I2) as J2. unfold of_place in J1, J2. cbn [fst snd] in J1, J2.
    rewrite E in E1. injection E1 as <- <-. apply seg_at_line in Q1; [|exact Za]. apply seg_at_line in Q; [|exact Za].
    assert (EM : snd c = line_pt (sp_pos x) (line_pt (pos a) (pos b) e) (1 / 2)).
    { rewrite Q, Q1. unfold line_pt. apply vec2_eq; cbn [vx vy]; field. }
    assert (NQ : sp_pos x <> line_pt (pos a) (pos b) e) by (rewrite Q1; intros X; apply line_pt_inj in X; [lra|exact Nd]).
    rewrite EM. apply (near_mid i (sp_pos x) a b); auto.
    assert (IP : In (i, t, e) (slice_pieces (vertex_count raw) i t j u)) by (rewrite EP; now left).
    destruct (pieces_cases _ _ _ _ _ _ _ _ L1 IP) as [(EE & Eij & Lt)|[EE|[(Et & Ee)|(EE & Lt)]]].
    + right. pose proof (f_equal snd EE) as Eu. cbn in Eu. subst e j. rewrite E in E2. injection E2 as <- <-. apply seg_at_line in Q2; [|exact Za]. rewrite <- Q2. exact J2.
    + left. pose proof (f_equal snd EE) as Eu. cbn in Eu. subst e. apply line_pt_ends.
    + left. subst e. apply line_pt_ends.
    + right. pose proof (f_equal snd EE) as Eu. pose proof (f_equal (fun z => fst (fst z)) EE) as Ei. cbn in Eu, Ei. subst e j. rewrite E in E2. injection E2 as <- <-. apply seg_at_line in Q2; [|exact Za]. rewrite <- Q2. exact J2.
Qed.

Lemma ws_clear c : In c cs -> (clear_of p offset o (view_path_of raw (bs_view (fst c))) <-> test c = true).
Proof.
  intros Ic. destruct (ws_view c Ic) as (EV & (a & m & z & El & _) & _). split.
  - intros (_ & _ & H3). destruct (test c) eqn:Tc; [reflexivity|exfalso].
    assert (X : exists w1 w2, nth_error (vsegs raw (bs_view (fst c))) 0 = Some (w1, w2)).
    { rewrite EV, El. destruct m as [|v m]; eexists _, _; reflexivity. }
    destruct X as (w1 & w2 & Ew). destruct (ws_first c w1 w2 Ic Ew) as (Em & Nc). apply (Nc Tc). rewrite <- Em. apply (H3 0%nat w1 w2); [now left|]. rewrite spec_segs_pairs, <- EV. exact Ew.
  - intros Tc. pose proof (ws_far_seg c) as FS. split; [|split].
    + intros w Iw. apply far_clear.
      assert (X : exists w', In (w, w') (vsegs raw (bs_view (fst c))) \/ In (w', w) (vsegs raw (bs_view (fst c)))).
      { rewrite EV. rewrite El in Iw |- *. clear - Iw. revert a Iw. induction m as [|v m IH]; intros a Iw.
        - destruct Iw as [<-|[<-|[]]]; [exists z; left; now left|exists a; right; now left].
        - change ((v :: m) ++ [z]) with (v :: m ++ [z]) in *. rewrite pairs_cons. destruct Iw as [<-|Iw]; [exists v; left; now left|].
          destruct (IH v Iw) as (w' & [I|I]); exists w'; [left|right]; now right. }
      destruct X as (w' & [I|I]).
      * pose proof (FS (w, w') Ic Tc I 0 ltac:(lra)) as F. cbn [fst snd] in F. now rewrite (proj1 (line_pt_ends _ _)) in F.
      * pose proof (FS (w', w) Ic Tc I 1 ltac:(lra)) as F. cbn [fst snd] in F. now rewrite (proj2 (line_pt_ends _ _)) in F.
    + intros w1 w2 I. rewrite spec_segs_pairs, <- EV in I. apply far_seg; [apply (ws_seg c (w1, w2) Ic I)|]. exact (FS (w1, w2) Ic Tc I).
    + intros k w1 w2 _ Ew. apply nth_error_In in Ew. rewrite spec_segs_pairs, <- EV in Ew. apply far_clear.
      destruct (ws_seg c (w1, w2) Ic Ew) as (_ & (Z & _) & _). cbn [fst] in Z.
      pose proof (seg_midpoint_spec w1 w2 (line_ok w1 w2 Z)) as M. apply seg_at_line in M; [|exact Z]. rewrite M. apply (FS (w1, w2) Ic Tc Ew). lra.
Qed.

Lemma ws_slices slices : SpecShape.kept (fun d b => b = true <-> clear_of p offset o (view_path_of raw d)) (map (fun c => Some (bs_view (fst c))) cs) slices ->
  slices = map (fun c => bs_view (fst c)) (filter test cs).
Proof.
  intros K. apply (kept_filter _ test cs slices K). intros c b Ic Hb. pose proof (ws_clear c Ic) as W.
  destruct b, (test c); try reflexivity; exfalso.
  - assert (false = true) by (apply W, Hb; reflexivity). discriminate.
  - assert (false = true) by (apply Hb, W; reflexivity). discriminate.
Qed.

Theorem ws_loops slices (choice : nat -> nat -> list nat -> nat -> Prop) chains Ks : SpecShape.kept (fun d b => b = true <-> clear_of p offset o (view_path_of raw d)) (map (fun c => Some (bs_view (fst c))) cs) slices ->
  (forall first cur avail b, choice first cur avail b -> In b avail) ->
  all_chained (path_at raw slices) (next_at slices join) choice true eps chains Ks -> Permutation (concat chains) (seq 0 (length slices)) ->
  let rs := offset_results slices true eps join Ks in
  Forall (fun r => is_closed r = true /\ (2 <= vertex_count r)%nat /\ forall pr, In pr (spec_segs (vtx r) true) -> part_of raw pr) rs
  /\ forall x, ends_off (vy x) L -> ~ on_path raw x -> zsum (map (fun r => zsum (map (nw x) (spec_segs (vtx r) true))) rs) = D x.
Proof.
  intros K CH AC PM rs. pose proof (ws_slices slices K) as ES.
  assert (SI : forall d, In d slices -> exists c, In c cs /\ d = bs_view (fst c)).
  { intros d I. rewrite ES in I. apply in_map_iff in I as (c & <- & I). apply filter_In in I as (I & _). exists c. auto. }
  assert (PO : forall (g : seg -> Z) d, In d slices -> let l := view_path_of raw d in
    exists a m z, l = a :: m ++ [z] /\ pos a = slice_from d /\ pos z = slice_to d
    /\ (forall pr, In pr (pairs l) -> close_by eps (fst pr) (snd pr) = false /\ part_of raw pr) /\ zsum (map g (pairs l)) = zsum (map g (vsegs raw d))).
  { intros g d I l. destruct (SI d I) as (c & Ic & ->). destruct (ws_view c Ic) as (EV & (a & m & z & El & Ea & Ez) & _). exists a, m, z. split; [exact El|]. split; [exact Ea|]. split; [exact Ez|]. split.
    - intros pr Ipr. unfold l in Ipr. rewrite <- EV in Ipr. destruct (ws_seg c pr Ic Ipr) as (A & B & _). auto.
    - unfold l. now rewrite EV. }
  assert (AP : forall s s', In s slices -> In s' slices -> reaches join (slice_to s) (slice_from s') = true <-> slice_to s = slice_from s').
  { intros s s' I I'. destruct (SI s I) as (c & Ic & ->), (SI s' I') as (c' & Ic' & ->). destruct (ws_view c Ic) as (_ & _ & x & y & IG & _ & E2), (ws_view c' Ic') as (_ & _ & x' & y' & IG' & E1 & _).
    rewrite E2, E1. rewrite reaches_dist. pose proof (wide _ _ (inc y (proj2 (gaps_In _ _ _ IG))) (inc x' (proj1 (gaps_In _ _ _ IG')))) as W. split.
    - intros (H1 & H2). destruct W as [W|(_ & [W|W])]; [exact W|lra|lra].
    - intros ->. rewrite !Rminus_diag_eq, Rabs_R0 by reflexivity. lra. }
  assert (BA : forall c, zsum (map (off_bal c) slices) = 0%Z).
  { intros q. rewrite <- (ws_balance q). unfold kept_ends.
    etransitivity; [|symmetry; exact (ws_kept (fun w : seg => (here q (pos (snd w)) - here q (pos (fst w)))%Z))]. rewrite ES, map_map. f_equal. apply map_ext_in. intros c I. apply filter_In in I as (Ic & _).
    destruct (ws_view c Ic) as (EV & (a & m & z & El & Ea & Ez) & _). rewrite EV, El, pairs_telescope, Ea, Ez. reflexivity. }
  assert (ST : forall x, Forall (fun r => is_closed r = true /\ (2 <= vertex_count r)%nat /\ forall pr, In pr (spec_segs (vtx r) true) -> part_of raw pr) rs
     /\ zsum (map (fun r => zsum (map (nw x) (spec_segs (vtx r) true))) rs) = zsum (map (fun d => zsum (map (nw x) (vsegs raw d))) slices)).
  { intros x. exact (stitched_loops raw slices choice eps join (nw x) (fun d => zsum (map (nw x) (vsegs raw d))) (part_of raw) epos jpos (nw_data x) (part_of_data raw) (PO (nw x)) AP BA CH chains Ks AC PM). }
  split; [exact (proj1 (ST (V2 0 0)))|]. intros x EO OF. rewrite (proj2 (ST x)), <- (ws_target x EO OF). unfold ProofRegion.kept. rewrite ws_kept, ES, map_map. reflexivity.
Qed.
End WithSlices.

Theorem self_loops slices (choice : nat -> nat -> list nat -> nat -> Prop) chains Ks : cuts <> [] -> cut_slices p offset o true raw cuts slices ->
  (forall first cur avail b, choice first cur avail b -> In b avail) ->
  all_chained (path_at raw slices) (next_at slices join) choice true eps chains Ks -> Permutation (concat chains) (seq 0 (length slices)) ->
  let rs := offset_results slices true eps join Ks in
  Forall (fun r => is_closed r = true /\ (2 <= vertex_count r)%nat /\ forall pr, In pr (spec_segs (vtx r) true) -> part_of raw pr) rs
  /\ forall x, (forall v, In v (vtx raw) -> py v <> vy x) -> (forall y, In y cuts -> vy (snd y) <> vy x) -> ~ on_path raw x ->
       zsum (map (fun r => zsum (map (nw x) (spec_segs (vtx r) true))) rs) = D x.
Proof.
  intros NC (_ & CS) CH AC PM. destruct (CS NC) as (order0 & vos & P0 & _ & SO & F2 & KP).
  destruct (self_slices raw eps cuts epos vc cl clear lines clean nd many sl_crisp order0 vos P0 (SO comparable_R) F2) as (order & cs & EO & NE & PL & SS & BW & -> & DI).
  assert (inc : forall x, In x order -> In (of_place x) cuts) by (intros x I; eapply Permutation_in; [exact P0|]; rewrite <- EO; now apply in_map).
  assert (full : forall y, In y cuts -> exists x, In x order /\ of_place x = y).
  { intros y I. apply (Permutation_in _ (Permutation_sym P0)) in I. rewrite <- EO in I. apply in_map_iff in I as (x & E & I). exists x. auto. }
  destruct (ws_loops order cs inc full NE PL SS BW slices choice chains Ks KP CH AC PM) as (A & B). split; [exact A|]. intros x H1 H2 OF. apply B; [|exact OF].
  intros e I. destruct (mark_piece raw order cs (fun c => far (snd c)) vc cl lines okp PL BW e I) as (i & t & x0 & j & u & y & c & k & t' & u' & a & b & IG & Bt & Ic & Ik & Em & E & Za & Nd & Hk & T0 & T1 & T2 & HP & E1 & E2).
  assert (PO : piece_of raw e) by (exists k, a, b, t', u'; auto).
  destruct (piece_data raw lines okp e PO) as (_ & _ & _ & _ & _ & _ & _ & _ & _ & _ & _ & Zw & _). split; [exact (line_ok _ _ Zw)|].
  destruct (segs_at raw k a b E) as (_ & _ & _ & Fa & Fb). pose proof (gaps_In _ _ _ IG) as (I1 & I2).
  assert (VA : py a <> vy x) by (apply H1; eapply nth_error_In; exact Fa). assert (VB : py b <> vy x) by (apply H1; eapply nth_error_In; exact Fb).
  unfold at_line in E1, E2. rewrite E in E1, E2. rewrite Forall_forall in PL.
  assert (X0 : line_pt (pos a) (pos b) 0 = pos a /\ line_pt (pos a) (pos b) 1 = pos b) by apply line_pt_ends. destruct X0 as (X0 & X1).
  assert (PX : forall m s z, In (m, s, z) order -> m = k -> vy (line_pt (pos a) (pos b) s) <> vy x).
  { intros m s z J ->. destruct (PL _ J) as (_ & a1 & b1 & F & _ & Q). rewrite E in F. injection F as <- <-. apply seg_at_line in Q; [|exact Za]. rewrite <- Q. apply (H2 _ (inc _ J)). }
  assert (Q1 : vy (pos (fst (fst e))) <> vy x /\ vy (pos (snd (fst e))) <> vy x); [|exact Q1].
  rewrite E1, E2. destruct (PL _ I1) as (L1 & _).
  destruct (pieces_cases _ _ _ _ _ _ _ _ L1 Ik) as [(EE & Eij & Lt)|[EE|[(-> & ->)|(EE & Lt)]]].
  - injection EE as -> -> ->. subst j. split; [apply (PX _ _ _ I1 eq_refl)|apply (PX _ _ _ I2 eq_refl)].
  - injection EE as -> -> ->. split; [apply (PX _ _ _ I1 eq_refl)|]. rewrite X1. exact VB.
  - rewrite X0, X1. split; [exact VA|exact VB].
  - injection EE as -> -> ->. split; [rewrite X0; exact VA|apply (PX _ _ _ I2 eq_refl)].
Qed.
End SelfLoop.
