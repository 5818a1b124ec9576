(** The loops in the result of a boolean operation pass no point twice and have no common points (C77). *)
From Coq Require Import Reals ZArith Bool List Arith Lra Lia Psatz Classical Permutation.
From Verif Require Import Num RNum Res ModelMath ModelSeg ModelPline ModelIndex ModelIntersects ModelBoolean.
From Verif Require Import Spec SpecGeom SpecIntr SpecBox SpecWinding SpecIndex SpecBoolean SpecView SpecPruneR SpecOffsetJoin SpecPolyBool SpecPrune SpecRegion SpecJordan SpecCurve SpecTotal.
From Verif Require Import ProofR ProofBase ProofIter ProofArc ProofSlice ProofMeasure ProofFind ProofBoolean ProofPrune2 ProofPruneR ProofWinding6 ProofWinding7 ProofRegion ProofRegion7 ProofRegion10 ProofRegion11 ProofNest ProofJordan ProofJordan2 ProofJordan5 ProofConn ProofConn2 ProofArea5 ProofOverlap ProofOverlap2 ProofPolyBool ProofCurve2 ProofCurve3 ProofTotal ProofTotal2 ProofTotal3 ProofPass1 ProofPass2.
Import ListNotations.
Local Open Scope R_scope.

Definition pairwise {X} (P : X -> X -> Prop) (l : list X) : Prop := forall i j a b, nth_error l i = Some a -> nth_error l j = Some b -> i <> j -> P a b.

Lemma pairwise_perm {X} (P : X -> X -> Prop) l l' : Permutation l l' -> pairwise P l -> pairwise P l'.
Proof.
  intros PM H i j a b Ei Ej N. apply Permutation_nth_error in PM as (_ & f & I & E). rewrite E in Ei, Ej. apply (H (f i) (f j) a b Ei Ej). intros F. apply N. now apply I.
Qed.

Lemma pairwise_app {X} (P : X -> X -> Prop) l m : (forall a b, P a b -> P b a) -> pairwise P l -> pairwise P m -> (forall a b, In a l -> In b m -> P a b) -> pairwise P (l ++ m).
Proof.
  intros Sy Hl Hm Hlm i j a b Ei Ej N. destruct (le_lt_dec (length l) i) as [Li|Li], (le_lt_dec (length l) j) as [Lj|Lj].
  - rewrite nth_error_app2 in Ei, Ej by assumption. apply (Hm (i - length l)%nat (j - length l)%nat); auto. lia.
  - rewrite nth_error_app2 in Ei by assumption. rewrite nth_error_app1 in Ej by assumption. apply Sy, Hlm; eapply nth_error_In; eassumption.
  - rewrite nth_error_app1 in Ei by assumption. rewrite nth_error_app2 in Ej by assumption. apply Hlm; eapply nth_error_In; eassumption.
  - rewrite nth_error_app1 in Ei, Ej by assumption. now apply (Hl i j).
Qed.

Lemma clear_differ eps p a b : 0 < eps -> clear_pline eps p -> In (a, b) (spec_segs (vtx p) (is_closed p)) -> pos a <> pos b.
Proof.
  intros He K I E. destruct (K a b I) as (_ & D). assert (EX : px a = px b) by exact (f_equal vx E). assert (EY : py a = py b) by exact (f_equal vy E).
  rewrite EX, EY, !Rminus_diag_eq, Rabs_R0 in D by reflexivity. lra.
Qed.

Definition share (p1 p2 : pline R) (op : boolean_op) (a b : boolean_result_pline R) : Prop :=
  forall q, on_path (brp_pline a) q -> on_path (brp_pline b) q -> op = BXor /\ on_path p1 q /\ on_path p2 q.

(** ** The sides at a crossing *)
Lemma clear_switches eps p1 p2 : 0 < eps -> clear_loops eps p1 p2 -> valid_loop p1 -> valid_loop p2 -> passes_once p1 -> passes_once p2 ->
  forall q, on_path p1 q -> on_path p2 q ->
  (forall b e, 0 < e -> ~ (forall x, dist q x < e -> on_path p1 x -> x <> q -> ~ on_path p2 x -> inside p2 x = b))
  /\ (forall b e, 0 < e -> ~ (forall x, dist q x < e -> on_path p2 x -> x <> q -> ~ on_path p1 x -> inside p1 x = b)).
Proof.
  intros epos clear V1 V2' P1 P2 q (a & b & I1 & O1) (c & e & I2 & O2).
  pose proof clear as (C1 & C2 & K1 & K2 & M1 & M2 & SD & OV & _).
  destruct (OV q) as (F1 & F2); [exists a, b; auto|exists c, e; auto|].
  pose proof O1 as (t & Ht & At). pose proof O2 as (u & Hu & Au).
  destruct (In_nth_error _ _ I1) as (i & E1). destruct (In_nth_error _ _ I2) as (j & E2).
  destruct (off_inner p1 eps epos K1 M1 i a b t q E1 F1 Ht At) as (T & _). destruct (off_inner p2 eps epos K2 M2 j c e u q E2 F2 Hu Au) as (U & _).
  assert (CW : crosswise (a, b) (c, e) q).
  { apply (sides_crosswise eps); auto; [apply (clear_ok _ _ K1 _ _ I1)|apply (clear_ok _ _ K2 _ _ I2)|]. apply SD; [now rewrite <- C1|now rewrite <- C2]. }
  assert (CW' : crosswise (c, e) (a, b) q) by (intros d g1 g2 Hd G1 G2; destruct (CW d g2 g1 Hd G2 G1) as (x & X1 & X2 & X3); exists x; auto).
  assert (D1 : pos a <> pos b) by exact (clear_differ eps p1 a b epos K1 I1). assert (D2 : pos c <> pos e) by exact (clear_differ eps p2 c e epos K2 I2).
  pose proof (clear_ok _ _ K1) as ok1. pose proof (clear_ok _ _ K2) as ok2.
  split; intros d r Hr.
  - exact (switches p1 p2 (a, b) (c, e) t u q d r ok1 ok2 V1 V2' P1 P2 I1 I2 D2 T U At Au CW Hr).
  - exact (switches p2 p1 (c, e) (a, b) u t q d r ok2 ok1 V2' V1 P2 P1 I2 I1 D1 U T Au At CW' Hr).
Qed.

(** ** Crossing loops *)
Theorem cross_passes mk (p1 p2 : pline R) op idx eps boxes bs : makes_index mk ->
  index_of boxes idx -> length boxes = length (spec_segs (vtx p1) (is_closed p1)) ->
  valid_loop p1 -> valid_loop p2 -> 0 < eps -> clear_loops eps p1 p2 -> passes_once p1 -> passes_once p2 ->
  find_intersects p1 p2 idx eps = Ret (bs, []) -> bs <> [] -> clean_crossing eps p1 p2 bs ->
  exists r, polyline_boolean mk p1 p2 op idx eps = Ret r
  /\ (forall l, In l (br_pos r ++ br_neg r) -> passes_once (brp_pline l)) /\ pairwise (share p1 p2 op) (br_pos r ++ br_neg r).
Proof.
  intros MK IO BL Vl1 Vl2 epos clear PO1 PO2 EF NE (CC1 & CC2 & H1 & H2 & A1 & A2 & SP). pose proof clear as (CL1 & CL2 & K1 & K2 & _).
  pose proof (proj1 Vl1) as V1. pose proof (proj1 Vl2) as V2'.
  destruct (loop_simple p1 (clear_ok _ _ K1) Vl1 PO1) as (o1 & S1 & _). destruct (loop_simple p2 (clear_ok _ _ K2) Vl2 PO2) as (o2 & S2 & _).
  destruct (process_total p1 p2 idx eps boxes IO BL) as (bs' & ovs & os & o1' & o2' & EF' & EJ & EO1 & EO2 & EP).
  rewrite EF in EF'. injection EF' as <- <-. rewrite (proj1 S1) in EO1. injection EO1 as <-. rewrite (proj1 S2) in EO2. injection EO2 as <-.
  assert (os = []) as -> by (cbn in EJ; congruence).
  destruct (find_intersects_each p1 p2 eps boxes idx IO BL) as (bs' & os' & EF' & FB & _). rewrite EF in EF'. injection EF' as <- <-.
  assert (RG : forall b, In b bs -> (bi_index1 b < vertex_count p1)%nat /\ (bi_index2 b < vertex_count p2)%nat).
  { intros b I. rewrite Forall_forall in FB. apply (basic_in_range p1 p2 eps b). apply (FB b I). }
  destruct (cut_up_ok p1 p2 false eps bs o1 o2) as (cs1 & C1 & F1 & E1); try assumption; [exact (clear_ok _ _ K2)|intros b I; apply (RG b I)|].
  destruct (cut_up_ok p1 p2 true eps bs o1 o2) as (cs2 & C2 & F2 & E2); try assumption; [exact (clear_ok _ _ K1)|intros b I; apply (RG b I)|].
  destruct (crossing_with mk p1 p2 op idx eps MK boxes BL bs [] o1 o2 cs1 cs2) as (loops & TR & ER); auto; try (split; assumption); try discriminate; try (intros s []).
  exists (sorted_out op o2 (concat loops)). split; [exact ER|]. clear ER.
  pose proof (clear_switches eps p1 p2 epos clear Vl1 Vl2 PO1 PO2) as SW.
  assert (SW1 : forall q b e, on_path p1 q -> on_path p2 q -> 0 < e -> ~ (forall x, dist q x < e -> on_path p1 x -> x <> q -> ~ on_path p2 x -> inside p2 x = b)) by (intros q b e Q1 Q2; now apply (SW q)).
  assert (SW2 : forall q b e, on_path p1 q -> on_path p2 q -> 0 < e -> ~ (forall x, dist q x < e -> on_path p2 x -> x <> q -> ~ on_path p1 x -> inside p1 x = b)) by (intros q b e Q1 Q2; now apply (SW q)).
  pose proof (clear_ok _ _ K1) as ok1. pose proof (clear_ok _ _ K2) as ok2.
  assert (G : forall w l, In w (wanted op) -> traced p1 p2 op o1 o2 eps cs1 cs2 [] w l ->
    (forall r, In r l -> passes_once (brp_pline r) /\ forall q, on_path (brp_pline r) q -> edge p1 p2 w q) /\ pairwise (share p1 p2 op) l).
  { intros w l Iw Tr. split.
    - intros r Ir. split; [exact (loops_pass_once p1 p2 eps bs op o1 o2 cs1 cs2 w l epos C1 C2 ok1 ok2 CL1 CL2 S1 S2 SP Iw Tr PO1 PO2 SW1 SW2 r Ir)|].
      apply (loops_good p1 p2 eps bs op o1 o2 cs1 cs2 w l epos C1 C2 ok1 ok2 CL1 CL2 S1 S2 SP Iw Tr r Ir).
    - intros i j a b Ei Ej N q Qa Qb. exfalso.
      exact (loops_disjoint p1 p2 eps bs op o1 o2 cs1 cs2 w l epos C1 C2 ok1 ok2 CL1 CL2 S1 S2 SP Iw Tr PO1 PO2 SW1 SW2 i j a b q Ei Ej N (conj Qa Qb)). }
  pose proof (Permutation_sym (sorted_perm op o2 (concat loops))) as PM.
  assert (X : (forall r, In r (concat loops) -> passes_once (brp_pline r)) /\ pairwise (share p1 p2 op) (concat loops)).
  { assert (Sy : forall a b, share p1 p2 op a b -> share p1 p2 op b a) by (intros a b H q Qa Qb; now apply H).
    destruct op; cbn [wanted] in TR, G; inversion TR as [|w l ws ls T1 TR1]; subst; inversion TR1 as [|w' l' ws' ls' T2 TR2]; subst; try (inversion TR2; subst); cbn [concat]; rewrite ?app_nil_r.
    1-3: destruct (G _ l ltac:(now left) T1) as (GA & GB); split; [intros r Ir; now apply GA|exact GB].
    destruct (G _ l ltac:(now left) T1) as (GA & GB). destruct (G _ l' ltac:(now (right; left)) T2) as (GA' & GB'). split.
    - intros r Ir. apply in_app_or in Ir as [Ir|Ir]; [now apply GA|now apply GA'].
    - apply pairwise_app; auto. intros a b Ia Ib q Qa Qb. split; [reflexivity|].
      destruct (proj2 (GA a Ia) q Qa) as (_ & B1 & B2). destruct (proj2 (GA' b Ib) q Qb) as (_ & B3 & B4). cbn [fst snd] in *.
      split; [destruct B2 as [B2|B2], B4 as [B4|B4]; auto; congruence|destruct B1 as [B1|B1], B3 as [B3|B3]; auto; congruence]. }
  destruct X as (X1 & X2). split.
  - intros l Il. apply X1. apply (Permutation_in _ (Permutation_sym PM)). exact Il.
  - exact (pairwise_perm _ _ _ PM X2).
Qed.

(** ** Loops that do not meet *)
Theorem apart_passes mk (p1 p2 : pline R) op idx eps boxes :
  index_of boxes idx -> length boxes = length (spec_segs (vtx p1) (is_closed p1)) ->
  valid_loop p1 -> valid_loop p2 -> passes_once p1 -> passes_once p2 -> (forall q, ~ (on_path p1 q /\ on_path p2 q)) ->
  find_intersects p1 p2 idx eps = Ret ([], []) ->
  exists r, polyline_boolean mk p1 p2 op idx eps = Ret r
  /\ (forall l, In l (br_pos r ++ br_neg r) -> passes_once (brp_pline l)) /\ pairwise (share p1 p2 op) (br_pos r ++ br_neg r).
Proof.
  intros IO BL Vl1 Vl2 P1 P2 Ap EF.
  destruct (boolean_whole mk p1 p2 op idx eps boxes IO BL Vl1 Vl2) as (bs & os & sl & a & b & w12 & w21 & EF' & EJ & E1 & E2 & W12 & W21 & H).
  rewrite EF in EF'. injection EF' as <- <-. cbn in EJ. injection EJ as <-. cbv zeta in H. destruct H as (_ & H). specialize (H eq_refl eq_refl).
  set (info := relation _ _) in *.
  destruct (whole_loops op info p1 p2) as (ps, ns) eqn:EW. eexists. split; [exact H|]. cbn [br_pos br_neg]. rewrite <- map_app.
  assert (EL : ps ++ ns = fst (whole_loops op info p1 p2) ++ snd (whole_loops op info p1 p2)) by (rewrite EW; reflexivity). rewrite EL. clearbody info. clear - P1 P2 Ap.
  set (L := fst (whole_loops op info p1 p2) ++ snd (whole_loops op info p1 p2)).
  assert (X : L = [] \/ L = [p1] \/ L = [p2] \/ L = [p1; p2] \/ L = [p2; p1]) by (unfold L; destruct op, info; cbn; auto).
  assert (A : forall q : pline R, In q L -> q = p1 \/ q = p2) by (intros q I; destruct X as [X|[X|[X|[X|X]]]]; rewrite X in I; cbn in I; intuition).
  split.
  - intros l I. apply in_map_iff in I as (q & <- & I). cbn [brp_pline]. destruct (A q I) as [->| ->]; assumption.
  - intros i j a b Ei Ej N q Qa Qb. exfalso. rewrite nth_error_map in Ei, Ej.
    assert (Y : forall c d, nth_error L i = Some c -> nth_error L j = Some d -> on_path c q -> on_path d q -> False).
    { clear - X Ap N. intros c d Ei Ej Qc Qd. destruct X as [X|[X|[X|[X|X]]]]; rewrite X in Ei, Ej; destruct i as [|[|i]], j as [|[|j]]; cbn in Ei, Ej;
      rewrite ?nth_error_nil in Ei; rewrite ?nth_error_nil in Ej; try discriminate; try contradiction;
      repeat match goal with H : nth_error [] ?k = Some _ |- _ => destruct k; discriminate H end;
      injection Ei as <-; injection Ej as <-; apply (Ap q); auto. }
    destruct (nth_error L i) as [c|]; [|discriminate]. destruct (nth_error L j) as [d|]; [|discriminate]. cbn in Ei, Ej. injection Ei as <-. injection Ej as <-.
    exact (Y c d eq_refl eq_refl Qa Qb).
Qed.

Theorem loops_passing mk (p1 p2 : pline R) eps op idx boxes : 0 < eps -> clear_loops eps p1 p2 -> makes_index mk ->
  index_of boxes idx -> boxes = map (fun s => seg_fast_approx_bounding_box (fst s) (snd s)) (spec_segs (vtx p1) (is_closed p1)) ->
  valid_loop p1 -> valid_loop p2 -> passes_once p1 -> passes_once p2 ->
  exists r, polyline_boolean mk p1 p2 op idx eps = Ret r
  /\ (forall l, In l (br_pos r ++ br_neg r) -> valid_loop (brp_pline l) /\ pline_ok (brp_pline l) /\ passes_once (brp_pline l)
        /\ forall q, on_path (brp_pline l) q -> on_path p1 q \/ on_path p2 q)
  /\ (forall i j a b q, nth_error (br_pos r ++ br_neg r) i = Some a -> nth_error (br_pos r ++ br_neg r) j = Some b -> i <> j ->
        on_path (brp_pline a) q -> on_path (brp_pline b) q -> op = BXor /\ on_path p1 q /\ on_path p2 q).
Proof.
  intros epos clear MK IO EB Vl1 Vl2 P1 P2. assert (BL : length boxes = length (spec_segs (vtx p1) (is_closed p1))) by (rewrite EB; apply map_length).
  destruct (loops_region mk p1 p2 eps op idx boxes epos clear MK IO EB Vl1 Vl2 P1 P2) as (r & E & L & _). exists r. split; [exact E|].
  assert (X : exists r', polyline_boolean mk p1 p2 op idx eps = Ret r'
    /\ (forall l, In l (br_pos r' ++ br_neg r') -> passes_once (brp_pline l)) /\ pairwise (share p1 p2 op) (br_pos r' ++ br_neg r')).
  { destruct (loops_found p1 p2 eps epos clear boxes idx IO EB) as (bs & EF & _ & HB). destruct bs as [|b0 bs].
    - apply (apart_passes mk p1 p2 op idx eps boxes IO BL Vl1 Vl2 P1 P2); [|exact EF].
      intros q (Q1 & Q2). destruct (common_index p1 p2 q Q1 Q2) as (i & j & C). apply HB in C. destruct C.
    - apply (cross_passes mk p1 p2 op idx eps boxes (b0 :: bs)); auto; [discriminate|now apply loops_clean]. }
  destruct X as (r' & E' & A & B). rewrite E in E'. injection E' as <-. split.
  - intros l I. destruct (L l I) as (L1 & L2 & L3). auto.
  - intros i j a b q Ei Ej N Qa Qb. exact (B i j a b Ei Ej N q Qa Qb).
Qed.
