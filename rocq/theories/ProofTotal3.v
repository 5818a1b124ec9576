(** The loops of boolean results cover the region of the operation once, so their areas add up (C72). *)
From Coq Require Import Reals ZArith Bool List Arith Lra Lia Psatz Classical Permutation.
From Verif Require Import Num RNum Res ModelMath ModelSeg ModelPline ModelIndex ModelIntersects ModelBoolean.
From Verif Require Import Spec SpecGeom SpecBox SpecWinding SpecIndex SpecBoolean SpecView SpecPruneR SpecPrune SpecRegion SpecJordan SpecCurve SpecTotal.
From Verif Require Import ProofR ProofBase ProofIter ProofArc ProofSlice ProofMeasure ProofFind ProofBoolean ProofPrune2 ProofPruneR ProofWinding6 ProofWinding7 ProofRegion ProofRegion7 ProofRegion10 ProofRegion11 ProofNest ProofJordan ProofJordan2 ProofJordan5 ProofConn ProofConn2 ProofArea5 ProofOverlap ProofPolyBool ProofCurve2 ProofCurve3 ProofTotal ProofTotal2.
Import ListNotations.
Local Open Scope R_scope.

Definition bool_op (op : boolean_op) (a b : bool) : bool :=
  match op with BOr => a || b | BAnd => a && b | BNot => a && negb b | BXor => xorb a b end.

Lemma bool_op_iff op a b : bool_op op a b = true <-> operation op (a = true) (b = true).
Proof. destruct op, a, b; cbn; intuition discriminate. Qed.

Definition one (b : bool) : Z := if b then 1%Z else 0%Z.

Definition counted (p1 p2 : pline R) (op : boolean_op) (r : boolean_result R) : Prop :=
  (forall l, In l (br_pos r ++ br_neg r) -> loop_ok (brp_pline l) /\ (forall q, on_path (brp_pline l) q -> on_path p1 q \/ on_path p2 q)
     /\ exists o, simple_loop (brp_pline l) o /\ o <> Open)
  /\ forall x, ~ on_path p1 x -> ~ on_path p2 x -> covers r x = one (bool_op op (inside p1 x) (inside p2 x)).

Lemma covers_zsum r x : covers r x = (zsum (map (around x) (br_pos r)) - zsum (map (around x) (br_neg r)))%Z.
Proof. reflexivity. Qed.

Lemma around_wn l x v : v = 1%Z \/ v = (-1)%Z -> wn (brp_pline l) x = 0%Z \/ wn (brp_pline l) x = v -> around x l = (v * wn (brp_pline l) x)%Z.
Proof.
  intros Hv Hw. unfold around. rewrite inside_wn. destruct (Z.eqb_spec (wn (brp_pline l) x) 0) as [E|E]; cbn [negb]; [rewrite E; lia|].
  destruct Hw as [Hw|Hw]; [contradiction|]. rewrite Hw. destruct Hv as [->| ->]; reflexivity.
Qed.

Lemma zsum_times {X} (f g : X -> Z) v ls : (forall l, In l ls -> f l = (v * g l)%Z) -> zsum (map f ls) = (v * zsum (map g ls))%Z.
Proof.
  induction ls as [|l m IH]; intros H; unfold zsum in *; cbn [map fold_right]; [lia|]. rewrite IH by (intros; apply H; now right). rewrite (H l) by now left. lia.
Qed.

Lemma kinds_sum (f : boolean_result_pline R -> Z) (P : bool * bool -> list (boolean_result_pline R) -> Prop) (g : bool * bool -> Z) ws loops :
  Forall2 P ws loops -> (forall w ls, P w ls -> zsum (map f ls) = g w) -> zsum (map f (concat loops)) = zsum (map g ws).
Proof.
  intros F H. induction F as [|w ls ws lls Pw F IH]; [reflexivity|]. cbn [concat map]. rewrite map_app, zsum_app, IH, (H w ls Pw). reflexivity.
Qed.

Lemma forall2_weaken {X Y} (P Q : X -> Y -> Prop) l m : (forall x y, P x y -> Q x y) -> Forall2 P l m -> Forall2 Q l m.
Proof. intros H F. induction F; constructor; auto. Qed.

(** ** Crossing loops *)
Theorem cross_counted mk (p1 p2 : pline R) op idx eps boxes bs : makes_index mk ->
  index_of boxes idx -> length boxes = length (spec_segs (vtx p1) (is_closed p1)) ->
  valid_loop p1 -> valid_loop p2 -> 0 < eps -> clear_pline eps p1 -> clear_pline eps p2 -> passes_once p1 -> passes_once p2 ->
  find_intersects p1 p2 idx eps = Ret (bs, []) -> bs <> [] -> clean_crossing eps p1 p2 bs -> overlap p1 p2 ->
  exists r, polyline_boolean mk p1 p2 op idx eps = Ret r /\ counted p1 p2 op r.
Proof.
  intros Mk Ix Lb Vl1 Vl2 He C1 C2 P1 P2 F Nb Cl Ov. pose proof (clear_ok _ _ C1) as ok1. pose proof (clear_ok _ _ C2) as ok2.
  destruct (loop_simple p1 ok1 Vl1 P1) as (o1 & S1 & _). destruct (loop_simple p2 ok2 Vl2 P2) as (o2 & S2 & No2 & _).
  destruct (region_kinds mk p1 p2 op idx eps boxes bs o1 o2 Mk Ix Lb Vl1 Vl2 He C1 C2 S1 S2 F Nb Cl P1 P2) as (loops & E & KD).
  exists (sorted_out op o2 (concat loops)). split; [exact E|]. clear E. pose proof (once_sign' o2) as HS.
  destruct (classic (op = BOr)) as [-> |NO].
  - cbn [wanted] in KD. inversion KD as [|w ls ws lls (_ & Good & (FF & HF) & Sum) KD']; subst. inversion KD'; subst. cbn [concat]. rewrite app_nil_r.
    destruct Ov as ((z & Z1 & Z2 & I1 & I2) & _).
    assert (SM : forall y, ~ on_path p1 y -> ~ on_path p2 y -> zsum (map (fun l => wn (brp_pline l) y) ls) = if inside p1 y || inside p2 y then once o2 else 0%Z).
    { intros y O1 O2. rewrite (Sum y O1 O2). unfold expected. rewrite !inside_wn. destruct (wn p1 y =? 0)%Z, (wn p2 y =? 0)%Z; reflexivity. }
    pose proof (union_values p1 p2 ok1 ok2 Vl1 Vl2 P1 P2 ls (once o2) FF z HS Good SM HF Z1 Z2 I1 I2) as UV.
    pose proof (union_level p1 p2 ok1 ok2 Vl1 Vl2 P1 P2 ls (once o2) FF z HS Good SM HF Z1 Z2 I1 I2) as UL.
    pose proof (union_turn p1 p2 ok1 ok2 Vl1 Vl2 P1 P2 ls (once o2) FF z HS Good SM HF Z1 Z2 I1 I2) as UT.
    pose proof (sorted_perm BOr o2 ls) as PM. set (r := sorted_out BOr o2 ls) in *.
    assert (Val : forall l x, In l ls -> ~ on_path (brp_pline l) x -> wn (brp_pline l) x = 0%Z \/ wn (brp_pline l) x = if Z.eqb (wn (brp_pline l) z) 0 then (- once o2)%Z else once o2).
    { intros l x Il O. destruct (UL l Il) as [Q|Q], (UV l x Il O) as [U|U]; rewrite U, Q; destruct HS as [->| ->]; cbn; auto. }
    split.
    + intros l Il. apply (Permutation_in _ PM) in Il. destruct (Good l Il) as (G1 & G2 & G3 & G4). split; [split; assumption|]. split; [intros q Q; apply (G4 q Q)|].
      destruct (UT l Il) as (o & Eo & No & Ho). exists o. split; [|exact No]. split; [exact Eo|]. intros x k O W. rewrite winding_wn in W. injection W as <-. rewrite Ho. now apply Val.
    + intros x X1 X2.
      assert (OX : forall l, In l ls -> ~ on_path (brp_pline l) x).
      { intros l Il On. destruct (Good l Il) as (_ & _ & _ & A4). destruct (A4 x On) as ([N|N] & _); contradiction. }
      assert (Pos : forall l, In l (br_pos r) -> around x l = (once o2 * wn (brp_pline l) x)%Z).
      { intros l Il. assert (Ir : In l ls) by (apply (Permutation_in _ PM), in_or_app; now left). apply around_wn; [exact HS|].
        destruct (UT l Ir) as (o & Eo & No & Ho). destruct (Z.eqb_spec (wn (brp_pline l) z) 0) as [Q|Q].
        - exfalso. unfold r in Il. cbn [br_pos sorted_out] in Il. apply filter_In in Il as (_ & Hl). rewrite Eo in Hl.
          destruct o, o2; cbn in *; try discriminate; try congruence; lia.
        - destruct (Val l x Ir (OX l Ir)) as [U|U]; [auto|]. rewrite (proj2 (Z.eqb_neq _ _) Q) in U. auto. }
      assert (Neg : forall l, In l (br_neg r) -> around x l = (- once o2 * wn (brp_pline l) x)%Z).
      { intros l Il. assert (Ir : In l ls) by (apply (Permutation_in _ PM), in_or_app; now right). apply around_wn; [destruct HS as [->| ->]; auto|].
        destruct (UT l Ir) as (o & Eo & No & Ho). destruct (Z.eqb_spec (wn (brp_pline l) z) 0) as [Q|Q].
        - destruct (Val l x Ir (OX l Ir)) as [U|U]; [auto|]. rewrite (proj2 (Z.eqb_eq _ _) Q) in U. auto.
        - exfalso. unfold r in Il. cbn [br_neg sorted_out] in Il. apply filter_In in Il as (_ & Hl). rewrite Eo in Hl.
          destruct o, o2; cbn in *; try discriminate; try congruence; lia. }
      rewrite covers_zsum, (zsum_times _ _ _ _ Pos), (zsum_times _ _ _ _ Neg).
      pose proof (SM x X1 X2) as Sx. rewrite <- (zsum_perm _ _ (Permutation_map (fun l => wn (brp_pline l) x) PM)), map_app, zsum_app in Sx.
      cbn [bool_op]. destruct (inside p1 x || inside p2 x); cbn [one]; destruct HS as [HS|HS]; rewrite HS in *; lia.
  - assert (BN : br_neg (sorted_out op o2 (concat loops)) = []).
    { destruct op; try contradiction; cbn [br_neg sorted_out]; clear; induction (concat loops) as [|l m IH]; auto. }
    assert (BP : br_pos (sorted_out op o2 (concat loops)) = concat loops).
    { destruct op; try contradiction; cbn [br_pos sorted_out negb]; clear; induction (concat loops) as [|l m IH]; cbn [filter]; [reflexivity|f_equal; exact IH| |f_equal; exact IH| |f_equal; exact IH]; reflexivity. }
    set (r := sorted_out op o2 (concat loops)) in *.
    assert (K : Forall2 (fun w ls => In w (wanted op) /\ (forall l, In l ls -> good_loop p1 p2 w l /\ exists o, simple_loop (brp_pline l) o /\ o <> Open)
       /\ forall x, ~ on_path p1 x -> ~ on_path p2 x -> zsum (map (around x) ls) = one (inner p1 p2 w x)) (wanted op) loops).
    { eapply forall2_weaken; [|exact KD]. intros w ls (Iw & Good & (FF & HF) & Sum). split; [exact Iw|].
      set (v := match op, fst w with BAnd, _ => once o2 | _, false => (- once o2)%Z | _, true => once o2 end).
      assert (Hv : v = 1%Z \/ v = (-1)%Z) by (unfold v; destruct op, (fst w), HS as [->| ->]; auto).
      assert (SM : forall y, ~ on_path p1 y -> ~ on_path p2 y -> zsum (map (fun l => wn (brp_pline l) y) ls) = if inner p1 p2 w y then v else 0%Z).
      { intros y O1 O2. rewrite (Sum y O1 O2). unfold expected, inner, v. rewrite !inside_wn.
        destruct op; try contradiction; cbn [wanted] in Iw; [destruct Iw as [<-|[]]|destruct Iw as [<-|[]]|destruct Iw as [<-|[<-|[]]]]; cbn [fst snd];
        destruct (wn p1 y =? 0)%Z, (wn p2 y =? 0)%Z; reflexivity. }
      pose proof (kind_simple p1 p2 op w ls v FF ok1 ok2 Vl1 Vl2 P1 P2 Ov Iw NO Good HF Hv SM) as KS.
      split; [intros l Il; split; [now apply Good|]; destruct (KS l Il) as (o & H1 & H2 & _); eauto|].
      intros x X1 X2.
      rewrite (zsum_times (around x) (fun l => wn (brp_pline l) x) v).
      - rewrite (SM x X1 X2). destruct (inner p1 p2 w x); cbn [one]; [destruct Hv as [->| ->]; reflexivity|lia].
      - intros l Il. destruct (KS l Il) as (o & (_ & H1) & _ & H2). apply around_wn; [exact Hv|]. rewrite <- H2. apply (H1 x); [|apply winding_wn].
        intros On. destruct (Good l Il) as (_ & _ & _ & A4). destruct (A4 x On) as ([N|N] & _); contradiction. }
    split.
    + rewrite BN, app_nil_r, BP. intros l Il. apply in_concat in Il as (ls & Il & Ill). destruct (ProofRegion5.forall2_right _ _ _ _ K Il) as (w & Iw & (_ & G & _)).
      destruct (G l Ill) as ((G1 & G2 & G3 & G4) & O). split; [split; assumption|]. split; [intros q Q; apply (G4 q Q)|exact O].
    + intros x X1 X2. rewrite covers_zsum, BN, BP. rewrite (kinds_sum (around x) _ (fun w => one (inner p1 p2 w x)) _ _ K) by (intros w ls (_ & _ & H); now apply H).
      unfold inner. destruct op; try contradiction; cbn [wanted map fst snd bool_op]; unfold zsum; cbn [fold_right map]; destruct (inside p1 x), (inside p2 x); reflexivity.
Qed.

(** ** Loops that do not meet *)
Theorem apart_counted mk (p1 p2 : pline R) op idx eps boxes :
  index_of boxes idx -> length boxes = length (spec_segs (vtx p1) (is_closed p1)) ->
  valid_loop p1 -> valid_loop p2 -> pline_ok p1 -> pline_ok p2 -> passes_once p1 -> passes_once p2 -> (forall q, ~ (on_path p1 q /\ on_path p2 q)) ->
  find_intersects p1 p2 idx eps = Ret ([], []) ->
  exists r, polyline_boolean mk p1 p2 op idx eps = Ret r /\ counted p1 p2 op r.
Proof.
  intros IO BL Vl1 Vl2 O1 O2 P1 P2 Ap EF.
  destruct (loop_simple p1 O1 Vl1 P1) as (o1 & S1 & N1 & _). destruct (loop_simple p2 O2 Vl2 P2) as (o2 & S2 & N2 & _).
  destruct (boolean_whole mk p1 p2 op idx eps boxes IO BL Vl1 Vl2) as (bs & os & sl & a & b & w12 & w21 & EF' & EJ & E1 & E2 & W12 & W21 & H).
  rewrite EF in EF'. injection EF' as <- <-. cbn in EJ. injection EJ as <-. cbv zeta in H. destruct H as (_ & H). specialize (H eq_refl eq_refl).
  rewrite winding_wn in W12, W21. injection W12 as <-. injection W21 as <-.
  pose proof (relation_right p1 p2 a b O1 O2 Vl1 Vl2 Ap E1 E2) as RL. set (info := relation _ _) in *.
  destruct (whole_loops op info p1 p2) as (ps, ns) eqn:EW. eexists. split; [exact H|]. split.
  - cbn [br_pos br_neg]. rewrite <- map_app. intros l I. apply in_map_iff in I. destruct I as (q & <- & I). cbn [brp_pline].
    assert (G : In q (fst (whole_loops op info p1 p2) ++ snd (whole_loops op info p1 p2))) by (rewrite EW; exact I).
    assert (Q : q = p1 \/ q = p2) by (clear - G; destruct op, info; cbn in G; intuition).
    destruct Q as [->| ->]; (split; [split; assumption|]); (split; [auto|]); eauto.
  - intros x X1 X2. rewrite covers_zsum. cbn [br_pos br_neg]. rewrite !map_map. cbn [brp_pline]. unfold around. cbn [brp_pline].
    assert (RX : match info with
      | Pline1InsidePline2 => inside p1 x = true -> inside p2 x = true
      | Pline2InsidePline1 => inside p2 x = true -> inside p1 x = true
      | Disjoint => ~ (inside p1 x = true /\ inside p2 x = true)
      | Overlapping => inside p1 x = true <-> inside p2 x = true
      | _ => False end).
    { clear - RL X1 X2. destruct info; cbn [related] in RL; try exact RL; specialize (RL x); tauto. }
    replace ps with (fst (whole_loops op info p1 p2)) by now rewrite EW. replace ns with (snd (whole_loops op info p1 p2)) by now rewrite EW.
    clear - RX. destruct op, info; try contradiction; cbn [whole_loops fst snd map bool_op]; unfold zsum; cbn [fold_right map];
    destruct (inside p1 x), (inside p2 x); cbn; try reflexivity; intuition discriminate.
Qed.

Theorem loops_counted mk (p1 p2 : pline R) eps op idx boxes : 0 < eps -> clear_loops eps p1 p2 -> makes_index mk ->
  index_of boxes idx -> boxes = map (fun s => seg_fast_approx_bounding_box (fst s) (snd s)) (spec_segs (vtx p1) (is_closed p1)) ->
  valid_loop p1 -> valid_loop p2 -> passes_once p1 -> passes_once p2 ->
  exists r, polyline_boolean mk p1 p2 op idx eps = Ret r /\ counted p1 p2 op r.
Proof.
  intros epos clear MK IO EB Vl1 Vl2 P1 P2. assert (BL : length boxes = length (spec_segs (vtx p1) (is_closed p1))) by (rewrite EB; apply map_length).
  pose proof clear as (C1 & C2 & K1 & K2 & _).
  destruct (loops_found p1 p2 eps epos clear boxes idx IO EB) as (bs & EF & _ & HB).
  destruct bs as [|b0 bs].
  - assert (AP : forall q, ~ (on_path p1 q /\ on_path p2 q)).
    { intros q (Q1 & Q2). destruct (common_index p1 p2 q Q1 Q2) as (i & j & C). apply HB in C. destruct C. }
    exact (apart_counted mk p1 p2 op idx eps boxes IO BL Vl1 Vl2 (clear_ok _ _ K1) (clear_ok _ _ K2) P1 P2 AP EF).
  - destruct (common_path p1 p2 b0) as (Q1 & Q2); [apply HB; now left|].
    apply (cross_counted mk p1 p2 op idx eps boxes (b0 :: bs)); auto; [discriminate|now apply loops_clean|exact (loops_overlap eps p1 p2 (bi_point b0) epos clear Vl1 Vl2 P1 P2 Q1 Q2)].
Qed.

Theorem loops_cover mk (p1 p2 : pline R) eps op idx boxes : 0 < eps -> clear_loops eps p1 p2 -> makes_index mk ->
  index_of boxes idx -> boxes = map (fun s => seg_fast_approx_bounding_box (fst s) (snd s)) (spec_segs (vtx p1) (is_closed p1)) ->
  valid_loop p1 -> valid_loop p2 -> passes_once p1 -> passes_once p2 ->
  exists r, polyline_boolean mk p1 p2 op idx eps = Ret r
  /\ (forall l, In l (br_pos r ++ br_neg r) -> exists o, simple_loop (brp_pline l) o /\ o <> Open)
  /\ forall x, ~ on_path p1 x -> ~ on_path p2 x ->
     (operation op (inside p1 x = true) (inside p2 x = true) -> covers r x = 1%Z)
     /\ (~ operation op (inside p1 x = true) (inside p2 x = true) -> covers r x = 0%Z).
Proof.
  intros epos clear MK IO EB Vl1 Vl2 P1 P2. destruct (loops_counted mk p1 p2 eps op idx boxes epos clear MK IO EB Vl1 Vl2 P1 P2) as (r & E & L & C).
  exists r. split; [exact E|]. split; [intros l I; apply (L l I)|]. intros x X1 X2. rewrite (C x X1 X2), <- bool_op_iff.
  destruct (bool_op op (inside p1 x) (inside p2 x)); cbn; split; intros H; auto; [contradiction (H eq_refl)|discriminate].
Qed.

(** ** Areas *)
Definition turn (p : pline R) : Z := match orientation p with Ret o => once o | Panic _ => 1%Z end.
Definition combo_of (r : boolean_result R) : combo :=
  map (fun l => (turn (brp_pline l), brp_pline l)) (br_pos r) ++ map (fun l => ((- turn (brp_pline l))%Z, brp_pline l)) (br_neg r).

Lemma combo_of_ok p1 p2 op r e : counted p1 p2 op r -> In e (combo_of r) -> loop_ok (snd e) /\ forall q, on_path (snd e) q -> on_path p1 q \/ on_path p2 q.
Proof.
  intros (L & _) I. unfold combo_of in I. rewrite in_app_iff, !in_map_iff in I.
  destruct I as [(l & <- & I)|(l & <- & I)]; cbn [snd]; destruct (L l) as (A & B & _); auto; apply in_or_app; auto.
Qed.

Lemma turn_wn p x o : simple_loop p o -> ~ on_path p x -> (turn p * wn p x)%Z = one (inside p x).
Proof.
  intros (Eo & V) O. unfold turn. rewrite Eo, inside_wn. destruct (V x (wn p x) O (winding_wn p x)) as [E|E]; rewrite E; [cbn; lia|].
  destruct (once_sign' o) as [->| ->]; reflexivity.
Qed.

Lemma combo_of_wn p1 p2 op r x : counted p1 p2 op r -> ~ on_path p1 x -> ~ on_path p2 x -> combo_wn (combo_of r) x = one (bool_op op (inside p1 x) (inside p2 x)).
Proof.
  intros (L & C) X1 X2. rewrite <- (C x X1 X2), covers_zsum. unfold combo_of. rewrite combo_wn_app. unfold combo_wn. rewrite !map_map. cbn [fst snd].
  assert (O : forall l, In l (br_pos r ++ br_neg r) -> (turn (brp_pline l) * wn (brp_pline l) x)%Z = around x l).
  { intros l I. destruct (L l I) as (_ & On & o & S & _). apply (turn_wn _ _ o S). intros N. destruct (On x N); contradiction. }
  rewrite (zsum_times (fun l => (turn (brp_pline l) * wn (brp_pline l) x)%Z) (around x) 1) by (intros l I; rewrite O by (apply in_or_app; auto); lia).
  rewrite (zsum_times (fun l => (- turn (brp_pline l) * wn (brp_pline l) x)%Z) (around x) (-1)) by (intros l I; rewrite <- O by (apply in_or_app; auto); lia). lia.
Qed.

Lemma turn_area p o A : valid_loop p -> simple_loop p o -> area p = Ret A -> IZR (turn p) * the_area p = Rabs A.
Proof.
  intros (_ & C) (Eo & _) EA. unfold turn, the_area. rewrite EA, Eo. unfold orientation in Eo. rewrite C, EA in Eo. cbn in Eo.
  destruct (rltb A 0) eqn:E; injection Eo as <-; cbn [once].
  - apply rltb_true in E. rewrite Rabs_left by lra. lra.
  - apply rltb_false in E. rewrite Rabs_right by lra. lra.
Qed.

Lemma net_area_combo p1 p2 op r m : counted p1 p2 op r -> net_area r m <-> m = combo_area (combo_of r).
Proof.
  intros (L & _).
  assert (G : forall ls, (forall l, In l ls -> In l (br_pos r ++ br_neg r)) -> exists ms, Forall2 (fun l a => area (brp_pline l) = Ret a) ls ms
    /\ fold_right Rplus 0 (map Rabs ms) = rsum (map (fun l => IZR (turn (brp_pline l)) * the_area (brp_pline l)) ls)).
  { induction ls as [|l ls IH]; intros H; [exists []; split; [constructor|reflexivity]|]. destruct IH as (ms & F & S); [intros; apply H; now right|].
    destruct (L l (H l (or_introl eq_refl))) as ((Vl & Ok) & _ & o & So & _). destruct (area_is_integral (brp_pline l) (proj2 Vl) Ok) as (I & _ & EA).
    exists (I / 2 :: ms). split; [now constructor|]. cbn [map fold_right rsum]. rewrite S, <- (turn_area _ o _ Vl So EA). reflexivity. }
  assert (U : forall (ls : list (boolean_result_pline R)) (ms ms' : list R), Forall2 (fun l a => area (brp_pline l) = Ret a) ls ms -> Forall2 (fun l a => area (brp_pline l) = Ret a) ls ms' -> ms = ms').
  { induction ls as [|l ls IH]; intros ms ms' F F'; inversion F; inversion F'; subst; [reflexivity|]. f_equal; [congruence|now apply IH]. }
  destruct (G (br_pos r)) as (ps & Fp & Sp); [intros; apply in_or_app; auto|]. destruct (G (br_neg r)) as (ns & Fn & Sn); [intros; apply in_or_app; auto|].
  assert (EC : combo_area (combo_of r) = fold_right Rplus 0 (map Rabs ps) - fold_right Rplus 0 (map Rabs ns)).
  { unfold combo_of. rewrite combo_area_app, Sp, Sn. unfold combo_area. rewrite !map_map. cbn [fst snd].
    assert (Q : forall ls, rsum (map (fun l => IZR (- turn (brp_pline l)) * the_area (brp_pline l)) ls) = - rsum (map (fun l => IZR (turn (brp_pline l)) * the_area (brp_pline l)) ls)).
    { induction ls as [|l ls IH]; cbn [map rsum fold_right]; [lra|]. unfold rsum in IH. rewrite IH, opp_IZR. unfold rsum. lra. }
    rewrite Q. lra. }
  split.
  - intros (ps' & ns' & Fp' & Fn' & ->). rewrite EC, (U _ _ _ Fp Fp'), (U _ _ _ Fn Fn'). reflexivity.
  - intros ->. exists ps, ns. auto.
Qed.

(** ** Loops with weights *)
Lemma weighed_wn F x w : weighed_winding F x w <-> w = combo_wn F x.
Proof.
  unfold weighed_winding, combo_wn. split.
  - intros (ws & H & ->). induction H as [|e k F ws E H IH]; [reflexivity|]. cbn [combine map fold_right fst snd]. unfold zsum in *. cbn [map fold_right].
    rewrite winding_wn in E. injection E as <-. now rewrite IH.
  - intros ->. exists (map (fun e => wn (snd e) x) F). induction F as [|e F (H & IH)]; [split; [constructor|reflexivity]|]. split; [constructor; [apply winding_wn|exact H]|].
    unfold zsum in *. cbn [map combine fold_right fst snd]. now rewrite IH.
Qed.

Lemma weighed_combo F a : weighed_area F a -> a = combo_area F.
Proof.
  intros (ms & H & ->). unfold combo_area. induction H as [|e m F ms E H IH]; [reflexivity|]. cbn [combine map fold_right fst snd rsum]. unfold rsum in IH. rewrite IH. unfold the_area, rsum. rewrite E. reflexivity.
Qed.

Theorem weighed_le (F G : list (Z * pline R)) a b : (forall e, In e (F ++ G) -> valid_loop (snd e) /\ pline_ok (snd e)) ->
  (forall x v w, (forall e, In e (F ++ G) -> ~ on_path (snd e) x) -> weighed_winding F x v -> weighed_winding G x w -> (v <= w)%Z) ->
  weighed_area F a -> weighed_area G b -> a <= b.
Proof.
  intros Ok H Ha Hb. rewrite (weighed_combo F a Ha), (weighed_combo G b Hb). apply combo_le; [exact Ok|].
  intros x O. apply (H x); [exact O|now apply weighed_wn|now apply weighed_wn].
Qed.

(** ** The areas of the four operations *)
Section Adds.
Variables p1 p2 : pline R.
Hypothesis k1 : loop_ok p1.
Hypothesis k2 : loop_ok p2.


Definition along (F : combo) : Prop := forall e, In e F -> loop_ok (snd e) /\ forall q, on_path (snd e) q -> on_path p1 q \/ on_path p2 q.

Lemma along_app F G : along F -> along G -> along (F ++ G).
Proof. intros HF HG e I. apply in_app_or in I as [I|I]; auto. Qed.
Lemma along_times k F : along F -> along (times_combo k F).
Proof. intros HF e I. destruct (times_combo_in k F e I) as (e' & I' & ->). auto. Qed.

Lemma along_le F G : along F -> along G -> (forall x, ~ on_path p1 x -> ~ on_path p2 x -> (combo_wn F x <= combo_wn G x)%Z) -> combo_area F <= combo_area G.
Proof.
  intros HF HG H. replace (combo_area G) with (combo_area ((0%Z, p1) :: (0%Z, p2) :: G)) by (unfold combo_area; cbn [map fst snd rsum fold_right]; unfold rsum; ring).
  apply combo_le.
  - intros e I. apply in_app_or in I as [I|[<-|[<-|I]]]; [apply (HF e I)|exact k1|exact k2|apply (HG e I)].
  - intros x O. replace (combo_wn ((0%Z, p1) :: (0%Z, p2) :: G) x) with (combo_wn G x) by reflexivity.
    apply H; [apply (O (0%Z, p1))|apply (O (0%Z, p2))]; apply in_or_app; cbn; auto.
Qed.

Lemma along_eq F G : along F -> along G -> (forall x, ~ on_path p1 x -> ~ on_path p2 x -> combo_wn F x = combo_wn G x) -> combo_area F = combo_area G.
Proof. intros HF HG H. apply Rle_antisym; apply along_le; auto; intros x X1 X2; rewrite H by auto; lia. Qed.

Lemma along_of op r : counted p1 p2 op r -> along (combo_of r).
Proof. intros C e I. exact (combo_of_ok p1 p2 op r e C I). Qed.

Definition combo_one (p : pline R) : combo := [(turn p, p)].
Lemma combo_one_area p o A : valid_loop p -> simple_loop p o -> area p = Ret A -> combo_area (combo_one p) = Rabs A.
Proof. intros Vl S E. unfold combo_area, combo_one. cbn [map fst snd rsum fold_right]. rewrite (turn_area p o A Vl S E). ring. Qed.
Lemma combo_one_wn p o x : simple_loop p o -> ~ on_path p x -> combo_wn (combo_one p) x = one (inside p x).
Proof. intros S O. unfold combo_wn, combo_one. cbn [map fst snd]. unfold zsum. cbn [fold_right]. rewrite (turn_wn p x o S O). lia. Qed.

Theorem areas_add o1 o2 A1 A2 ror rand rnot rxor mor mand mnot mxor : simple_loop p1 o1 -> simple_loop p2 o2 -> area p1 = Ret A1 -> area p2 = Ret A2 ->
  counted p1 p2 BOr ror -> counted p1 p2 BAnd rand -> counted p1 p2 BNot rnot -> counted p1 p2 BXor rxor ->
  net_area ror mor -> net_area rand mand -> net_area rnot mnot -> net_area rxor mxor ->
  mor + mand = Rabs A1 + Rabs A2 /\ mnot + mand = Rabs A1 /\ mxor + mand = mor /\ 0 <= mand <= Rmin (Rabs A1) (Rabs A2).
Proof.
  intros S1 S2 E1 E2 Co Ca Cn Cx. rewrite (net_area_combo _ _ _ _ _ Co), (net_area_combo _ _ _ _ _ Ca), (net_area_combo _ _ _ _ _ Cn), (net_area_combo _ _ _ _ _ Cx).
  intros -> -> -> ->. rewrite <- (combo_one_area p1 o1 A1 (proj1 k1) S1 E1), <- (combo_one_area p2 o2 A2 (proj1 k2) S2 E2), <- !combo_area_app.
  pose proof (along_of _ _ Co) as Lo. pose proof (along_of _ _ Ca) as La. pose proof (along_of _ _ Cn) as Ln. pose proof (along_of _ _ Cx) as Lx.
  assert (L1 : along (combo_one p1)) by (intros e [<-|[]]; cbn; auto). assert (L2 : along (combo_one p2)) by (intros e [<-|[]]; cbn; auto).
  assert (L0 : along []) by (intros e []).
  assert (W : forall x, ~ on_path p1 x -> ~ on_path p2 x -> combo_wn (combo_one p1) x = one (inside p1 x) /\ combo_wn (combo_one p2) x = one (inside p2 x)
    /\ combo_wn (combo_of ror) x = one (inside p1 x || inside p2 x) /\ combo_wn (combo_of rand) x = one (inside p1 x && inside p2 x)
    /\ combo_wn (combo_of rnot) x = one (inside p1 x && negb (inside p2 x)) /\ combo_wn (combo_of rxor) x = one (xorb (inside p1 x) (inside p2 x))).
  { intros x X1 X2. rewrite (combo_one_wn p1 o1 x S1 X1), (combo_one_wn p2 o2 x S2 X2), (combo_of_wn _ _ _ _ x Co X1 X2), (combo_of_wn _ _ _ _ x Ca X1 X2), (combo_of_wn _ _ _ _ x Cn X1 X2), (combo_of_wn _ _ _ _ x Cx X1 X2). auto 10. }
  split; [|split; [|split]].
  - apply along_eq; auto using along_app. intros x X1 X2. destruct (W x X1 X2) as (W1 & W2 & W3 & W4 & W5 & W6). rewrite !combo_wn_app, W1, W2, W3, W4. destruct (inside p1 x), (inside p2 x); reflexivity.
  - apply along_eq; auto using along_app. intros x X1 X2. destruct (W x X1 X2) as (W1 & W2 & W3 & W4 & W5 & W6). rewrite !combo_wn_app, W1, W4, W5. destruct (inside p1 x), (inside p2 x); reflexivity.
  - apply along_eq; auto using along_app. intros x X1 X2. destruct (W x X1 X2) as (W1 & W2 & W3 & W4 & W5 & W6). rewrite !combo_wn_app, W3, W4, W6. destruct (inside p1 x), (inside p2 x); reflexivity.
  - split; [change 0 with (combo_area [])|apply Rmin_glb]; apply along_le; auto; intros x X1 X2; destruct (W x X1 X2) as (W1 & W2 & W3 & W4 & W5 & W6); rewrite ?W1, ?W2, W4;
      destruct (inside p1 x), (inside p2 x); cbn; lia.
Qed.
End Adds.

Theorem loops_areas mk (p1 p2 : pline R) eps idx boxes A1 A2 : 0 < eps -> clear_loops eps p1 p2 -> makes_index mk ->
  index_of boxes idx -> boxes = map (fun s => seg_fast_approx_bounding_box (fst s) (snd s)) (spec_segs (vtx p1) (is_closed p1)) ->
  valid_loop p1 -> valid_loop p2 -> passes_once p1 -> passes_once p2 -> area p1 = Ret A1 -> area p2 = Ret A2 ->
  exists m : boolean_op -> R, (forall op, exists r, polyline_boolean mk p1 p2 op idx eps = Ret r /\ net_area r (m op))
  /\ m BOr + m BAnd = Rabs A1 + Rabs A2 /\ m BNot + m BAnd = Rabs A1 /\ m BXor + m BAnd = m BOr /\ 0 <= m BAnd <= Rmin (Rabs A1) (Rabs A2).
Proof.
  intros epos clear MK IO EB Vl1 Vl2 P1 P2 E1 E2. pose proof clear as (C1 & C2 & K1 & K2 & _). pose proof (clear_ok _ _ K1) as ok1. pose proof (clear_ok _ _ K2) as ok2.
  pose proof (fun op => loops_counted mk p1 p2 eps op idx boxes epos clear MK IO EB Vl1 Vl2 P1 P2) as H.
  destruct (loop_simple p1 ok1 Vl1 P1) as (o1 & S1 & _). destruct (loop_simple p2 ok2 Vl2 P2) as (o2 & S2 & _).
  destruct (H BOr) as (ror & Eo & Co). destruct (H BAnd) as (rand & Ea & Ca). destruct (H BNot) as (rnot & En & Cn). destruct (H BXor) as (rxor & Ex & Cx).
  exists (fun op => combo_area (combo_of (match op with BOr => ror | BAnd => rand | BNot => rnot | BXor => rxor end))). split.
  - intros [| | |]; [exists ror|exists rand|exists rnot|exists rxor]; (split; [assumption|]); eapply net_area_combo; eauto.
  - apply (areas_add p1 p2 (conj Vl1 ok1) (conj Vl2 ok2) o1 o2 A1 A2 ror rand rnot rxor); auto; eapply net_area_combo; eauto.
Qed.
