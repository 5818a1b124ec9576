(** The loops traced by a boolean operation on two crossing loops pass no point twice and have no common points (C77). *)
From Coq Require Import Reals ZArith Bool List Arith Lra Lia Psatz Classical Permutation.
From Verif Require Import Num RNum Res ModelMath ModelSeg ModelPline ModelView ModelIntersects ModelBoolean.
From Verif Require Import Spec SpecPline SpecGeom SpecBox SpecWinding SpecView SpecPruneR SpecStitch SpecPrune SpecRegion SpecBoolean SpecJordan.
From Verif Require Import ProofR ProofBase ProofIter ProofView ProofArc ProofIntr ProofSlice ProofPruneR ProofWinding4 ProofWinding6 ProofWinding7 ProofRegion ProofRegion2 ProofRegion3 ProofRegion4 ProofRegion5 ProofHalf ProofRegion6 ProofRegion7 ProofRegion8 ProofRegion9 ProofRegion10 ProofPass1.
From Verif Require ProofPolyOff.
Import ListNotations.
Local Open Scope R_scope.

Lemma data_directed (A M : list seg) : map SpecPline.seg_data A = map (fun s => SpecPline.seg_reverse (SpecPline.seg_data s)) M -> Forall2 (directed true) A M.
Proof.
  revert M. induction A as [|s A IH]; intros [|w M] E; try discriminate; [constructor|]. cbn [map] in E.
  constructor; [exact (f_equal (hd (SpecPline.seg_data s)) E)|]. apply IH. exact (f_equal (@tl _) E).
Qed.

Lemma turned_directed (p1 p2 : pline R) (b : bool) s0 l :
  let p := slice_source p1 p2 s0 in let d := bs_view s0 in
  (vd_start_index d < vertex_count p)%nat -> (vd_end_index_offset d <= vertex_count p)%nat -> vd_inverted d = false ->
  (vd_end_index_offset d = 0%nat -> vd_updated_end_bulge d = pbulge (vd_updated_start d)) ->
  slice_path_is p1 p2 (turned b s0) l -> exists L, Permutation L (vsegs p d) /\ Forall2 (directed b) (pairs l) L.
Proof.
  intros p d H1 H2 HI HE HP.
  destruct (view_forward_spec d p H1 H2 HI) as (_ & EV & EL).
  assert (VS : vsegs p d = pairs (fwd_list d p)) by (unfold vsegs; rewrite EV; apply spec_segs_pairs).
  destruct b.
  - unfold slice_path_is in HP. unfold turned in HP. cbn [bs_view vd_inverted orb] in HP.
    cbn [vd_start_index vd_end_index_offset vd_updated_start vd_updated_end_bulge vd_end_point bs_source_is_pline1] in HP.
    fold d in HP. change (slice_source p1 p2 {| bs_view := _; bs_source_is_pline1 := bs_source_is_pline1 s0; bs_overlapping := bs_overlapping s0 |}) with p in HP.
    fold (fwd_list d p) in HP. destruct HP as (LL & HS & HN).
    assert (HS' : map SpecPline.seg_data (pairs l) = rev (map (fun s => SpecPline.seg_reverse (SpecPline.seg_data s)) (pairs (fwd_list d p)))).
    { rewrite !spec_segs_pairs in HS. apply HS. destruct (Nat.eq_dec (vd_end_index_offset d) 0); [right; auto|now left]. }
    rewrite <- map_rev in HS'. rewrite <- VS in HS'. exists (rev (vsegs p d)). split; [apply Permutation_sym, Permutation_rev|].
    exact (data_directed _ _ HS').
  - rewrite turned_false in HP. unfold slice_path_is in HP. fold d in HP. rewrite HI in HP. fold p in HP. fold (fwd_list d p) in HP. subst l.
    exists (vsegs p d). split; [apply Permutation_refl|]. rewrite VS. generalize (pairs (fwd_list d p)). intros A. induction A as [|s A IH]; constructor; [reflexivity|exact IH].
Qed.

Section Crossing.
Variables (p1 p2 : pline R) (eps : R) (bs : list (basic_intr R)) (op : boolean_op) (o1 o2 : orientation_t).
Variables (cs1 cs2 : list (boolean_slice R * vec2 R)) (w : bool * bool) (loops : list (boolean_result_pline R)).
Hypothesis epos : 0 < eps.
Hypothesis C1 : cut_up p1 p2 false eps bs cs1.
Hypothesis C2 : cut_up p1 p2 true eps bs cs2.
Hypothesis ok1 : pline_ok p1.
Hypothesis ok2 : pline_ok p2.
Hypothesis cl1 : is_closed p1 = true.
Hypothesis cl2 : is_closed p2 = true.
Hypothesis simple1 : simple_loop p1 o1.
Hypothesis simple2 : simple_loop p2 o2.
Hypothesis apart : spread eps bs.
Hypothesis wants : In w (wanted op).
Hypothesis trace : traced p1 p2 op o1 o2 eps cs1 cs2 [] w loops.
Hypothesis PO1 : passes_once p1.
Hypothesis PO2 : passes_once p2.
Hypothesis SW1 : forall q b e, on_path p1 q -> on_path p2 q -> 0 < e -> ~ (forall x, dist q x < e -> on_path p1 x -> x <> q -> ~ on_path p2 x -> inside p2 x = b).
Hypothesis SW2 : forall q b e, on_path p1 q -> on_path p2 q -> 0 < e -> ~ (forall x, dist q x < e -> on_path p2 x -> x <> q -> ~ on_path p1 x -> inside p1 x = b).

Let back := backward op o1 o2.
Let F1 := filter (fun c => Bool.eqb (inside p2 (snd c)) (fst w)) cs1.
Let F2 := filter (fun c => Bool.eqb (inside p1 (snd c)) (snd w)) cs2.
Let slices := ps_slices (boundary back (map fst F1) (map fst F2) []).

Lemma loops_pass q : exists g : seg -> Z, (forall s, (0 <= g s)%Z)
  /\ (forall r s, In r loops -> In s (spec_segs (vtx (brp_pline r)) true) -> half true s q -> g s = 1%Z)
  /\ (zsum (map (fun r => zsum (map g (spec_segs (vtx (brp_pline r)) true))) loops) <= 1)%Z.
Proof.
  set (all1 := flat_map (fun c => vsegs p1 (bs_view (fst c))) cs1). set (all2 := flat_map (fun c => vsegs p2 (bs_view (fst c))) cs2).
  set (l0 := (all1 ++ spec_segs (vtx p1) (is_closed p1)) ++ (all2 ++ spec_segs (vtx p2) (is_closed p2))).
  destruct (half_counter l0 true q) as (gi & Gi0 & GiD & GiS). destruct (half_counter l0 false q) as (go & Go0 & GoD & GoS).
  assert (DR : forall e, directed false e e) by (intros e; reflexivity).
  assert (GiL : forall e, In e l0 -> (half true e q -> gi e = 1%Z) /\ (~ half true e q -> gi e = 0%Z)) by (intros e I; apply (GiS false e e I (DR e))).
  assert (GoL : forall e, In e l0 -> (half false e q -> go e = 1%Z) /\ (~ half false e q -> go e = 0%Z)) by (intros e I; apply (GoS false e e I (DR e))).
  assert (I1 : forall c e, In c cs1 -> In e (vsegs p1 (bs_view (fst c))) -> In e all1) by (intros c e Ic Iw; apply in_flat_map; eauto).
  assert (I2 : forall c e, In c cs2 -> In e (vsegs p2 (bs_view (fst c))) -> In e all2) by (intros c e Ic Iw; apply in_flat_map; eauto).
  assert (L1 : forall e, In e all1 \/ In e (spec_segs (vtx p1) (is_closed p1)) -> In e l0) by (intros e I; apply in_or_app; left; now apply in_or_app).
  assert (L2 : forall e, In e all2 \/ In e (spec_segs (vtx p2) (is_closed p2)) -> In e l0) by (intros e I; apply in_or_app; right; now apply in_or_app).
  set (G := fun s : boolean_slice R => zsum (map (if vd_inverted (bs_view s) then go else gi) (vsegs (slice_source p1 p2 s) (straight (bs_view s))))).
  set (Q := fun s : seg => half true s q -> gi s = 1%Z).
  assert (QD : forall s s' : seg, SpecPline.seg_data s = SpecPline.seg_data s' -> Q s -> Q s').
  { intros s s' E H On. rewrite <- (GiD s s' E). apply H. apply (directed_half false true s s' q E). exact On. }
  assert (GT : forall (second : bool) b c, In c (if second then cs2 else cs1) -> G (turned b (fst c)) = zsum (map (if b then go else gi) (vsegs (if second then p2 else p1) (bs_view (fst c))))).
  { intros second b c I. destruct (slice_view p1 p2 eps bs cs1 cs2 C1 C2 second c I) as (E & _ & _ & H & _). unfold G. rewrite straight_turned by exact H.
    replace (slice_source p1 p2 (turned b (fst c))) with (slice_source p1 p2 (fst c)) by reflexivity. rewrite E.
    unfold turned. cbn [bs_view vd_inverted]. rewrite H, orb_false_r. reflexivity. }
  destruct (ProofRegion10.far_off p1 p2 ok1 ok2) as (x & N1 & N2).
  assert (PATH : forall i s l, nth_error slices i = Some s -> slice_path_is p1 p2 s l ->
    exists a m z, l = a :: m ++ [z] /\ pos a = slice_begin s /\ pos z = slice_end s
    /\ (forall pr, In pr (pairs l) -> close_by eps (fst pr) (snd pr) = false /\ Q pr) /\ zsum (map gi (pairs l)) = G s).
  { intros i s l I Hl. destruct (slices_path p1 p2 eps bs op o1 o2 cs1 cs2 w epos C1 C2 ok1 ok2 x N1 N2 i s l I Hl) as (a & m & z & E1 & E2 & E3 & E4 & _).
    exists a, m, z. split; [exact E1|]. split; [exact E2|]. split; [exact E3|].
    apply nth_error_In in I. apply slices_In in I as (second & c & I & -> & _). destruct (slice_view p1 p2 eps bs cs1 cs2 C1 C2 second c I) as (E & H1 & H2 & H3 & H4).
    set (b := if second then false else backward op o1 o2) in *.
    destruct (turned_directed p1 p2 b (fst c) l) as (L & PM & F2'); try (rewrite E; assumption); try assumption. rewrite E in PM.
    assert (IL : forall e, In e L -> In e l0).
    { intros e Iw. apply (Permutation_in _ PM) in Iw. destruct second; [apply L2; left; now apply (I2 c)|apply L1; left; now apply (I1 c)]. }
    split.
    - intros pr Ip. split; [now apply E4|]. destruct (forall2_left _ _ _ _ F2' Ip) as (w' & Iw & SW). intros On. now apply (GiS b pr w' (IL w' Iw) SW).
    - rewrite (GT second) by exact I. rewrite <- (zsum_perm _ _ (Permutation_map _ PM)).
      clear - F2' IL GiS GiL GoL. revert IL. induction F2' as [|s w' A B' SW F2' IH]; intros IL; [reflexivity|]. unfold zsum in *. cbn [map fold_right]. rewrite IH by (intros; apply IL; now right). f_equal.
      specialize (IL w' (or_introl eq_refl)). destruct (GiS b s w' IL SW) as (X1 & X0). pose proof (directed_half b true s w' q SW) as DH.
      destruct (GiL w' IL) as (Y1 & Y0). destruct (GoL w' IL) as (Z1 & Z0).
      destruct (classic (half true s q)) as [O|O]; [rewrite (X1 O)|rewrite (X0 O)]; destruct b; cbn [negb] in DH; symmetry; first [apply Z1|apply Y1|apply Z0|apply Y0]; tauto. }
  destruct trace as (select & chains & _ & PF & ST & PM). fold back in PF, ST, PM. fold F1 F2 in PF, ST, PM. fold slices in ST, PM.
  pose proof (slices_balanced p1 p2 eps bs op o1 o2 cs1 cs2 w loops C1 C2 ok1 ok2 cl1 cl2 simple1 simple2 wants trace) as BAL. fold back F1 F2 slices in BAL.
  destruct (stitching_ok (slice_path_is p1 p2) slices select eps gi G Q epos GiD QD PATH
    (fun s s' I I' => proj1 (slices_apart p1 p2 eps bs op o1 o2 cs1 cs2 w epos C1 C2 apart s s' I I'))
    (fun s s' I I' => proj2 (slices_apart p1 p2 eps bs op o1 o2 cs1 cs2 w epos C1 C2 apart s s' I I')) BAL
    (slices_select p1 p2 eps op o1 o2 cs1 cs2 w loops cl1 cl2 wants trace select PF) chains loops ST)
    as (_ & _ & _ & SUM & OK).
  exists gi. split; [exact Gi0|]. split.
  { intros r s Ir Is. rewrite Forall_forall in OK. destruct (OK r Ir) as (_ & _ & HQ). exact (HQ s Is). }
  rewrite SUM, (sumi_perm slices G _ _ PM), (sumi_all slices G).
  pose proof (slices_add p1 p2 op o1 o2 cs1 cs2 w) as SA. fold back F1 F2 slices in SA. rewrite SA.
  set (hi := fun (p : pline R) (c : boolean_slice R * vec2 R) => zsum (map gi (vsegs p (bs_view (fst c))))).
  set (ho := fun (p : pline R) (c : boolean_slice R * vec2 R) => zsum (map go (vsegs p (bs_view (fst c))))).
  assert (E1 : zsum (map (fun c => G (turned back (fst c))) F1) = zsum (map (if back then ho p1 else hi p1) F1)).
  { f_equal. apply map_ext_in. intros c I. apply filter_In in I as (I & _). rewrite (GT false back c I). now destruct back. }
  assert (E2 : zsum (map (fun c => G (fst c)) F2) = zsum (map (hi p2) F2)).
  { f_equal. apply map_ext_in. intros c I. apply filter_In in I as (I & _). rewrite <- (turned_false (fst c)) at 1. exact (GT true false c I). }
  rewrite E1, E2.
  assert (B1i : (zsum (map (hi p1) F1) <= 1)%Z).
  { etransitivity; [apply (zsum_le (hi p1)); intros c; apply zsum_nonneg; intros; apply Gi0|]. unfold hi. rewrite <- (zsum_flat (fun c => vsegs p1 (bs_view (fst c))) gi cs1).
    apply (cu_half _ _ _ _ _ _ C1 gi q true PO1). intros e I. apply GiL, L1. exact I. }
  assert (B1o : (zsum (map (ho p1) F1) <= 1)%Z).
  { etransitivity; [apply (zsum_le (ho p1)); intros c; apply zsum_nonneg; intros; apply Go0|]. unfold ho. rewrite <- (zsum_flat (fun c => vsegs p1 (bs_view (fst c))) go cs1).
    apply (cu_half _ _ _ _ _ _ C1 go q false PO1). intros e I. apply GoL, L1. exact I. }
  assert (B2i : (zsum (map (hi p2) F2) <= 1)%Z).
  { etransitivity; [apply (zsum_le (hi p2)); intros c; apply zsum_nonneg; intros; apply Gi0|]. unfold hi. rewrite <- (zsum_flat (fun c => vsegs p2 (bs_view (fst c))) gi cs2).
    apply (cu_half _ _ _ _ _ _ C2 gi q true PO2). intros e I. apply GiL, L2. exact I. }
  destruct (classic (on_path p1 q)) as [Q1|Q1]; [destruct (classic (on_path p2 q)) as [Q2|Q2]|].
  - pose proof (kept_one p1 p2 false eps bs cs1 (fst w) q gi go C1 PO1 Q2 (fun b e => SW1 q b e Q1 Q2) Gi0 Go0 (fun e I => GiL e (L1 e I)) (fun e I => GoL e (L1 e I))) as K1.
    pose proof (kept_one p1 p2 true eps bs cs2 (snd w) q gi go C2 PO2 Q1 (fun b e => SW2 q b e Q1 Q2) Gi0 Go0 (fun e I => GiL e (L2 e I)) (fun e I => GoL e (L2 e I))) as K2.
    cbv zeta iota in K1, K2. fold F1 in K1. fold F2 in K2. fold (hi p1) (ho p1) in K1. fold (hi p2) (ho p2) in K2.
    assert (T : forall (second : bool) c, In c (if second then cs2 else cs1) -> let p := if second then p2 else p1 in let d := bs_view (fst c) in
      (here q (vd_end_point d) - here q (pos (vd_updated_start d)) = ho p c - hi p c)%Z).
    { intros second c I p d.
      assert (TL : zsum (map (fun e : seg => (here q (pos (snd e)) - here q (pos (fst e)))%Z) (vsegs p d)) = (here q (vd_end_point d) - here q (pos (vd_updated_start d)))%Z).
      { unfold p, d. destruct second; [apply (cu_tele _ _ _ _ _ _ C2 c (here q) I)|apply (cu_tele _ _ _ _ _ _ C1 c (here q) I)]. }
      rewrite <- TL. unfold hi, ho. fold d.
      assert (SG : forall e, In e (vsegs p d) -> In e l0 /\ okseg e /\ pos (fst e) <> pos (snd e)).
      { intros e Ie. unfold p, d in Ie. destruct second.
        - split; [apply L2; left; exact (I2 c e I Ie)|]. destruct (cu_seg _ _ _ _ _ _ C2 c e q I Ie) as (A & B & _). split; [exact A|exact (fuzzy_false_neq _ _ eps epos B)].
        - split; [apply L1; left; exact (I1 c e I Ie)|]. destruct (cu_seg _ _ _ _ _ _ C1 c e q I Ie) as (A & B & _). split; [exact A|exact (fuzzy_false_neq _ _ eps epos B)]. }
      clear - SG GiL GoL. induction (vsegs p d) as [|e l IH]; [reflexivity|]. unfold zsum in *. cbn [map fold_right].
      specialize (IH ltac:(intros; apply SG; now right)). destruct (SG e (or_introl eq_refl)) as (A & B & D).
      pose proof (half_ends e q (gi e) (go e) B D (GiL e A) (GoL e A)). lia. }
    pose proof (BAL q) as BQ. rewrite SA in BQ.
    assert (X1 : zsum (map (fun c => bal q (turned back (fst c))) F1) = ((if back then -1 else 1) * (zsum (map (ho p1) F1) - zsum (map (hi p1) F1)))%Z).
    { unfold F1. transitivity (zsum (map (fun c => ((if back then -1 else 1) * (ho p1 c - hi p1 c))%Z) F1)).
      - unfold F1. f_equal. apply map_ext_in. intros c I. apply filter_In in I as (I & _). rewrite (bal_turned p1 p2 eps bs op o1 o2 cs1 cs2 w C1 C2 cl1 cl2 false back c q I). f_equal. exact (T false c I).
      - fold F1. rewrite zsum_scale. f_equal. clear. induction F1 as [|c l IH]; [reflexivity|]. unfold zsum in *. cbn [map fold_right]. lia. }
    assert (X2 : zsum (map (fun c => bal q (fst c)) F2) = (zsum (map (ho p2) F2) - zsum (map (hi p2) F2))%Z).
    { transitivity (zsum (map (fun c => (ho p2 c - hi p2 c)%Z) F2)).
      - unfold F2. f_equal. apply map_ext_in. intros c I. apply filter_In in I as (I & _). rewrite <- (turned_false (fst c)) at 1. rewrite (bal_turned p1 p2 eps bs op o1 o2 cs1 cs2 w C1 C2 cl1 cl2 true false c q I). rewrite Z.mul_1_l. exact (T true c I).
      - clear. induction F2 as [|c l IH]; [reflexivity|]. unfold zsum in *. cbn [map fold_right]. lia. }
    rewrite X1, X2 in BQ. destruct back; lia.
  - assert (Z2 : zsum (map (hi p2) F2) = 0%Z).
    { apply zsum_zero. intros c I. apply filter_In in I as (I & _). apply zsum_zero. intros e Ie. apply (GiL e (L2 e (or_introl (I2 c e I Ie)))). intros H. apply Q2.
      apply (cu_seg _ _ _ _ _ _ C2 c e q I Ie). eapply half_on; exact H. }
    rewrite Z2. destruct back; lia.
  - assert (Z1 : zsum (map (if back then ho p1 else hi p1) F1) = 0%Z).
    { apply zsum_zero. intros c I. apply filter_In in I as (I & _).
      assert (A : forall e first, In e (vsegs p1 (bs_view (fst c))) -> ~ half first e q).
      { intros e first Ie H. apply Q1. apply (cu_seg _ _ _ _ _ _ C1 c e q I Ie). eapply half_on; exact H. }
      destruct back; apply zsum_zero; intros e Ie; [apply (GoL e (L1 e (or_introl (I1 c e I Ie))))|apply (GiL e (L1 e (or_introl (I1 c e I Ie))))]; now apply A. }
    rewrite Z1. lia.
Qed.

(** Two places of a list that both count add up to two. *)
Lemma zsum_two {X} (f : X -> Z) l i j a b : (forall x, In x l -> (0 <= f x)%Z) -> nth_error l i = Some a -> nth_error l j = Some b -> i <> j -> (f a + f b <= zsum (map f l))%Z.
Proof.
  revert i j. induction l as [|c l IH]; intros i j H Ei Ej N; [destruct i; discriminate|].
  assert (Hl : forall x, In x l -> (0 <= f x)%Z) by (intros; apply H; now right). pose proof (H c (or_introl eq_refl)) as Hc.
  unfold zsum. cbn [map fold_right]. fold (zsum (map f l)). destruct i as [|i], j as [|j]; cbn in Ei, Ej.
  - contradiction.
  - injection Ei as <-. apply nth_error_In in Ej. pose proof (zsum_In f l b Hl Ej). lia.
  - injection Ej as <-. apply nth_error_In in Ei. pose proof (zsum_In f l a Hl Ei). lia.
  - assert (i <> j) by congruence. pose proof (IH i j Hl Ei Ej ltac:(assumption)). lia.
Qed.

Lemma on_half p q : (2 <= vertex_count p)%nat -> is_closed p = true -> pline_ok p -> on_path p q -> exists s, In s (spec_segs (vtx p) true) /\ half true s q.
Proof.
  intros vc cl ok (a & b & I & t & Ht & Hq). destruct (Rlt_dec t 1) as [L|L]; [exists (a, b); split; [now rewrite cl in I|]; exists t; auto|].
  assert (t = 1) by lra. subst t. assert (E : q = pos b) by (apply (seg_at_unique a b 1); auto; apply seg_at_1; now apply ok). subst q.
  destruct (ProofPolyOff.spec_segs_In_both _ _ _ _ I) as (_ & Ib). apply In_nth_error in Ib as (j & Ej).
  destruct (spec_segs_nth (vtx p) (is_closed p) j) as (b' & d & H1 & H2 & _).
  { rewrite spec_segs_length, cl. assert (j < length (vtx p))%nat by (apply nth_error_Some; congruence). unfold vertex_count in vc. destruct (Nat.ltb_spec (length (vtx p)) 2); lia. }
  rewrite Ej in H2. injection H2 as <-. apply nth_error_In in H1. exists (b, d). split; [now rewrite cl in H1|]. exists 0. split; [lra|]. split; [lra|]. apply seg_at_0. now apply ok.
Qed.

Lemma loops_good r : In r loops -> pline_ok (brp_pline r) /\ is_closed (brp_pline r) = true /\ (2 <= vertex_count (brp_pline r))%nat
  /\ (forall q, on_path (brp_pline r) q -> edge p1 p2 w q) /\ forall v1 v2, In (v1, v2) (spec_segs (vtx (brp_pline r)) (is_closed (brp_pline r))) -> pos v1 <> pos v2.
Proof.
  intros I. destruct (ProofRegion10.far_off p1 p2 ok1 ok2) as (x & N1 & N2).
  destruct (loops_sum p1 p2 eps bs op o1 o2 cs1 cs2 w loops epos C1 C2 ok1 ok2 cl1 cl2 simple1 simple2 apart wants trace x N1 N2) as (OK & _).
  rewrite Forall_forall in OK. exact (near_ok p1 p2 w r (OK r I)).
Qed.

Theorem loops_pass_once r : In r loops -> passes_once (brp_pline r).
Proof.
  intros I i j t u q (a & b & Ei & Ht & Hq) (c & d & Ej & Hu & Hr) Lt Lu. destruct (loops_pass q) as (g & G0 & G1 & S).
  destruct (loops_good r I) as (Ok & Cl & Vc & _ & Nd). rewrite Cl in Ei, Ej, Nd.
  assert (X : i = j).
  { destruct (Nat.eq_dec i j) as [E|E]; [exact E|]. exfalso. pose proof (zsum_two g _ i j _ _ (fun s _ => G0 s) Ei Ej E) as L2.
    rewrite (G1 r (a, b) I (nth_error_In _ _ Ei)), (G1 r (c, d) I (nth_error_In _ _ Ej)) in L2 by (eexists; eauto).
    pose proof (zsum_In (fun r => zsum (map g (spec_segs (vtx (brp_pline r)) true))) loops r (fun r _ => zsum_nonneg g _ (fun s _ => G0 s)) I). cbv beta in H. lia. }
  split; [exact X|]. subst j. rewrite Ei in Ej. injection Ej as <- <-. pose proof (nth_error_In _ _ Ei) as Ie.
  apply (seg_at_inj a b t u q); auto. apply Ok. now rewrite Cl.
Qed.

Theorem loops_disjoint i j r s q : nth_error loops i = Some r -> nth_error loops j = Some s -> i <> j -> ~ (on_path (brp_pline r) q /\ on_path (brp_pline s) q).
Proof.
  intros Ei Ej N (Or & Os). destruct (loops_pass q) as (g & G0 & G1 & S).
  pose proof (zsum_two (fun r => zsum (map g (spec_segs (vtx (brp_pline r)) true))) loops i j r s (fun r _ => zsum_nonneg g _ (fun s _ => G0 s)) Ei Ej N) as L2.
  assert (A : forall r, In r loops -> on_path (brp_pline r) q -> (1 <= zsum (map g (spec_segs (vtx (brp_pline r)) true)))%Z).
  { intros r' I O. destruct (loops_good r' I) as (Ok & Cl & Vc & _ & _). destruct (on_half _ q Vc Cl Ok O) as (e & Ie & He).
    pose proof (zsum_In g _ e (fun s _ => G0 s) Ie) as L. rewrite (G1 r' e I Ie He) in L. exact L. }
  pose proof (A r (nth_error_In _ _ Ei) Or). pose proof (A s (nth_error_In _ _ Ej) Os). cbv beta in L2. lia.
Qed.
End Crossing.
