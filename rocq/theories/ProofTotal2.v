(** The loops of a boolean result wind around a point at most once each (C72). *)
From Coq Require Import Reals ZArith Bool List Arith Lra Lia Psatz Classical Permutation.
From Verif Require Import Num RNum Res ModelMath ModelSeg ModelPline ModelIndex ModelIntersects ModelBoolean.
From Verif Require Import Spec SpecGeom SpecBox SpecWinding SpecIndex SpecBoolean SpecView SpecPruneR SpecPrune SpecRegion SpecJordan.
From Verif Require Import ProofR ProofBase ProofIter ProofArc ProofSlice ProofMeasure ProofFind ProofBoolean ProofPrune2 ProofPruneR ProofWinding6 ProofWinding7 ProofRegion ProofRegion7 ProofRegion10 ProofRegion11 ProofNest ProofJordan ProofJordan2 ProofJordan5 ProofConn ProofConn2 ProofArea5 ProofOverlap.
Import ListNotations.
Local Open Scope R_scope.

(** At all but finitely many points at most one of the loops passes, and not both inputs do. *)
Definition parted (p1 p2 : pline R) (ls : list (boolean_result_pline R)) (F : list (vec2 R)) : Prop :=
  forall q, ~ In q F -> ~ (on_path p1 q /\ on_path p2 q) /\ exists h : boolean_result_pline R -> Z,
    (forall l, In l ls -> (0 <= h l)%Z /\ (on_path (brp_pline l) q -> (1 <= h l)%Z)) /\ (zsum (map h ls) <= 1)%Z.

Definition good_loop (p1 p2 : pline R) (w : bool * bool) (l : boolean_result_pline R) : Prop :=
  valid_loop (brp_pline l) /\ pline_ok (brp_pline l)
  /\ (forall v1 v2, In (v1, v2) (spec_segs (vtx (brp_pline l)) (is_closed (brp_pline l))) -> pos v1 <> pos v2)
  /\ forall q, on_path (brp_pline l) q -> edge p1 p2 w q.

Theorem region_kinds mk (p1 p2 : pline R) op idx eps boxes bs o1 o2 : makes_index mk ->
  index_of boxes idx -> length boxes = length (spec_segs (vtx p1) (is_closed p1)) ->
  valid_loop p1 -> valid_loop p2 -> 0 < eps -> clear_pline eps p1 -> clear_pline eps p2 -> simple_loop p1 o1 -> simple_loop p2 o2 ->
  find_intersects p1 p2 idx eps = Ret (bs, []) -> bs <> [] -> clean_crossing eps p1 p2 bs -> passes_once p1 -> passes_once p2 ->
  exists loops, polyline_boolean mk p1 p2 op idx eps = Ret (sorted_out op o2 (concat loops))
  /\ Forall2 (fun w ls => In w (wanted op) /\ (forall l, In l ls -> good_loop p1 p2 w l) /\ (exists F, parted p1 p2 ls F)
       /\ forall x, ~ on_path p1 x -> ~ on_path p2 x -> zsum (map (fun l => wn (brp_pline l) x) ls) = expected op o2 w (wn p1 x) (wn p2 x)) (wanted op) loops.
Proof.
  intros MK IO BL [V1 CL1] [V2' CL2] epos K1 K2 S1 S2 EF NE (CC1 & CC2 & H1 & H2 & A1 & A2 & SP) PO1 PO2.
  destruct (process_total p1 p2 idx eps boxes IO BL) as (bs' & ovs & os & o1' & o2' & EF' & EJ & EO1 & EO2 & EP).
  rewrite EF in EF'. injection EF' as <- <-. rewrite (proj1 S1) in EO1. injection EO1 as <-. rewrite (proj1 S2) in EO2. injection EO2 as <-.
  assert (os = []) as -> by (cbn in EJ; congruence).
  destruct (find_intersects_each p1 p2 eps boxes idx IO BL) as (bs' & os' & EF' & FB & _). rewrite EF in EF'. injection EF' as <- <-.
  assert (RG : forall b, In b bs -> (bi_index1 b < vertex_count p1)%nat /\ (bi_index2 b < vertex_count p2)%nat).
  { intros b I. rewrite Forall_forall in FB. apply (basic_in_range p1 p2 eps b). apply (FB b I). }
  destruct (cut_up_ok p1 p2 false eps bs o1 o2) as (cs1 & C1 & F1 & E1); try assumption; [exact (clear_ok _ _ K2)|intros b I; apply (RG b I)|].
  destruct (cut_up_ok p1 p2 true eps bs o1 o2) as (cs2 & C2 & F2 & E2); try assumption; [exact (clear_ok _ _ K1)|intros b I; apply (RG b I)|].
  destruct (crossing_with mk p1 p2 op idx eps MK boxes BL bs [] o1 o2 cs1 cs2) as (loops & TR & ER); auto; try (split; assumption); try discriminate; try (intros s []).
  exists loops. split; [exact ER|].
  destruct (ProofRegion10.far_off p1 p2 (clear_ok _ _ K1) (clear_ok _ _ K2)) as (x0 & N1 & N2).
  assert (G : forall ws ls, (forall w, In w ws -> In w (wanted op)) -> Forall2 (traced p1 p2 op o1 o2 eps cs1 cs2 []) ws ls ->
    Forall2 (fun w ls => In w (wanted op) /\ (forall l, In l ls -> good_loop p1 p2 w l) /\ (exists F, parted p1 p2 ls F)
       /\ forall x, ~ on_path p1 x -> ~ on_path p2 x -> zsum (map (fun l => wn (brp_pline l) x) ls) = expected op o2 w (wn p1 x) (wn p2 x)) ws ls).
  { intros ws ls Hw F. induction F as [|w l ws ls Tr F IH]; constructor; [|apply IH; intros; apply Hw; now right].
    pose proof (Hw w (or_introl eq_refl)) as Iw. split; [exact Iw|]. split; [|split].
    - intros r Ir. destruct (loops_sum p1 p2 eps bs op o1 o2 cs1 cs2 w l epos C1 C2 (clear_ok _ _ K1) (clear_ok _ _ K2) CL1 CL2 S1 S2 SP Iw Tr x0 N1 N2) as (R & _).
      rewrite Forall_forall in R. destruct (near_ok p1 p2 w r (R r Ir)) as (X1 & X2 & X3 & X4 & X5). split; [split; assumption|]. auto.
    - destruct (loops_once p1 p2 eps bs op o1 o2 cs1 cs2 w l epos C1 C2 (clear_ok _ _ K1) (clear_ok _ _ K2) CL1 CL2 S1 S2 SP Iw Tr PO1 PO2) as (FF & HF).
      exists FF. exact HF.
    - intros x O1 O2. apply (loops_region p1 p2 eps bs op o1 o2 cs1 cs2 w l epos C1 C2 (clear_ok _ _ K1) (clear_ok _ _ K2) CL1 CL2 S1 S2 SP Iw Tr x O1 O2). }
  apply G; auto.
Qed.

(** A loop around generic points of which the winding number has one of two values has no others. *)
Lemma two_values p1 p2 (L : pline R) F a b : pline_ok p1 -> valid_loop p1 -> passes_once p1 -> pline_ok p2 -> valid_loop p2 -> passes_once p2 -> pline_ok L ->
  (exists q, on_path L q /\ ~ In q F) ->
  (forall q, on_path L q -> ~ In q F -> exists r, 0 < r /\ forall x, dist q x < r -> ~ on_path p1 x -> ~ on_path p2 x -> wn L x = a \/ wn L x = b) ->
  forall x, ~ on_path L x -> wn L x = a \/ wn L x = b.
Proof.
  intros ok1 vl1 po1 ok2 vl2 po2 Ok (q0 & On0 & NF0) Jump x Ox. destruct (Jump q0 On0 NF0) as (r0 & Hr0 & J0).
  pose proof (off_both p1 p2 ok1 ok2 vl1 vl2 po1 po2) as OB.
  destruct (line_avoid x F q0 r0 Hr0) as (y0 & r1 & Hr1 & AV). destruct (OB y0 r1 Hr1) as (y & Dy & Y1 & Y2). destruct (AV y Dy) as (Dq & AVy).
  destruct (classic (exists t, 0 <= t <= 1 /\ on_path L (line_pt x y t))) as [(t0 & Ht0 & On)|N].
  - set (w := line_pt x y t0) in *. destruct (first_hit (fun t => on_path L (line_pt x w t))) as (t & Ht & Ont & Bef).
    + intros t Ht N. destruct (path_open L x w t Ok N) as (e & He & K). exists e. split; [exact He|]. intros u _ Hu. now apply K.
    + replace (line_pt x w 1) with w; [exact On|]. unfold line_pt. apply vec2_eq; cbn [vx vy]; ring.
    + set (q := line_pt x w t) in *.
      assert (EQ : q = line_pt x y (t * t0)) by (unfold q, w; apply line_part).
      assert (NF : ~ In q F).
      { intros I. apply (AVy q I); [intros E; apply Ox; now rewrite <- E|]. rewrite EQ. apply crossed_line. }
      destruct (Jump q Ont NF) as (r & Hr & J).
      assert (T0 : 0 < t).
      { destruct (Rle_lt_or_eq_dec 0 t ltac:(lra)) as [G|G]; [exact G|]. exfalso. apply Ox. replace x with q; [exact Ont|]. unfold q. rewrite <- G. unfold line_pt. apply vec2_eq; cbn [vx vy]; ring. }
      set (d := r / 2 / (dist x w + 1)). assert (D0 : 0 <= dist x w) by apply sqrt_pos. assert (Hd : 0 < d) by (unfold d; apply Rdiv_lt_0_compat; lra).
      set (u := t - Rmin (t / 2) (d / 2)). pose proof (Rmin_l (t / 2) (d / 2)). pose proof (Rmin_r (t / 2) (d / 2)). assert (0 < Rmin (t / 2) (d / 2)) by (apply Rmin_pos; lra).
      assert (Hu : 0 <= u < t) by (unfold u; lra).
      assert (Du : dist q (line_pt x w u) < r / 2) by (apply line_near; [lra|]; fold d; unfold u; rewrite Rabs_left; lra).
      assert (Ou : ~ on_path L (line_pt x w u)) by (apply Bef; lra).
      assert (EW : wn L x = wn L (line_pt x w u)) by (apply wn_until; [exact Ok|lra|]; intros v Hv; apply Bef; lra).
      destruct (wn_local L (line_pt x w u) Ok Ou) as (e & He & K). destruct (OB (line_pt x w u) (Rmin e (r / 2))) as (v & Dv & V1 & V2'); [apply Rmin_pos; lra|].
      pose proof (Rmin_l e (r / 2)). pose proof (Rmin_r e (r / 2)). destruct (K v ltac:(lra)) as (_ & Kv). rewrite EW, <- Kv.
      apply (J v); auto. pose proof (ProofJordan2.dist_triangle q (line_pt x w u) v). lra.
  - rewrite (wn_straight L x y Ok); [|intros t Ht On; apply N; eauto]. now apply J0.
Qed.

Lemma off_finite (l : boolean_result_pline R) F : valid_loop (brp_pline l) -> pline_ok (brp_pline l) ->
  (forall v1 v2, In (v1, v2) (spec_segs (vtx (brp_pline l)) (is_closed (brp_pline l))) -> pos v1 <> pos v2) -> exists q, on_path (brp_pline l) q /\ ~ In q F.
Proof.
  intros (V & C) Ok D. set (p := brp_pline l) in *.
  assert (LN : length (spec_segs (vtx p) (is_closed p)) = vertex_count p) by now apply len.
  destruct (spec_segs (vtx p) (is_closed p)) as [|[a b] m] eqn:E; [cbn in LN; lia|].
  assert (I : In (a, b) (spec_segs (vtx p) (is_closed p))) by (rewrite E; now left).
  destruct (seg_avoid (a, b) F) as (q & On & NF); [apply Ok; exact I|apply (D a b); now left|]. exists q. split; [|exact NF]. exists a, b. auto.
Qed.

Lemma zsum_cut {X} (f : X -> Z) l1 a l2 : zsum (map f (l1 ++ a :: l2)) = (f a + zsum (map f (l1 ++ l2)))%Z.
Proof. rewrite !map_app, !zsum_app. cbn [map]. unfold zsum at 2. cbn [fold_right]. fold (zsum (map f l2)). lia. Qed.

(** ** Loops of one kind: not for a union *)
Section Kind.
Variables (p1 p2 : pline R) (op : boolean_op) (w : bool * bool) (ls : list (boolean_result_pline R)) (v : Z) (F : list (vec2 R)).
Hypothesis ok1 : pline_ok p1.
Hypothesis ok2 : pline_ok p2.
Hypothesis vl1 : valid_loop p1.
Hypothesis vl2 : valid_loop p2.
Hypothesis po1 : passes_once p1.
Hypothesis po2 : passes_once p2.
Hypothesis ov : overlap p1 p2.
Hypothesis iw : In w (wanted op).
Hypothesis nor : op <> BOr.
Hypothesis good : forall l, In l ls -> good_loop p1 p2 w l.
Hypothesis sp : parted p1 p2 ls F.
Hypothesis hv : v = 1%Z \/ v = (-1)%Z.

Definition inner (x : vec2 R) : bool := Bool.eqb (inside p2 x) (fst w) && Bool.eqb (inside p1 x) (snd w).
Hypothesis sum : forall x, ~ on_path p1 x -> ~ on_path p2 x -> zsum (map (fun l => wn (brp_pline l) x) ls) = if inner x then v else 0%Z.

Lemma not_inner l x : In l ls -> ~ on_path p1 x -> ~ on_path p2 x -> inner x = false -> wn (brp_pline l) x = 0%Z.
Proof.
  intros Il O1 O2 N. destruct (Z.eq_dec (wn (brp_pline l) x) 0) as [E|E]; [exact E|]. exfalso. destruct (good l Il) as (Vl & Ok & _ & Ed).
  destruct (winds_within p1 p2 ok1 ok2 vl1 vl2 po1 po2 w op (brp_pline l) x ov iw nor Ok Vl Ed O1 O2 E) as (E2 & E1).
  unfold inner in N. rewrite E1, E2, !Bool.eqb_reflx in N. discriminate.
Qed.

Lemma kind_jump l q : In l ls -> on_path (brp_pline l) q -> ~ In q F -> exists r, 0 < r
  /\ (forall x, dist q x < r -> ~ on_path p1 x -> ~ on_path p2 x -> wn (brp_pline l) x = if inner x then v else 0%Z)
  /\ exists x, dist q x < r /\ ~ on_path p1 x /\ ~ on_path p2 x /\ inner x = true.
Proof.
  intros Il On NF. destruct (sp q NF) as (N12 & h & Hh & SM). destruct (good l Il) as (_ & _ & _ & E). destruct (E q On) as (P12 & S2 & S1).
  destruct (in_split l ls Il) as (l1 & l2 & ER).
  assert (IM : forall l', In l' (l1 ++ l2) -> In l' ls) by (intros l' I; rewrite ER; apply in_app_or in I; apply in_or_app; cbn; tauto).
  assert (OM : forall l', In l' (l1 ++ l2) -> pline_ok (brp_pline l') /\ ~ on_path (brp_pline l') q).
  { intros l' I. split; [apply (good l' (IM l' I))|]. intros On'. rewrite ER, zsum_cut in SM.
    pose proof (proj2 (Hh l Il) On). pose proof (proj2 (Hh l' (IM l' I)) On').
    pose proof (zsum_In h (l1 ++ l2) l' (fun k Ik => proj1 (Hh k (IM k Ik))) I). lia. }
  destruct (steady_sum (l1 ++ l2) q OM) as (r & K & Hr & HK).
  assert (X : exists e, 0 < e /\ forall d, 0 < d -> d <= e -> (exists x, dist q x < d /\ ~ on_path p1 x /\ ~ on_path p2 x /\ inner x = true)
    /\ exists x, dist q x < d /\ ~ on_path p1 x /\ ~ on_path p2 x /\ inner x = false).
  { assert (Y : forall p p' c c', pline_ok p -> valid_loop p -> passes_once p -> pline_ok p' -> on_path p q -> ~ on_path p' q -> inside p' q = c' ->
      exists e, 0 < e /\ forall d, 0 < d -> d <= e -> (exists x, dist q x < d /\ ~ on_path p x /\ ~ on_path p' x /\ inside p x = c /\ inside p' x = c')
        /\ exists x, dist q x < d /\ ~ on_path p x /\ ~ on_path p' x /\ inside p x = negb c /\ inside p' x = c').
    { intros p p' c c' ok vl po ok' O N I. destruct (inside_near p' q ok' N) as (e & He & Ke). exists e. split; [exact He|]. intros d Hd Le.
      destruct (loop_sides p ok vl po) as (o & Ho & _ & S). destruct (S q d O Hd) as ((a & Oa & Da & Wa) & (b & Ob & Db & Wb)).
      assert (Ia : inside p a = false) by (rewrite inside_wn, Wa; reflexivity). assert (Ib : inside p b = true) by (rewrite inside_wn, Wb; destruct Ho as [->| ->]; reflexivity).
      destruct (Ke a ltac:(lra)) as (A1 & A2). destruct (Ke b ltac:(lra)) as (B1 & B2). rewrite I in A2, B2.
      destruct c; (split; [|]); [exists b|exists a|exists a|exists b]; auto. }
    destruct P12 as [O|O].
    - assert (N : ~ on_path p2 q) by tauto. destruct S2 as [S2|S2]; [contradiction|]. destruct (Y p1 p2 (snd w) (fst w)) as (e & He & K'); auto. exists e. split; [exact He|]. intros d Hd Le.
      destruct (K' d Hd Le) as ((a & A1 & A2 & A3 & A4 & A5) & (b & B1 & B2 & B3 & B4 & B5)). split; [exists a|exists b]; repeat split; auto; unfold inner; rewrite ?A4, ?A5, ?B4, ?B5.
      + now rewrite !Bool.eqb_reflx.
      + destruct (snd w), (fst w); reflexivity.
    - assert (N : ~ on_path p1 q) by tauto. destruct S1 as [S1|S1]; [contradiction|]. destruct (Y p2 p1 (fst w) (snd w)) as (e & He & K'); auto. exists e. split; [exact He|]. intros d Hd Le.
      destruct (K' d Hd Le) as ((a & A1 & A2 & A3 & A4 & A5) & (b & B1 & B2 & B3 & B4 & B5)). split; [exists a|exists b]; repeat split; auto; unfold inner; rewrite ?A4, ?A5, ?B4, ?B5.
      + now rewrite !Bool.eqb_reflx.
      + destruct (snd w), (fst w); reflexivity. }
  destruct X as (e & He & X). exists (Rmin r e). pose proof (Rmin_l r e) as R1. pose proof (Rmin_r r e) as R2. assert (R0 : 0 < Rmin r e) by now apply Rmin_pos.
  split; [exact R0|]. destruct (X (Rmin r e) R0 R2) as (Y & (a & Da & A1 & A2 & A3)). split; [|exact Y].
  assert (EK : K = 0%Z).
  { pose proof (sum a A1 A2) as Sa. rewrite A3, ER, zsum_cut, (HK a) in Sa by lra. rewrite (not_inner l a Il A1 A2 A3) in Sa. lia. }
  intros x D O1 O2. pose proof (sum x O1 O2) as Sx. rewrite ER, zsum_cut, (HK x) in Sx by lra. destruct (inner x); lia.
Qed.

Lemma kind_simple l : In l ls -> exists o, simple_loop (brp_pline l) o /\ o <> Open /\ once o = v.
Proof.
  intros Il. destruct (good l Il) as (Vl & Ok & Nd & Ed). pose proof (off_finite l F Vl Ok Nd) as SPt.
  assert (Val : forall x, ~ on_path (brp_pline l) x -> wn (brp_pline l) x = 0%Z \/ wn (brp_pline l) x = v).
  { apply (two_values p1 p2 (brp_pline l) F); auto. intros q On NF. destruct (kind_jump l q Il On NF) as (r & Hr & J & _). exists r. split; [exact Hr|].
    intros x D O1 O2. rewrite (J x D O1 O2). destruct (inner x); auto. }
  destruct SPt as (q & On & NF). destruct (kind_jump l q Il On NF) as (r & Hr & J & (y & Dy & Y1 & Y2 & Yi)).
  assert (Oy : ~ on_path (brp_pline l) y) by (intros N; destruct (Ed y N) as ([Q|Q] & _); contradiction).
  assert (Wy : wn (brp_pline l) y = v) by (rewrite (J y Dy Y1 Y2), Yi; reflexivity).
  set (p := brp_pline l) in *. destruct (area_is_integral p (proj2 Vl) Ok) as (I & _ & EA).
  destruct (loop_area_sign p v (I / 2) Ok Vl EA) as (_ & St).
  { intros x k O Q. rewrite winding_wn in Q. injection Q as <-. destruct (Val x O) as [-> | ->]; destruct hv as [-> | ->]; lia. }
  assert (Q : 0 < IZR v * (I / 2)).
  { apply St. exists y, (wn p y). split; [exact Oy|]. split; [apply winding_wn|]. rewrite Wy. destruct hv as [->| ->]; lia. }
  assert (Or : orientation p = if rltb (I / 2) 0 then Ret Clockwise else Ret CounterClockwise).
  { unfold orientation. rewrite (proj2 Vl), EA. reflexivity. }
  assert (G : forall oo, once oo = v -> (forall x k, ~ on_path p x -> winding_number p x = Ret k -> k = 0%Z \/ k = once oo)).
  { intros oo E x k O W. rewrite winding_wn in W. injection W as <-. rewrite E. now apply Val. }
  destruct hv as [Hk|Hk].
  - exists CounterClockwise. rewrite Hk in Q. split; [split; [rewrite Or, (proj2 (rltb_false _ _)) by lra; reflexivity|apply G; now rewrite Hk]|]. split; [discriminate|now rewrite Hk].
  - exists Clockwise. rewrite Hk in Q. split; [split; [rewrite Or, (proj2 (rltb_true _ _)) by lra; reflexivity|apply G; now rewrite Hk]|]. split; [discriminate|now rewrite Hk].
Qed.
End Kind.
