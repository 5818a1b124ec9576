(** The slices of one loop cut where the other crosses it (C51). *)
From Coq Require Import Reals ZArith Bool List Arith Lra Lia Psatz Permutation Sorted.
From Verif Require Import Num RNum Res ModelMath ModelSeg ModelPline ModelView ModelIntersects ModelBoolean.
From Verif Require Import Spec SpecPline SpecGeom SpecBox SpecWinding SpecView SpecPruneR SpecStitch SpecPrune SpecRegion.
From Verif Require Import ProofR ProofBase ProofIter ProofArc ProofSlice ProofPruneR ProofWinding6 ProofWinding7 ProofRegion ProofRegion2 ProofRegion3 ProofRegion4 ProofRegion5 ProofRegion6.
Import ListNotations.
Local Open Scope R_scope.

Lemma pieces_cases n i t j u k a b : t < 1 -> In (k, a, b) (slice_pieces n i t j u) ->
  ((k, a, b) = (i, t, u) /\ i = j /\ t < u) \/ (k, a, b) = (i, t, 1) \/ (a = 0 /\ b = 1) \/ ((k, a, b) = (j, 0, u) /\ 0 < u).
Proof.
  intros Ht I. rewrite slice_pieces_eq in I by exact Ht.
  assert (Rest : In (k, a, b) (rest_pieces n i t j u) -> (k, a, b) = (i, t, 1) \/ (a = 0 /\ b = 1) \/ ((k, a, b) = (j, 0, u) /\ 0 < u)).
  { intros [E|E]; [left; now symmetry|right]. apply in_app_or in E as [E|E].
    - apply in_map_iff in E as (m & E & _). injection E as _ <- <-. left. auto.
    - destruct (Rlt_dec 0 u); [|destruct E]. destruct E as [E|[]]. right. split; [now symmetry|assumption]. }
  destruct (Nat.eqb_spec i j) as [E|E]; [|right; now apply Rest]. destruct (Rlt_dec t u) as [L|L]; [|right; now apply Rest].
  destruct I as [I|[]]. left. split; [now symmetry|auto].
Qed.

Section OneSide.
Variables (p1 p2 : pline R) (second : bool) (eps : R) (bs : list (basic_intr R)) (o1 o2 : orientation_t).
Let p := if second then p2 else p1.
Let p' := if second then p1 else p2.
Hypothesis epos : 0 < eps.
Hypothesis vc : (2 <= vertex_count p)%nat.
Hypothesis cl : is_closed p = true.
Hypothesis clear : clear_pline eps p.
Hypothesis okp' : pline_ok p'.
Hypothesis range : forall b, In b bs -> ((if second then bi_index2 b else bi_index1 b) < vertex_count p)%nat.
Hypothesis cuts : clear_cuts eps p (cut_points p eps second bs []).
Hypothesis heads : heads_ok p (cut_points p eps second bs []).
Hypothesis found : all_found p p' (map (fun b => (if second then bi_index2 b else bi_index1 b, bi_point b)) bs).
Hypothesis nonempty : bs <> [].

Lemma okp : forall v1 v2, In (v1, v2) (spec_segs (vtx p) (is_closed p)) -> seg_ok v1 v2 /\ pos v1 <> pos v2.
Proof.
  intros v1 v2 I. destruct (clear v1 v2 I) as (Ok & D). split; [exact Ok|]. intros E.
  assert (px v1 = px v2 /\ py v1 = py v2) as (E1 & E2) by (split; [exact (f_equal vx E)|exact (f_equal vy E)]).
  rewrite E1, E2, !Rminus_diag_eq, Rabs_R0 in D by reflexivity. lra.
Qed.

Definition one_side (order : list place) (cs : list (boolean_slice R * vec2 R)) : Prop :=
  order <> [] /\ Forall (placed p) order /\ StronglySorted along order
  /\ (forall i t x j u y, In ((i, t, x), (j, u, y)) (gaps order) -> forall k a b v, In (k, a, b) (slice_pieces (vertex_count p) i t j u) ->
       nth_error (vtx p) k = Some v -> part_ok v a b)
  /\ Forall2 (between p) (gaps order) cs
  /\ (forall k t q, t < 1 -> point_at p k t q -> on_path p' q -> exists t' x, In (k, t', x) order /\ sp_pos x = q)
  /\ Forall (candidate p1 p2 second) cs
  /\ (forall pred g, (forall x, pred x = Ret (g x)) ->
       slice_at_intersects p (BInfo [] bs o1 o2) second pred eps = Ret (map fst (filter (fun c => g (snd c)) cs)))
  /\ (forall c w, In c cs -> In w (vsegs p (bs_view (fst c))) -> close_by eps (fst w) (snd w) = false)
  /\ (forall c, In c cs -> exists b b', In b bs /\ In b' bs /\ pos (vd_updated_start (bs_view (fst c))) = bi_point b /\ vd_end_point (bs_view (fst c)) = bi_point b').

Lemma one_side_ok : exists order cs, one_side order cs.
Proof.
  destruct (slices_between p1 p2 second eps bs [] o1 o2 epos vc cl clear range) as (order & cs & PM & PL & SS & CA & F2 & SL); [intros s []|exact cuts|].
  fold p in PM, PL, F2, SL.
  assert (CP : cut_points p eps second bs [] = map (fun b => (if second then bi_index2 b else bi_index1 b, SP (bi_point b) false)) bs).
  { unfold cut_points. cbn [flat_map]. apply app_nil_r. }
  assert (OI : forall k t x, In (k, t, x) order -> In (k, x) (cut_points p eps second bs [])).
  { intros k t x I. apply (Permutation_in _ PM). apply in_map_iff. exists (k, t, x). auto. }
  assert (SF : forall k x, In (k, x) (cut_points p eps second bs []) -> sp_is_start x = false /\ exists b, In b bs /\ sp_pos x = bi_point b).
  { intros k x I. rewrite CP in I. apply in_map_iff in I as (b & E & I). injection E as _ <-. split; [reflexivity|]. exists b. auto. }
  assert (FG : filter free_gap (gaps order) = gaps order).
  { assert (G : forall l : list (place * place), (forall g, In g l -> free_gap g = true) -> filter free_gap l = l).
    { induction l as [|g l IH]; intros H; [reflexivity|]. cbn. rewrite (H g) by now left. f_equal. apply IH. intros g' I. apply H. now right. }
    apply G. intros [[[k t] x] y] I. apply gaps_In in I as (I & _). unfold free_gap. cbn [fst snd]. now rewrite (proj1 (SF k x (OI _ _ _ I))). }
  rewrite FG in F2.
  assert (NE : order <> []).
  { intros ->. apply Permutation_nil in PM. rewrite CP in PM. destruct bs; [contradiction|discriminate]. }
  assert (PLI : forall k t x, In (k, t, x) order -> placed p (k, t, x)) by (intros k t x I; rewrite Forall_forall in PL; exact (PL _ I)).
  assert (UN : forall k t t' x, placed p (k, t, x) -> placed p (k, t', x) -> t = t').
  { intros k t t' x (L & a & b & E & B & Q) (L' & a' & b' & E' & B' & Q'). rewrite E in E'. injection E' as <- <-.
    destruct (okp a b) as (Ok & Nd); [eapply nth_error_In; exact E|]. eapply seg_at_inj; eauto. }
  assert (PA : forall i t x j u y, In ((i, t, x), (j, u, y)) (gaps order) -> forall k a b v, In (k, a, b) (slice_pieces (vertex_count p) i t j u) ->
       nth_error (vtx p) k = Some v -> part_ok v a b).
  { intros i t x j u y IG k a b v IP Ev. apply gaps_In in IG as (I1 & I2). pose proof (PLI _ _ _ I1) as P1. pose proof (PLI _ _ _ I2) as P2.
    destruct P1 as (L1 & P1'). destruct (pieces_cases _ _ _ _ _ _ _ _ L1 IP) as [(E & -> & L)|[E|[(-> & ->)|(E & L)]]].
    - injection E as -> -> ->. apply (proj2 (proj2 cuts j x y (OI _ _ _ I1) (OI _ _ _ I2)) t u v); auto.
    - injection E as -> -> ->. destruct (proj1 cuts i x (OI _ _ _ I1)) as (_ & t' & P' & PO). rewrite (UN i t t' x); [now apply PO|split; assumption|exact P'].
    - destruct (spec_segs_nth (vtx p) (is_closed p) k) as (v1 & v2 & E & E1 & E2).
      { rewrite spec_segs_length, cl. assert (k < length (vtx p))%nat by (apply nth_error_Some; congruence). unfold vertex_count in vc. destruct (Nat.ltb_spec (length (vtx p)) 2); lia. }
      assert (v1 = v) by congruence. subst v1. destruct (okp v v2) as (([Z|(Z & _)] & _) & _); [eapply nth_error_In; exact E|now left|right].
      rewrite Rminus_0_r, Rmult_1_l, tan_atan. exact Z.
    - injection E as -> -> ->. eapply heads; eauto. }
  exists order, cs. split; [exact NE|]. split; [exact PL|]. split; [exact SS|]. split; [exact PA|]. split; [exact F2|]. split; [|split; [exact CA|split; [exact SL|split]]].
  - intros k t q L PT ON. pose proof (found k t q L PT ON) as I. apply in_map_iff in I as (b & E & I). injection E as Ek Eq.
    assert (I' : In (k, SP q false) (cut_points p eps second bs [])) by (rewrite CP; apply in_map_iff; exists b; split; [congruence|exact I]).
    apply (Permutation_in _ (Permutation_sym PM)) in I'. apply in_map_iff in I' as ([[k' t'] x] & E & I'). cbn in E. injection E as -> ->.
    exists t', (SP q false). auto.
  - intros c w Ic Iw. destruct (gap_slice p order cs F2 c Ic) as (i & t & x & j & u & y & IG & B).
    pose proof (slice_piece p vc cl okp order PL PA _ _ _ _ _ _ _ IG B) as FP.
    destruct (forall2_right _ _ _ _ FP Iw) as ([[k a] b] & IP & v1 & v2 & E & Ok & Nd & T0 & T1 & T2 & HP & Okw).
    pose proof (gaps_In _ _ _ IG) as (I1 & I2). destruct (PLI _ _ _ I1) as (L1 & a1 & b1 & E1 & B1 & Q1). destruct (PLI _ _ _ I2) as (L2 & a2 & b2 & E2 & B2 & Q2).
    assert (W1 : seg_at v1 v2 a (pos (fst w))) by (replace a with (a + 0 * (b - a)) by ring; apply HP; now apply seg_at_0).
    assert (W2 : seg_at v1 v2 b (pos (snd w))) by (replace b with (a + 1 * (b - a)) by ring; apply HP; now apply seg_at_1).
    assert (NE' : pos (fst w) <> pos (snd w)) by (apply (seg_ends_neq v1 v2 a b); auto; lra).
    assert (EQ : forall s q q', seg_at v1 v2 s q -> seg_at v1 v2 s q' -> q = q') by (intros; eapply seg_at_unique; eauto).
    assert (VI : In v1 (vtx p) /\ In v2 (vtx p)).
    { destruct (spec_segs_nth (vtx p) (is_closed p) k) as (z1 & z2 & Ez & F1 & F2'); [apply nth_error_Some; congruence|].
      rewrite E in Ez. injection Ez as <- <-. split; eapply nth_error_In; eassumption. }
    unfold close_by.
    destruct (pieces_cases _ _ _ _ _ _ _ _ L1 IP) as [(EE & Eij & L)|[EE|[(-> & ->)|(EE & L)]]].
    + injection EE as -> -> ->. subst j. rewrite E in E1, E2. injection E1 as <- <-. injection E2 as <- <-.
      rewrite (EQ _ _ _ W1 Q1), (EQ _ _ _ W2 Q2) in *. apply crisp_false; [|exact NE'].
      exact (proj1 (proj2 cuts i x y (OI _ _ _ I1) (OI _ _ _ I2))).
    + injection EE as -> -> ->. rewrite E in E1. injection E1 as <- <-. rewrite (EQ _ _ _ W1 Q1), (EQ _ _ _ W2 (seg_at_1 v1 v2 Ok)) in *.
      apply crisp_false; [|exact NE']. apply crisp_sym. apply (proj1 (proj1 cuts i x (OI _ _ _ I1))). apply VI.
    + rewrite (EQ _ _ _ W1 (seg_at_0 v1 v2 Ok)), (EQ _ _ _ W2 (seg_at_1 v1 v2 Ok)) in *. apply crisp_false; [|exact NE'].
      right. destruct (clear v1 v2) as (_ & D); [eapply nth_error_In; exact E|]. exact D.
    + injection EE as -> -> ->. rewrite E in E2. injection E2 as <- <-. rewrite (EQ _ _ _ W1 (seg_at_0 v1 v2 Ok)), (EQ _ _ _ W2 Q2) in *.
      apply crisp_false; [|exact NE']. apply (proj1 (proj1 cuts j y (OI _ _ _ I2))). apply VI.
  - intros c Ic. destruct (gap_slice p order cs F2 c Ic) as (i & t & x & j & u & y & IG & B).
    pose proof (gaps_In _ _ _ IG) as (I1 & I2). destruct (SF _ _ (OI _ _ _ I1)) as (_ & b & Ib & Eb). destruct (SF _ _ (OI _ _ _ I2)) as (_ & b' & Ib' & Eb').
    exists b, b'. split; [exact Ib|]. split; [exact Ib'|]. destruct B as (V & _). destruct V as (V1 & V2 & V3 & V4 & l & first & last & EV & _ & Eh & Ef & En & El).
    rewrite <- Eb, <- Eb'. rewrite <- Ef, <- El.
    destruct (ProofView.view_forward_spec (bs_view (fst c)) p V1 V2 V3) as (_ & EV' & _). rewrite EV in EV'. injection EV' as ->. split.
    + cbn in Eh. injection Eh as <-. reflexivity.
    + rewrite ProofView.fwd_list_nth in En by assumption. destruct (Nat.eqb_spec (vd_end_index_offset (bs_view (fst c)) + 1) 0); [lia|].
      destruct (Nat.leb_spec (vd_end_index_offset (bs_view (fst c)) + 1) (vd_end_index_offset (bs_view (fst c)))); [lia|].
      rewrite Nat.eqb_refl in En. injection En as <-. destruct (vd_end_point (bs_view (fst c))). reflexivity.
Qed.
End OneSide.
