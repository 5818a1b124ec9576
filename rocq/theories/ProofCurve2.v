(** Loops of lines and arcs that clearly cross: the intersections found, and the region of a boolean operation (C71). *)
From Coq Require Import Reals ZArith Bool List Arith Lra Lia Psatz Classical.
From Verif Require Import Num RNum Res ModelMath ModelSeg ModelPline ModelView ModelIndex ModelIntr ModelSegIntr ModelIntersects ModelBoolean.
From Verif Require Import Spec SpecPline SpecGeom SpecBox SpecIntr SpecWinding SpecView SpecPruneR SpecPrune SpecRegion SpecBoolean SpecIndex SpecIntersects SpecSegIntr SpecOffsetJoin SpecPolyOff SpecPolyBool SpecJordan SpecCurve.
From Verif Require Import ProofR ProofBase ProofIter ProofArc ProofIntr ProofFind ProofFindR ProofSegIntr5 ProofOffsetJoin2 ProofSlice ProofWinding6 ProofPolyOff ProofPolyOff2 ProofRegion11 ProofNest ProofFlat ProofValid ProofPolyBool ProofCurve1.
Import ListNotations.
Local Open Scope R_scope.

(** A part of an arc with a chord of [eps]. *)
Lemma chord_part eps a b t u p q : 0 < eps -> seg_ok a b -> 0 <= t -> u <= 1 -> t < u -> seg_at a b t p -> seg_at a b u q ->
  eps <= Rabs (vx p - vx q) \/ eps <= Rabs (vy p - vy q) ->
  (forall c r, pbulge a <> 0 -> arc_circle a b c r -> r <= 25000000 * eps) -> part_ok a t u.
Proof.
  intros He Ok T0 U1 TU Sp Sq D M. destruct (Req_dec (pbulge a) 0) as [Z|Z]; [left; exact Z|right].
  destruct Sp as [(Z' & _)|(_ & c & r & al & A & Ep)]; [contradiction|].
  pose proof (proj1 (seg_at_arc_iff a b c r al u q Ok Z A) Sq) as Eq.
  assert (Hr : 0 <= r) by apply A. specialize (M c r Z (ex_intro _ al A)).
  set (ph := (u - t) * atan (pbulge a)) in *.
  assert (C : dist p q * dist p q = (2 * r * sin (2 * ph)) * (2 * r * sin (2 * ph))).
  { rewrite dist_sqr. rewrite Ep, Eq. unfold circle_pt. cbn [vx vy].
    set (x := al + t * sweep (pbulge a)). replace (al + u * sweep (pbulge a)) with (x + 2 * (2 * ph)) by (unfold x, ph, sweep; ring).
    rewrite cos_plus, sin_plus, (cos_2a (2 * ph)), (sin_2a (2 * ph)).
    pose proof (sin2_cos2 x) as S1. pose proof (sin2_cos2 (2 * ph)) as S2. unfold Rsqr in *.
    set (sx := sin x) in *. set (cx := cos x) in *. set (s := sin (2 * ph)) in *. set (k := cos (2 * ph)) in *. clearbody sx cx s k.
    assert (K : k * k = 1 - s * s) by lra. assert (X : cx * cx = 1 - sx * sx) by lra.
    replace (_ + _) with (r * r * ((cx - (cx * (k * k - s * s) - sx * (2 * s * k))) * (cx - (cx * (k * k - s * s) - sx * (2 * s * k))) + (sx - (sx * (k * k - s * s) + cx * (2 * s * k))) * (sx - (sx * (k * k - s * s) + cx * (2 * s * k))))) by ring.
    replace (2 * r * s * (2 * r * s)) with (r * r * (4 * (s * s))) by ring. f_equal.
    replace (_ + _) with ((cx * cx + sx * sx) * ((1 - (k * k - s * s)) * (1 - (k * k - s * s)) + 4 * (s * s) * (k * k))) by ring.
    rewrite K. replace (cx * cx + sx * sx) with 1 by lra. ring. }
  assert (E : eps <= dist p q).
  { pose proof (coords_le p q) as (X & Y). destruct D; lra. }
  assert (E2 : eps <= 2 * r * Rabs (sin (2 * ph))).
  { assert (dist p q = Rabs (2 * r * sin (2 * ph))) as E3.
    { apply Rsqr_inj; [apply sqrt_pos|apply Rabs_pos|]. rewrite <- Rsqr_abs. exact C. }
    rewrite E3, Rabs_mult, (Rabs_pos_eq (2 * r)) in E by lra. exact E. }
  assert (CP : 0 < cos ph).
  { pose proof (atan_bound (pbulge a)) as AB. apply cos_gt_0; unfold ph; pose proof PI_RGT_0; nra. }
  assert (T : Rabs (sin (2 * ph)) <= 2 * Rabs (tan ph)).
  { rewrite sin_2a. unfold tan. unfold Rdiv. rewrite !Rabs_mult, (Rabs_pos_eq 2), (Rabs_pos_eq (cos ph)), (Rabs_pos_eq (/ cos ph)) by (try lra; left; now apply Rinv_0_lt_compat).
    pose proof (COS_bound ph) as (_ & CB). assert (1 <= / cos ph) by (rewrite <- Rinv_1; apply Rinv_le_contravar; lra).
    pose proof (Rabs_pos (sin ph)). nra. }
  assert (1 <= 100000000 * Rabs (tan ph)); [|lra].
  apply (Rmult_le_reg_l eps); [exact He|]. pose proof (Rabs_pos (tan ph)). pose proof (Rabs_pos (sin (2 * ph))).
  apply (Rle_trans _ (2 * r * Rabs (sin (2 * ph)))); [lra|]. apply (Rle_trans _ (2 * r * (2 * Rabs (tan ph)))); [apply Rmult_le_compat_l; lra|].
  replace (eps * (100000000 * Rabs (tan ph))) with ((100000000 * eps) * Rabs (tan ph)) by ring.
  replace (2 * r * (2 * Rabs (tan ph))) with ((4 * r) * Rabs (tan ph)) by ring. apply Rmult_le_compat_r; lra.
Qed.

Section Lists.
Variable f : nat * nat -> list (intr_event R).
Variable pairs : list (nat * nat).
Hypothesis each : forall ij, In ij pairs -> exists qs, NoDup qs /\ f ij = map (fun q => EvBasic (BI (fst ij) (snd ij) q)) qs.

Lemma all_no_overlaps : overlaps (flat_map f pairs) = [].
Proof.
  clear - each. induction pairs as [|ij l IH]; [reflexivity|]. cbn [flat_map]. rewrite overlaps_app, IH by (intros; apply each; now right).
  destruct (each ij (or_introl eq_refl)) as (qs & _ & ->). rewrite app_nil_r. induction qs as [|q qs IQ]; [reflexivity|exact IQ].
Qed.

Lemma all_basics b : In b (basics (flat_map f pairs)) <-> In (bi_index1 b, bi_index2 b) pairs /\ In (EvBasic b) (f (bi_index1 b, bi_index2 b)).
Proof.
  unfold basics. rewrite in_flat_map. split.
  - intros (e & I & J). apply in_flat_map in I. destruct I as (ij & I & K). destruct (each ij I) as (qs & _ & E). pose proof K as K'. rewrite E in K'.
    apply in_map_iff in K'. destruct K' as (q & <- & _). destruct J as [<-|[]]. cbn [bi_index1 bi_index2]. destruct ij as (i, j). cbn [fst snd] in *. auto.
  - intros (I & E). exists (EvBasic b). split; [|now left]. apply in_flat_map. exists (bi_index1 b, bi_index2 b). auto.
Qed.

Lemma basics_map i j qs : basics (map (fun q => EvBasic (BI i j q)) qs) = map (fun q : vec2 R => BI i j q) qs.
Proof. induction qs as [|q qs IH]; [reflexivity|]. cbn [map]. unfold basics in *. cbn [flat_map app]. now rewrite IH. Qed.

Lemma all_nodup : NoDup pairs -> NoDup (basics (flat_map f pairs)).
Proof.
  intros ND. revert each. induction ND as [|ij l NI ND IH]; intros each'; [constructor|].
  cbn [flat_map]. rewrite basics_app. specialize (IH (fun x I => each' x (or_intror I))).
  destruct (each' ij (or_introl eq_refl)) as (qs & NQ & ->). rewrite basics_map. 
  assert (D : forall b, In b (map (fun q : vec2 R => BI (fst ij) (snd ij) q) qs) -> ~ In b (basics (flat_map f l))).
  { intros b I J. apply in_map_iff in I. destruct I as (q & <- & _). unfold basics in J. apply in_flat_map in J. destruct J as (e & J & K).
    apply in_flat_map in J. destruct J as (kl & J & L). destruct (each' kl (or_intror J)) as (qs' & _ & E). rewrite E in L. apply in_map_iff in L.
    destruct L as (q' & <- & _). destruct K as [K|[]]. injection K as E1 E2 _. apply NI. destruct ij, kl. cbn [fst snd] in *. congruence. }
  clear - NQ D IH. induction NQ as [|q qs NI NQ IQ]; [exact IH|]. cbn [map app] in *. constructor.
  - rewrite in_app_iff. intros [I|I].
    + apply in_map_iff in I. destruct I as (q' & [= ->] & I). contradiction.
    + eapply D; [now left|exact I].
  - apply IQ. intros b I. apply D. now right.
Qed.
End Lists.

Lemma exact_events i j keep k2 v1 v2 u1 u2 x : exact v1 v2 u1 u2 x -> (forall q, on_seg v1 v2 q -> on_seg u1 u2 q -> keep q = true) ->
  exists qs, NoDup qs /\ events_of i j keep k2 x = map (fun q => EvBasic (BI i j q)) qs /\ forall q, In q qs <-> on_seg v1 v2 q /\ on_seg u1 u2 q.
Proof.
  intros (NO & RP & TW) K.
  assert (H : forall q, reported x q -> keep q = true) by (intros q Q; apply RP in Q; now apply K).
  destruct x as [|q|q|q1 q2| |]; cbn [events_of]; try contradiction.
  - exists []. split; [constructor|]. split; [reflexivity|exact RP].
  - exists [q]. split; [repeat constructor; easy|]. cbn [filter]. rewrite (H q) by reflexivity. split; [reflexivity|].
    intros q'. rewrite <- RP. cbn. split; [intros [|[]]; auto|auto].
  - exists [q]. split; [repeat constructor; easy|]. cbn [filter]. rewrite (H q) by reflexivity. split; [reflexivity|].
    intros q'. rewrite <- RP. cbn. split; [intros [|[]]; auto|auto].
  - exists [q1; q2]. split; [repeat constructor; cbn; [intros [|[]]; eapply TW; [reflexivity|auto]|easy]|].
    cbn [filter]. rewrite (H q1), (H q2) by (cbn; auto). split; [reflexivity|].
    intros q'. rewrite <- RP. cbn. split; [intros [|[|[]]]; auto|intros [|]; auto].
Qed.

Section Pair.
Variables p1 p2 : pline R.
Variable eps : R.
Hypothesis epos : 0 < eps.
Hypothesis clear : clear_loops eps p1 p2.

Lemma ok_1 : pline_ok p1. Proof. eapply clear_ok, clear. Qed.
Lemma ok_2 : pline_ok p2. Proof. eapply clear_ok, clear. Qed.
Lemma cl_1 : is_closed p1 = true. Proof. apply clear. Qed.
Lemma cl_2 : is_closed p2 = true. Proof. apply clear. Qed.

Lemma seg_common i j v1 v2 u1 u2 : nth_error (spec_segs (vtx p1) (is_closed p1)) i = Some (v1, v2) ->
  nth_error (spec_segs (vtx p2) (is_closed p2)) j = Some (u1, u2) ->
  exists qs, NoDup qs /\ cross_pair p1 p2 eps (i, j) = map (fun q => EvBasic (BI i j q)) qs /\ forall q, In q qs <-> on_seg v1 v2 q /\ on_seg u1 u2 q.
Proof.
  intros E1 E2. pose proof (nth_error_In _ _ E1) as I1. pose proof (nth_error_In _ _ E2) as I2.
  unfold cross_pair. rewrite E1, E2. apply exact_events.
  - apply sides_exact; [exact epos|now apply ok_1|now apply ok_2|]. destruct clear as (C1 & C2 & _ & _ & _ & _ & S & _). apply S; [now rewrite <- C1|now rewrite <- C2].
  - intros q O1 O2. destruct clear as (_ & _ & _ & _ & _ & _ & _ & OV & _).
    destruct (OV q) as (F1 & F2); [exists v1, v2; auto|exists u1, u2; auto|].
    rewrite (off_fuzzy eps v2 q), (off_fuzzy eps u2 q); [reflexivity|apply F2|apply F1].
    + apply (spec_segs_In_both _ _ _ _ I2).
    + apply (spec_segs_In_both _ _ _ _ I1).
Qed.

Lemma loops_found boxes idx : index_of boxes idx -> boxes = map (fun s => seg_fast_approx_bounding_box (fst s) (snd s)) (spec_segs (vtx p1) (is_closed p1)) ->
  exists bs, find_intersects p1 p2 idx eps = Ret (bs, []) /\ NoDup bs /\ (forall b, In b bs <-> common_point p1 p2 b).
Proof.
  intros IO EB. assert (BL : length boxes = length (spec_segs (vtx p1) (is_closed p1))) by (rewrite EB; apply map_length).
  destruct (find_intersects_pairs p1 p2 eps boxes idx IO BL) as (pairs & CO & EF). pose proof CO as (ND & _ & IN).
  assert (EX : forall ij, In ij pairs -> exists v1 v2 u1 u2, nth_error (spec_segs (vtx p1) (is_closed p1)) (fst ij) = Some (v1, v2)
     /\ nth_error (spec_segs (vtx p2) (is_closed p2)) (snd ij) = Some (u1, u2)).
  { intros (i, j) I. apply IN in I. destruct I as (b & u1 & u2 & Eb & E2 & _).
    destruct (nth_error (spec_segs (vtx p1) (is_closed p1)) i) as [(v1, v2)|] eqn:E1.
    - exists v1, v2, u1, u2. auto.
    - exfalso. apply nth_error_None in E1. assert (i < length boxes)%nat by (apply nth_error_Some; congruence). lia. }
  assert (EACH : forall ij, In ij pairs -> exists qs, NoDup qs /\ cross_pair p1 p2 eps ij = map (fun q => EvBasic (BI (fst ij) (snd ij) q)) qs).
  { intros (i, j) I. destruct (EX _ I) as (v1 & v2 & u1 & u2 & E1 & E2). cbn [fst snd] in *.
    destruct (seg_common i j v1 v2 u1 u2 E1 E2) as (qs & N & E & _). eauto. }
  cbv zeta in EF. rewrite (all_no_overlaps _ _ EACH) in EF.
  assert (FI : forall l : list (basic_intr R), filter (fun b => negb (repeats p1 p2 eps [] b)) l = l).
  { induction l as [|b l IH]; [reflexivity|]. cbn [filter]. rewrite IH. reflexivity. }
  rewrite FI in EF. eexists. split; [exact EF|]. split; [now apply all_nodup|].
  intros b. rewrite (all_basics _ _ EACH). split.
  - intros (I & K). destruct (EX _ I) as (v1 & v2 & u1 & u2 & E1 & E2). cbn [fst snd] in *. exists v1, v2, u1, u2. split; [exact E1|]. split; [exact E2|].
    destruct (seg_common _ _ v1 v2 u1 u2 E1 E2) as (qs & _ & E & Q). rewrite E in K. apply in_map_iff in K. destruct K as (q & K & J).
    injection K as <-. cbn [bi_point]. now apply Q.
  - intros (v1 & v2 & u1 & u2 & E1 & E2 & O1 & O2). split.
    + rewrite EB in CO. apply (cross_meet_examined p1 p2 eps pairs _ _ v1 v2 u1 u2 (bi_point b)); auto; try lra.
      * apply ok_1. eapply nth_error_In. exact E1.
      * apply ok_2. eapply nth_error_In. exact E2.
    + destruct (seg_common _ _ v1 v2 u1 u2 E1 E2) as (qs & _ & E & Q). rewrite E. apply in_map_iff. exists (bi_point b). split; [now destruct b|]. now apply Q.
Qed.

Lemma at_off b : common_point p1 p2 b -> off_vertexes eps p1 (bi_point b) /\ off_vertexes eps p2 (bi_point b).
Proof. intros C. destruct (common_path p1 p2 b C). destruct clear as (_ & _ & _ & _ & _ & _ & _ & OV & _). now apply OV. Qed.

Lemma at_spread b b' : common_point p1 p2 b -> common_point p1 p2 b' ->
  bi_point b = bi_point b' \/ eps < Rabs (vx (bi_point b) - vx (bi_point b')) \/ eps < Rabs (vy (bi_point b) - vy (bi_point b')).
Proof. intros C C'. destruct clear as (_ & _ & _ & _ & _ & _ & _ & _ & SP). destruct (common_path p1 p2 b C), (common_path p1 p2 b' C'). now apply SP. Qed.
End Pair.

(** Cuts away from the vertexes and from each other. *)
Section Cuts.
Variables (p : pline R) (eps : R).
Hypothesis epos : 0 < eps.
Hypothesis closed : is_closed p = true.
Hypothesis K : clear_pline eps p.
Hypothesis M : moderate eps p.

Lemma apart_ends (a b : vertex R) : In (a, b) (spec_segs (vtx p) (is_closed p)) -> pos a <> pos b.
Proof.
  intros I E. destruct (K a b I) as (_ & D). assert (px a = px b /\ py a = py b) as (X & Y) by (unfold pos in E; now injection E). rewrite X, Y in D. unfold Rminus in D. rewrite !Rplus_opp_r, Rabs_R0 in D. destruct D; lra.
Qed.

Lemma off_inner k a b t q : nth_error (spec_segs (vtx p) (is_closed p)) k = Some (a, b) -> off_vertexes eps p q -> 0 <= t <= 1 -> seg_at a b t q ->
  0 < t < 1 /\ part_ok a t 1 /\ part_ok a 0 t.
Proof.
  intros E OF Ht At. pose proof (nth_error_In _ _ E) as I. pose proof (clear_ok _ _ K _ _ I) as Ok.
  destruct (spec_segs_In_both _ _ _ _ I) as (Ia & Ib).
  assert (A : eps <= Rabs (vx (pos a) - vx q) \/ eps <= Rabs (vy (pos a) - vy q)) by exact (OF a Ia).
  assert (B : eps <= Rabs (vx (pos b) - vx q) \/ eps <= Rabs (vy (pos b) - vy q)) by exact (OF b Ib).
  assert (T : 0 < t < 1).
  { split.
    - destruct (Req_dec t 0) as [->|D]; [|lra]. exfalso. rewrite (ProofArc.seg_at_unique a b 0 q (pos a) At (seg_at_0 a b Ok) Ok) in A.
      rewrite !Rminus_diag_eq, Rabs_R0 in A by reflexivity. lra.
    - destruct (Req_dec t 1) as [->|D]; [|lra]. exfalso. rewrite (ProofArc.seg_at_unique a b 1 q (pos b) At (seg_at_1 a b Ok) Ok) in B.
      rewrite !Rminus_diag_eq, Rabs_R0 in B by reflexivity. lra. }
  split; [exact T|]. split.
  - apply (chord_part eps a b t 1 q (pos b)); auto; try lra; [now apply seg_at_1| |intros c r; now apply M]. rewrite (Rabs_minus_sym (vx q)), (Rabs_minus_sym (vy q)). exact B.
  - apply (chord_part eps a b 0 t (pos a) q); auto; try lra; [now apply seg_at_0|intros c r; now apply M].
Qed.

Lemma nth_vertex k a b v : nth_error (spec_segs (vtx p) (is_closed p)) k = Some (a, b) -> nth_error (vtx p) k = Some v -> v = a.
Proof.
  intros E V. assert (L : (k < length (spec_segs (vtx p) (is_closed p)))%nat) by (apply nth_error_Some; congruence).
  destruct (spec_segs_nth _ _ k L) as (a' & b' & E' & Ea & _). congruence.
Qed.

(** The points of the list are on their segments, away from the vertexes and from each other. *)
Variable cuts : list (nat * slice_point R).
Hypothesis on : forall k sp, In (k, sp) cuts -> off_vertexes eps p (sp_pos sp) /\ exists a b, nth_error (spec_segs (vtx p) (is_closed p)) k = Some (a, b) /\ on_seg a b (sp_pos sp).
Hypothesis wide_apart : forall k k' sp sp', In (k, sp) cuts -> In (k', sp') cuts ->
  sp_pos sp = sp_pos sp' \/ eps < Rabs (vx (sp_pos sp) - vx (sp_pos sp')) \/ eps < Rabs (vy (sp_pos sp) - vy (sp_pos sp')).

Lemma cuts_clear : clear_cuts eps p cuts /\ heads_ok p cuts.
Proof.
  split; [split|].
  - intros k sp I. destruct (on k sp I) as (OF & a & b & E & t & Ht & At). split; [intros v J; right; exact (OF v J)|].
    destruct (off_inner k a b t _ E OF Ht At) as (T & P & _). exists t. split; [split; [lra|exists a, b; auto]|].
    intros v V. now rewrite (nth_vertex k a b v E V).
  - intros k sp sp' I I'. split.
    + destruct (wide_apart k k sp sp' I I') as [E|[E|E]]; [left; exact E|right; left; lra|right; right; lra].
    + intros t u v (T1 & a & b & E & Ht & At) (U1 & a' & b' & E' & Hu & Au) TU V. rewrite E in E'. injection E' as <- <-. rewrite (nth_vertex k a b v E V).
      pose proof (nth_error_In _ _ E) as J. pose proof (clear_ok _ _ K _ _ J) as Ok.
      destruct (wide_apart k k sp sp' I I') as [EQ|D].
      * exfalso. rewrite <- EQ in Au. pose proof (seg_at_inj a b t u _ Ok (apart_ends a b J) Ht Hu At Au). lra.
      * apply (chord_part eps a b t u (sp_pos sp) (sp_pos sp')); auto; try lra. intros c r; now apply M.
  - intros k sp t v I (T1 & a & b & E & Ht & At) T0 V. rewrite (nth_vertex k a b v E V). destruct (on k sp I) as (OF & _). now apply (off_inner k a b t _ E OF Ht At).
Qed.
End Cuts.

Section Clean.
Variables p1 p2 : pline R.
Variable eps : R.
Hypothesis epos : 0 < eps.
Hypothesis clear : clear_loops eps p1 p2.

Lemma loops_clean bs : (forall b, In b bs <-> common_point p1 p2 b) -> clean_crossing eps p1 p2 bs.
Proof.
  intros HB. pose proof clear as (C1 & C2 & K1 & K2 & M1 & M2 & _).
  unfold clean_crossing, cut_points. cbn [flat_map]. rewrite !app_nil_r.
  destruct (cuts_clear p1 eps epos K1 M1 (map (fun b => (bi_index1 b, SP (bi_point b) false)) bs)) as (A1 & B1).
  { intros k sp I. apply in_map_iff in I. destruct I as (b & [= <- <-] & I). apply HB in I. split; [now apply (at_off p1 p2 eps clear)|].
    destruct I as (v1 & v2 & u1 & u2 & E1 & E2 & O1 & O2). exists v1, v2. auto. }
  { intros k k' sp sp' I I'. apply in_map_iff in I. destruct I as (b & [= <- <-] & I). apply in_map_iff in I'. destruct I' as (b' & [= <- <-] & I').
    apply HB in I, I'. now apply (at_spread p1 p2 eps clear). }
  destruct (cuts_clear p2 eps epos K2 M2 (map (fun b => (bi_index2 b, SP (bi_point b) false)) bs)) as (A2 & B2).
  { intros k sp I. apply in_map_iff in I. destruct I as (b & [= <- <-] & I). apply HB in I. split; [now apply (at_off p1 p2 eps clear)|].
    destruct I as (v1 & v2 & u1 & u2 & E1 & E2 & O1 & O2). exists u1, u2. auto. }
  { intros k k' sp sp' I I'. apply in_map_iff in I. destruct I as (b & [= <- <-] & I). apply in_map_iff in I'. destruct I' as (b' & [= <- <-] & I').
    apply HB in I, I'. now apply (at_spread p1 p2 eps clear). }
  split; [exact A1|]. split; [exact A2|]. split; [exact B1|]. split; [exact B2|]. split; [|split].
  - intros k t q Lt (a & b & E & Ht & At) (u1 & u2 & I & On). apply In_nth_error in I. destruct I as (j & E2).
    apply in_map_iff. exists (BI k j q). split; [reflexivity|]. apply HB. exists a, b, u1, u2. cbn [bi_index1 bi_index2 bi_point].
    repeat split; auto. exists t. auto.
  - intros k t q Lt (a & b & E & Ht & At) (u1 & u2 & I & On). apply In_nth_error in I. destruct I as (j & E2).
    apply in_map_iff. exists (BI j k q). split; [reflexivity|]. apply HB. exists u1, u2, a, b. cbn [bi_index1 bi_index2 bi_point].
    repeat split; auto. exists t. auto.
  - intros b b' I I'. apply HB in I, I'. now apply (at_spread p1 p2 eps clear).
Qed.
End Clean.
