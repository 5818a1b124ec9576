(** The slices of a polyline run between consecutive cut points (C32). *)
From Coq Require Import Reals List Arith Bool Permutation Sorted Lra Lia.
From Verif Require Import Num RNum Res ModelMath ModelSeg ModelPline ModelView ModelIntersects ModelBoolean.
From Verif Require Import Spec SpecGeom SpecView SpecPrune SpecPruneR.
From Verif Require Import ProofBase ProofIter ProofInvert ProofR ProofArc ProofArc2 ProofIntr ProofView ProofSlice ProofSlice2 ProofJoin ProofPrune ProofPrune2.
Import ListNotations.
Local Open Scope R_scope.

(** ** Parts of a segment *)
Lemma bulge_ok_part a w x : sweep (pbulge w) = x * sweep (pbulge a) -> 0 <= x <= 1 -> (pbulge a = 0 -> pbulge w = 0) -> bulge_ok (pbulge a) ->
  (pbulge a = 0 \/ 1 / 100000000 <= Rabs (tan (x * atan (pbulge a)))) -> bulge_ok (pbulge w).
Proof.
  intros H3 Hx H4 HS HR.
  destruct HR as [E|E]; [left; now apply H4|].
  destruct (Req_dec (pbulge a) 0) as [Z|Z]; [left; now apply H4|].
  assert (Em : pbulge w = tan (x * atan (pbulge a))).
  { unfold sweep in H3. rewrite <- (tan_atan (pbulge w)). f_equal. lra. }
  right. rewrite Em. split; [exact E|].
  destruct HS as [HB|[_ HB]]; [contradiction|].
  assert (HA : Rabs (atan (pbulge a)) <= PI / 4).
  { pose proof (atan_1_bound _ HB). unfold Rabs; destruct (Rcase_abs _); lra. }
  assert (HX : Rabs (x * atan (pbulge a)) <= PI / 4).
  { rewrite Rabs_mult, (Rabs_right x) by lra.
    apply Rle_trans with (1 * Rabs (atan (pbulge a))); [apply Rmult_le_compat_r; [apply Rabs_pos|lra]|lra]. }
  set (y := x * atan (pbulge a)) in *. pose proof PI_pos.
  assert (HT1 : tan y <= 1).
  { rewrite <- tan_PI4. destruct (Req_dec y (PI / 4)) as [->|]; [lra|].
    left. apply tan_increasing; unfold Rabs in HX; destruct (Rcase_abs y); lra. }
  assert (HT2 : -1 <= tan y).
  { replace (-1) with (tan (- (PI / 4))) by (rewrite tan_neg, tan_PI4; ring).
    destruct (Req_dec y (- (PI / 4))) as [->|]; [lra|].
    left. apply tan_increasing; unfold Rabs in HX; destruct (Rcase_abs y); lra. }
  apply Rabs_le. lra.
Qed.

Lemma head_sweep a b u ep eps : 0 < eps -> seg_ok a b -> v2fuzzy_eq_eps (pos a) (pos b) eps = false ->
  0 < u < 1 -> seg_at a b u ep -> crisp eps (pos a) ep -> crisp eps (pos b) ep ->
  let w := updated_start (seg_split_at_point a b ep eps) in
  sweep (pbulge w) = u * sweep (pbulge a) /\ (pbulge a = 0 -> pbulge w = 0).
Proof.
  intros He HS HD Hu Q C1 C2.
  pose proof (fuzzy_false_neq _ _ _ He HD) as HD'.
  assert (N1 : pos a <> ep).
  { intros C. subst ep. assert (u = 0); [|lra].
    apply (seg_at_inj a b u 0 (pos a)); auto; try lra. now apply seg_at_0. }
  assert (N2 : pos b <> ep).
  { intros C. subst ep. assert (u = 1); [|lra]. apply (seg_at_inj a b u 1 (pos b)); auto; try lra. now apply seg_at_1. }
  destruct (split_halves a b ep eps u HS Hu Q) as (_ & _ & _ & _ & H5 & _).
  { intros _. split; [exact HD|]. split; apply crisp_false; auto. }
  cbv zeta. split; [exact H5|]. intros E. rewrite seg_split_line by exact E. exact E.
Qed.

Lemma split_at_start v b eps : 0 < eps -> pos (updated_start (seg_split_at_point v b (pos v) eps)) = pos v.
Proof.
  intros He. unfold seg_split_at_point. destruct (bulge_is_zero v); [reflexivity|].
  rewrite (fuzzy_refl eps (pos v) He), orb_true_r. apply from_pos.
Qed.

Section Segment.
Context (a b : vertex R) (eps : R).
Hypothesis He : 0 < eps.
Hypothesis SO : seg_ok a b.
Hypothesis CL : v2fuzzy_eq_eps (pos a) (pos b) eps = false.

(** [w] starts the rest of the segment at parameter [t]. *)
Definition rest_at (t : R) (q : vec2 R) (w : vertex R) : Prop :=
  pos w = q /\ piece a b t 1 w b /\ sweep (pbulge w) = (1 - t) * sweep (pbulge a) /\ (pbulge a = 0 -> pbulge w = 0).

Definition cut_ok (t : R) (q : vec2 R) : Prop :=
  0 <= t < 1 /\ seg_at a b t q /\ crisp eps (pos a) q /\ crisp eps (pos b) q /\ part_ok a t 1.

Lemma rest_first t q : cut_ok t q -> rest_at t q (split_vertex (seg_split_at_point a b q eps)).
Proof. intros (H1 & H2 & H3 & H4 & _). exact (tail_piece a b t q eps He SO CL H1 H2 H3 H4). Qed.

Lemma cut_not_end t q : cut_ok t q -> q <> pos b.
Proof.
  intros (H1 & H2 & _) C. assert (t = 1); [|lra]. subst q.
  apply (seg_at_inj a b t 1 (pos b)); auto; try lra; [exact (fuzzy_false_neq _ _ _ He CL)|now apply seg_at_1].
Qed.

Lemma rest_seg t q w : cut_ok t q -> rest_at t q w -> seg_ok w b /\ v2fuzzy_eq_eps (pos w) (pos b) eps = false.
Proof.
  intros C (H1 & _ & H3 & H4). assert (NE := cut_not_end t q C). destruct C as (C1 & _ & _ & C4 & C5). split.
  - split; [|intros _; rewrite H1; exact NE]. apply (bulge_ok_part a w (1 - t)); auto; [lra|apply SO].
  - rewrite H1. apply crisp_false; [now apply crisp_sym|exact NE].
Qed.

Lemma rest_next t q w u q' : cut_ok t q -> rest_at t q w -> cut_ok u q' -> t <= u -> crisp eps q q' ->
  let split := seg_split_at_point w b q' eps in
  rest_at u q' (split_vertex split) /\ pos (updated_start split) = q
  /\ (t < u -> (forall e, pos e = q' -> piece a b t u (updated_start split) e)
               /\ (part_ok a t u -> bulge_ok (pbulge (updated_start split)))).
Proof.
  intros C R C' LE CR. destruct (rest_seg t q w C R) as (SW & CW). destruct R as (R1 & R2 & R3 & R4).
  destruct C as (C1 & C2 & C3 & C4 & C5). destruct C' as (D1 & D2 & D3 & D4 & D5).
  set (v := (u - t) / (1 - t)).
  assert (Ev : t + v * (1 - t) = u) by (unfold v; field; lra).
  assert (Hv : 0 <= v < 1).
  { unfold v. split; [apply Rmult_le_pos; [lra|left; apply Rinv_0_lt_compat; lra]|].
    apply Rmult_lt_reg_r with (1 - t); [lra|]. unfold Rdiv. rewrite Rmult_assoc, Rinv_l by lra. lra. }
  assert (Qm : seg_at w b v q') by (apply R2; rewrite Ev; exact D2).
  assert (CW1 : crisp eps (pos w) q') by (rewrite R1; exact CR).
  destruct (tail_piece w b v q' eps He SW CW Hv Qm CW1 D4) as (T1 & T2 & T3 & T4).
  cbv zeta. split; [|split].
  - split; [exact T1|]. split; [|split].
    + intros s x. rewrite (T2 s x), (R2 (v + s * (1 - v)) x).
      replace (t + (v + s * (1 - v)) * (1 - t)) with (t + v * (1 - t) + s * (1 - (t + v * (1 - t)))) by ring. rewrite Ev. reflexivity.
    + rewrite T3, R3. replace ((1 - v) * ((1 - t) * sweep (pbulge a))) with ((1 - (t + v * (1 - t))) * sweep (pbulge a)) by ring. now rewrite Ev.
    + intros E. apply T4, R4, E.
  - destruct (Req_dec t u) as [E|E].
    + assert (EQ : q' = q) by (apply (seg_at_unique a b t); [rewrite E; exact D2|exact C2|exact SO]). rewrite EQ, <- R1. now apply split_at_start.
    + assert (0 < v) by (unfold v; apply Rdiv_lt_0_compat; lra).
      destruct (head_piece w b v q' eps He SW CW ltac:(lra) Qm CW1 D4) as (G1 & _). now rewrite G1.
  - intros LT. assert (0 < v) by (unfold v; apply Rdiv_lt_0_compat; lra).
    destruct (head_piece w b v q' eps He SW CW ltac:(lra) Qm CW1 D4) as (_ & G2).
    destruct (head_sweep w b v q' eps He SW CW ltac:(lra) Qm CW1 D4) as (G3 & G4). split.
    + intros e Ee s x. rewrite (G2 e Ee s x), (R2 (0 + s * (v - 0)) x).
      replace (t + (0 + s * (v - 0)) * (1 - t)) with (t + s * (v * (1 - t))) by ring.
      replace (v * (1 - t)) with (u - t) by (unfold v; field; lra). reflexivity.
    + intros PO. apply (bulge_ok_part a _ (u - t)); [|lra|intros E; apply G4, R4, E|apply SO|exact PO].
      rewrite G3, R3. unfold v. field. lra.
Qed.
End Segment.

(** ** The candidates of one segment *)
Definition open_gap (x y : place) : list (place * place) := if same_place x y then [] else [(x, y)].
Fixpoint open_gaps (l : list place) : list (place * place) :=
  match l with
  | [] => []
  | x :: l' => match l' with [] => [] | y :: _ => open_gap x y ++ open_gaps l' end
  end.

Lemma gaps_to_cons first x y l : gaps_to first (x :: y :: l) = open_gap x y ++ gaps_to first (y :: l).
Proof. reflexivity. Qed.
Lemma open_gaps_cons x y l : open_gaps (x :: y :: l) = open_gap x y ++ open_gaps (y :: l).
Proof. reflexivity. Qed.

Lemma gaps_to_open first l z : gaps_to first (l ++ [z]) = open_gaps (l ++ [z]) ++ [(z, first)].
Proof.
  induction l as [|x l IH]; [reflexivity|]. destruct l as [|y l]; cbn [app] in *.
  - rewrite gaps_to_cons, open_gaps_cons, IH, app_assoc. reflexivity.
  - rewrite gaps_to_cons, open_gaps_cons, IH, app_assoc. reflexivity.
Qed.

Lemma gaps_to_app first l z y r : gaps_to first (l ++ [z] ++ y :: r) = open_gaps (l ++ [z]) ++ open_gap z y ++ gaps_to first (y :: r).
Proof.
  induction l as [|x l IH]; [reflexivity|]. destruct l as [|x' l]; cbn [app] in *.
  - rewrite gaps_to_cons, open_gaps_cons, IH, !app_assoc. reflexivity.
  - rewrite gaps_to_cons, open_gaps_cons, IH, !app_assoc. reflexivity.
Qed.

Section Entry.
Context (p : pline R) (second : bool) (eps : R).
Local Notation n := (vertex_count p).
Hypothesis He : 0 < eps.
Hypothesis VC : (2 <= n)%nat.
Context (k : nat) (a b : vertex R).
Hypothesis KA : nth_error (vtx p) k = Some a.
Hypothesis KB : nth_error (vtx p) ((k + 1) mod n)%nat = Some b.
Hypothesis SO : seg_ok a b.
Hypothesis CL : v2fuzzy_eq_eps (pos a) (pos b) eps = false.

Definition entry_place (x : place) : Prop := fst (fst x) = k /\ cut_ok a b eps (snd (fst x)) (sp_pos (snd x)).
Definition entry_order (x y : place) : Prop :=
  snd (fst x) <= snd (fst y) /\ crisp eps (sp_pos (snd x)) (sp_pos (snd y)) /\ (snd (fst x) < snd (fst y) -> part_ok a (snd (fst x)) (snd (fst y))).

Lemma k_lt : (k < n)%nat.
Proof. apply nth_error_Some. fold (vertex_count p). congruence. Qed.

Lemma within_between ps : forall x w, Forall entry_place (x :: ps) -> StronglySorted entry_order (x :: ps) ->
  rest_at a b (snd (fst x)) (sp_pos (snd x)) w ->
  Forall2 (between p) (filter free_gap (open_gaps (x :: ps))) (within_cands second eps k b w (snd x) (map snd ps)).
Proof.
  induction ps as [|y ps IH]; intros x w F S R; [constructor|].
  inversion F as [|? ? PX F']; subst. inversion F' as [|? ? PY _]; subst. inversion S as [|? ? S' O]; subst. inversion O as [|? ? OXY _]; subst.
  destruct x as [[kx t] sx]. destruct y as [[ky u] sy]. destruct PX as (EX & CX). destruct PY as (EY & CY). cbn [fst snd] in *. subst kx ky.
  destruct OXY as (LE & CR & PO). cbn [fst snd] in *.
  destruct (rest_next a b eps He SO CL t (sp_pos sx) w u (sp_pos sy) CX R CY LE CR) as (RN & PU & PI).
  set (split := seg_split_at_point w b (sp_pos sy) eps) in *.
  specialize (IH (k, u, sy) (split_vertex split) F' S' RN). cbn [snd] in IH.
  change (open_gaps ((k, t, sx) :: (k, u, sy) :: ps)) with (open_gap (k, t, sx) (k, u, sy) ++ open_gaps ((k, u, sy) :: ps)).
  cbn [map snd within_cands]. fold split. rewrite filter_app. apply Forall2_app; [|exact IH].
  assert (PS : pos (split_vertex split) = sp_pos sy) by apply RN.
  unfold open_gap, same_place. rewrite Nat.eqb_refl. cbn [andb].
  destruct (Req_EM_T t u) as [E|E].
  - cbn [filter]. destruct (sp_is_start sx); [constructor|]. rewrite PU, PS.
    assert (EQ : sp_pos sy = sp_pos sx). { destruct CX as (_ & QX & _). destruct CY as (_ & QY & _). apply (seg_at_unique a b u); [exact QY|rewrite <- E; exact QX|exact SO]. }
    rewrite EQ, fuzzy_refl by exact He. constructor.
  - cbn [filter]. unfold free_gap. cbn [fst snd]. destruct (sp_is_start sx); cbn [negb]; [constructor|]. rewrite PU, PS.
    assert (LT : t < u) by lra.
    assert (NE : sp_pos sx <> sp_pos sy).
    { intros C. apply E. destruct CX as (TX & QX & _). destruct CY as (TY & QY & _).
      apply (seg_at_inj a b t u (sp_pos sx)); auto; try lra; [exact (fuzzy_false_neq _ _ _ He CL)|rewrite C; exact QY]. }
    rewrite (crisp_false _ _ _ CR NE). constructor; [|constructor].
    destruct (PI LT) as (PIE & BO). specialize (BO (PO LT)).
    assert (SP : slice_pieces n k t k u = [(k, t, u)]).
    { unfold slice_pieces. rewrite Nat.eqb_refl. destruct (Rlt_dec t u); [reflexivity|contradiction]. }
    unfold between. rewrite SP. split.
    + cbn [fst bs_view]. replace (sp_pos sy) with (vd_end_point (VD k 0 (updated_start split) (pbulge (updated_start split)) (sp_pos sy) false)) by reflexivity.
      apply view_path_intro; cbn [vd_start_index vd_end_index_offset vd_inverted vd_updated_start vd_end_point vd_updated_end_bulge]; [apply k_lt|lia|reflexivity|reflexivity|exact PU|].
      apply (fwd_pieces_one (VD k 0 (updated_start split) (pbulge (updated_start split)) (sp_pos sy) false) p t u a b); cbn [vd_start_index vd_end_index_offset vd_end_point vd_updated_start]; auto.
      apply k_lt.
    + exists a, b, u. split; [exact KA|]. split; [exact KB|]. split; [reflexivity|]. cbn [snd].
      replace ((t + u) / 2) with (t + 1 / 2 * (u - t)) by field. apply (PIE (split_vertex split) PS).
      apply seg_midpoint_spec. split; [exact BO|]. intros _. rewrite PU, PS. exact NE.
Qed.

(** The slice to the next segment with cut points. *)
Lemma next_between x w y D j c e d : entry_place x -> rest_at a b (snd (fst x)) (sp_pos (snd x)) w ->
  (1 <= D <= n)%nat -> ((k + D) mod n)%nat = j -> fst (fst y) = j ->
  nth_error (vtx p) j = Some c -> nth_error (vtx p) ((j + 1) mod n)%nat = Some e ->
  seg_ok c e -> v2fuzzy_eq_eps (pos c) (pos e) eps = false -> cut_ok c e eps (snd (fst y)) (sp_pos (snd y)) ->
  (j = k -> snd (fst y) <= snd (fst x)) ->
  view_create p k (sp_pos (snd y)) j w D eps = Ret d ->
  between p (x, y) (from_open_pline_slice d (negb second) false, seg_midpoint w b).
Proof.
  intros (EX & CX) R LD EJ EY HC HE' SO' CL' CY LE VCR. destruct x as [[kx t] sx]. destruct y as [[ky u] sy]. cbn [fst snd] in *. subst kx ky.
  assert (SW := rest_seg a b eps He SO CL t (sp_pos sx) w CX R).
  destruct CY as (TY & QY & Y1 & Y2 & _). destruct R as (R1 & R2 & R3 & R4).
  destruct (view_create_spec p k j D t u w a b c e (sp_pos sy) eps) as (d' & ED & VP); auto; try lra.
  { apply k_lt. }
  { intros Z. apply (seg_at_0_inv c e u); auto. }
  rewrite VCR in ED. injection ED as <-. rewrite R1 in VP.
  assert (SP : slice_pieces n k t j u = (k, t, 1) :: mids n k (D - 1) ++ (if Rlt_dec 0 u then [(j, 0, u)] else [])).
  { unfold slice_pieces, mids. destruct CX as (TX & _).
    assert (EM : ((j + n - (k + 1)) mod n = D - 1)%nat).
    { pose proof k_lt as KL. rewrite <- EJ.
      destruct (Nat.ltb_spec (k + D) n) as [X|X].
      - rewrite (Nat.mod_small (k + D)) by exact X. replace (k + D + n - (k + 1))%nat with (D - 1 + 1 * n)%nat by lia. rewrite Nat.mod_add, Nat.mod_small by lia. reflexivity.
      - replace (k + D)%nat with (k + D - n + 1 * n)%nat by lia. rewrite Nat.mod_add, (Nat.mod_small (k + D - n)) by lia.
        replace (k + D - n + n - (k + 1))%nat with (D - 1)%nat by lia. apply Nat.mod_small. lia. }
    rewrite EM. destruct (Rlt_dec t 1) as [_|X]; [|lra].
    destruct (Nat.eqb_spec k j) as [X|X]; [|reflexivity]. destruct (Rlt_dec t u) as [Y|Y]; [specialize (LE (eq_sym X)); lra|reflexivity]. }
  unfold between. rewrite SP. split.
  - cbn [fst]. unfold from_open_pline_slice. cbn [bs_view]. replace (VD _ _ _ _ _ false) with d; [exact VP|].
    destruct VP as (_ & _ & VI & _). destruct d. cbn in VI. subst. reflexivity.
  - exists a, b, 1. split; [exact KA|]. split; [exact KB|]. split; [reflexivity|]. cbn [snd].
    replace ((t + 1) / 2) with (t + 1 / 2 * (1 - t)) by field. apply R2. apply seg_midpoint_spec. apply SW.
Qed.
End Entry.

(** ** All segments *)
Lemma ssorted_map {A B} (f : A -> B) (P : B -> B -> Prop) (Q : A -> A -> Prop) l : StronglySorted P (map f l) ->
  (forall x y, In x l -> In y l -> P (f x) (f y) -> Q x y) -> StronglySorted Q l.
Proof.
  induction l as [|x l IH]; intros S H; [constructor|]. cbn [map] in S. inversion S as [|? ? S' F]; subst. constructor.
  - apply IH; [exact S'|]. intros y z Y Z. apply H; right; assumption.
  - rewrite Forall_forall in *. intros y Y. apply H; [left; reflexivity|right; exact Y|]. apply F, in_map, Y.
Qed.

Lemma adjacent_sorted {A} (P : A -> A -> Prop) l : (forall i x y, nth_error l i = Some x -> nth_error l (S i) = Some y -> P x y) -> Sorted P l.
Proof.
  induction l as [|x l IH]; intros H; constructor.
  - apply IH. intros i a b HA HB. apply (H (S i) a b HA HB).
  - destruct l as [|y l]; constructor. apply (H 0%nat x y); reflexivity.
Qed.

Section All.
Context (p : pline R) (second : bool) (eps : R).
Local Notation n := (vertex_count p).
Hypothesis He : 0 < eps.
Hypothesis VC : (2 <= n)%nat.
Hypothesis CLO : is_closed p = true.
Hypothesis HC : clear_pline eps p.

Lemma seg_data k : (k < n)%nat -> exists a b, nth_error (vtx p) k = Some a /\ nth_error (vtx p) ((k + 1) mod n)%nat = Some b
  /\ nth_error (spec_segs (vtx p) (is_closed p)) k = Some (a, b) /\ seg_ok a b /\ v2fuzzy_eq_eps (pos a) (pos b) eps = false.
Proof.
  intros L. destruct (segs_at_intro p k VC L) as (a & b & E); [congruence|]. destruct (segs_at p k a b E) as (_ & _ & _ & EA & EB).
  destruct (HC a b (nth_error_In _ _ E)) as (SO & C). exists a, b. repeat split; auto; try apply SO. now apply clear_fuzzy.
Qed.

Context (cuts : list (nat * slice_point R)) (m : list (nat * list (slice_point R))).
Hypothesis CC : clear_cuts eps p cuts.
Hypothesis G : grouped cuts m.
Hypothesis KS : forall k l, In (k, l) m -> (k < n)%nat /\ exists v l0, nth_error (vtx p) k = Some v /\ l = isort (near_first v) l0.

Definition entry_ok (e : nat * list (slice_point R)) (ps : list place) : Prop :=
  exists a b, nth_error (vtx p) (fst e) = Some a /\ nth_error (vtx p) ((fst e + 1) mod n)%nat = Some b
  /\ seg_ok a b /\ v2fuzzy_eq_eps (pos a) (pos b) eps = false
  /\ map snd ps = snd e /\ Forall (entry_place eps (fst e) a b) ps /\ StronglySorted (entry_order eps a) ps.

Lemma entry_places k l : In (k, l) m -> exists ps, entry_ok (k, l) ps /\ Forall (placed p) ps.
Proof.
  intros I. destruct (KS k l I) as (KL & v & l0 & EV & EL). destruct (seg_data k KL) as (a & b & EA & EB & ES & SO & CL).
  assert (v = a) by congruence. subst v. destruct G as (_ & G1 & _). destruct (G1 k l I) as (_ & PM).
  assert (IC : forall sp, In sp l -> In (k, sp) cuts).
  { intros sp X. apply (Permutation_in _ PM) in X. apply in_map_iff in X as ([k' sp'] & E1 & X). apply filter_In in X as [X E2].
    cbn in E1, E2. apply Nat.eqb_eq in E2. subst. exact X. }
  assert (CUT : forall t sp, In sp l -> placed p (k, t, sp) -> (forall w, nth_error (vtx p) k = Some w -> part_ok w t 1) -> cut_ok a b eps t (sp_pos sp)).
  { intros t sp X (T1 & (a' & b' & E' & T2 & Q)) PO. rewrite ES in E'. injection E' as <- <-.
    destruct (proj1 CC k sp (IC sp X)) as (CV & _). split; [lra|]. split; [exact Q|]. split; [apply CV; exact (nth_error_In _ _ EA)|].
    split; [apply CV; exact (nth_error_In _ _ EB)|]. now apply PO. }
  assert (EX : exists ps, map snd ps = l /\ Forall (fun x : place => entry_place eps k a b x /\ placed p x) ps).
  { clear EL PM. revert IC CUT. clear I. induction l as [|sp l IH]; intros IC CUT; [exists []; split; [reflexivity|constructor]|].
    destruct IH as (ps & E & F); [intros x X; apply IC; right; exact X|intros t x X; apply CUT; right; exact X|].
    destruct (proj1 CC k sp (IC sp (or_introl eq_refl))) as (_ & t & PL & PO).
    exists ((k, t, sp) :: ps). cbn [map snd]. rewrite E. split; [reflexivity|]. constructor; [|exact F].
    split; [split; [reflexivity|]|exact PL]. cbn [fst snd]. apply CUT; [left; reflexivity|exact PL|exact PO]. }
  destruct EX as (ps & E & F). exists ps. split.
  - exists a, b. cbn [fst snd]. split; [exact EA|]. split; [exact EB|]. split; [exact SO|]. split; [exact CL|]. split; [exact E|].
    split; [eapply Forall_impl; [|exact F]; intros x X; apply X|].
    assert (SS : StronglySorted (fun x y : slice_point R => dist_squared (sp_pos x) (pos a) <= dist_squared (sp_pos y) (pos a)) l).
    { apply Sorted_StronglySorted; [intros x y z X Y; lra|]. apply adjacent_sorted. subst l. intros i x y X Y.
      assert (LB : near_first a x y = true).
      { apply (isort_ok (near_first a) l0) with (i := i); auto. intros x' y' _ _. unfold near_first. cbn [ntotal_cmp RNum]. unfold rtotal_cmp.
        repeat destruct (Rlt_dec _ _); cbn [cmp_leb]; try discriminate; try lra; try reflexivity. }
      revert LB. unfold near_first. cbn [ntotal_cmp RNum]. unfold rtotal_cmp. repeat destruct (Rlt_dec _ _); cbn [cmp_leb]; intros LB; try discriminate LB; lra. }
    rewrite <- E in SS. apply (ssorted_map _ _ _ _ SS). rewrite Forall_forall in F. intros [[kx t] sx] [[ky u] sy] X Y LE. cbn [snd fst] in *.
    destruct (F _ X) as ((EX & CX) & PX). destruct (F _ Y) as ((EY & CY) & PY). cbn [fst snd] in *. subst kx ky.
    assert (IX : In sx l) by (rewrite <- E; apply (in_map snd _ _ X)). assert (IY : In sy l) by (rewrite <- E; apply (in_map snd _ _ Y)).
    destruct (proj2 CC k sx sy (IC _ IX) (IC _ IY)) as (CR & PO). split; [|split; [exact CR|]].
    + cbn [fst snd]. destruct (Rle_dec t u) as [Z|Z]; [exact Z|]. exfalso.
      destruct CX as (TX & QX & _). destruct CY as (TY & QY & _).
      assert (D : dist_squared (pos a) (sp_pos sy) < dist_squared (pos a) (sp_pos sx)).
      { apply (chord_mono a b u t); auto; try lra. exact (fuzzy_false_neq _ _ _ He CL). }
      assert (SY : forall q r : vec2 R, dist_squared q r = dist_squared r q) by (intros; unfold dist_squared, v2dot, v2sub; cbn; rnum; ring).
      rewrite !(SY (pos a)) in D. lra.
    + cbn [fst snd]. intros LT. exact (PO t u a PX PY LT EA).
  - eapply Forall_impl; [|exact F]. intros x X. apply X.
Qed.

Lemma keys_unique k l l' : In (k, l) m -> In (k, l') m -> l = l'.
Proof.
  intros I I'. destruct G as (S & _). apply (map_get_In _ _ _ S) in I. apply (map_get_In _ _ _ S) in I'. congruence.
Qed.

(** One segment, and the slice from its last cut point [z] to the next [y]. *)
Lemma entry_step e ps z cs e2 y ps2 : In e m -> In e2 m -> entry_ok e (ps ++ [z]) -> entry_cands p second eps m e cs -> entry_ok e2 (y :: ps2) ->
  (forall D l, (1 <= D <= n)%nat -> (forall j, (1 <= j < D)%nat -> map_get ((fst e + j) mod n)%nat m = None) ->
     map_get ((fst e + D) mod n)%nat m = Some l -> ((fst e + D) mod n)%nat = fst e2 /\ l = snd e2) ->
  Forall2 (between p) (filter free_gap (open_gaps (ps ++ [z]) ++ [(z, y)])) cs.
Proof.
  intros I I2 (a & b & EA & EB & SO & CL & EM & FP & SP) (a' & b' & first & rest & lst & cl & EA' & EB' & ER & EL & -> & C) (a2 & b2 & EA2 & EB2 & SO2 & CL2 & EM2 & FP2 & _) NX.
  rewrite EA in EA'. injection EA' as <-. rewrite EB in EB'. injection EB' as <-.
  destruct e as [k l]. destruct e2 as [j l2]. cbn [fst snd] in *.
  rewrite filter_app. apply Forall2_app.
  - destruct (ps ++ [z]) as [|x qs] eqn:EQ; [destruct ps; discriminate|]. cbn [map] in EM. rewrite ER in EM. injection EM as EF ER'. subst first rest.
    apply (within_between p second eps He VC k a b EA EB SO CL qs x); auto.
    apply rest_first; auto. inversion FP as [|? ? [_ X] _]; subst. exact X.
  - assert (ELZ : lst = snd z). { rewrite <- EM, map_app, rev_app_distr in EL. cbn in EL. congruence. } subst lst.
    cbn [filter]. unfold free_gap. cbn [fst snd].
    destruct (sp_is_start (snd z)); cbn [negb].
    + subst cl. constructor.
    + destruct C as (c & -> & D & sp & l' & d & nv & LD & NONE & MG & VCR & ENV & ->). rewrite EB in ENV. injection ENV as <-.
      destruct (NX D (sp :: l') LD NONE MG) as (EJ & EL'). rewrite EJ in *. rewrite <- EL' in EM2. cbn [map] in EM2. injection EM2 as EY _. subst sp.
      assert (PZ : entry_place eps k a b z) by (clear - FP; apply Forall_app in FP as [_ FP]; inversion FP; assumption).
      assert (PY : entry_place eps j a2 b2 y) by (clear - FP2; inversion FP2; assumption).
      constructor; [|constructor].
      apply (next_between p second eps He VC k a b EA EB SO CL z (split_vertex (seg_split_at_point a b (sp_pos (snd z)) eps)) y D j a2 b2 d); auto; try apply PY.
      * apply rest_first; auto. apply PZ.
      * (* both on the same segment *)
        intros ->. assert (l = snd y :: l') by (rewrite EL'; eapply keys_unique; [exact I|exact I2]). rename H into EHL.
        rewrite EA in EA2. injection EA2 as <-. rewrite EB in EB2. injection EB2 as <-.
        destruct (ps ++ [z]) as [|x qs] eqn:EQ; [destruct ps; discriminate|]. rewrite EHL in EM. cbn [map] in EM. injection EM as EX _.
        assert (PX : entry_place eps k a b x) by (inversion FP; subst; assumption).
        assert (EXY : snd (fst x) = snd (fst y)).
        { destruct PX as (_ & TX & QX & _). destruct PY as (_ & TY & QY & _). apply (seg_at_inj a b _ _ (sp_pos (snd y))); auto; try lra.
          - exact (fuzzy_false_neq _ _ _ He CL).
          - rewrite <- EX. exact QX. }
        rewrite <- EXY. destruct ps as [|x' ps'].
        -- cbn in EQ. injection EQ as <- <-. lra.
        -- cbn [app] in EQ. injection EQ as <- <-. inversion SP as [|? ? _ F]; subst. rewrite Forall_forall in F.
           apply (F z). apply in_or_app. right. left. reflexivity.
Qed.

(** The next segment with cut points is the next entry, or after the last the first. *)
Lemma sorted_mid (l1 l2 : list nat) x : StronglySorted lt (l1 ++ x :: l2) -> (forall y, In y l1 -> (y < x)%nat) /\ (forall y, In y l2 -> (x < y)%nat).
Proof.
  induction l1 as [|a l1 IH]; intros S; cbn [app] in S; inversion S as [|? ? S' F]; subst; rewrite Forall_forall in F.
  - split; [intros y []|exact F].
  - destruct (IH S') as [A B]. split; [|exact B]. intros y [<-|Y]; [apply F, in_or_app; right; left; reflexivity|auto].
Qed.

Lemma map_get_lt k l : map_get k m = Some l -> (k < n)%nat.
Proof. intros E. destruct G as (S & _). apply (map_get_In _ _ _ S) in E. apply (KS k l E). Qed.

Lemma next_entry m1 k l j l2 m2 : m = m1 ++ (k, l) :: (j, l2) :: m2 ->
  forall D l', (1 <= D <= n)%nat -> (forall i, (1 <= i < D)%nat -> map_get ((k + i) mod n)%nat m = None) ->
     map_get ((k + D) mod n)%nat m = Some l' -> ((k + D) mod n)%nat = j /\ l' = l2.
Proof.
  intros EM D l' LD NONE MG. destruct G as (S & _). assert (S0 := S). rewrite EM, map_app in S. cbn [map fst] in S.
  destruct (sorted_mid _ _ _ S) as (_ & B1). assert (KJ : (k < j)%nat) by (apply B1; left; reflexivity).
  change (map fst m1 ++ k :: j :: map fst m2) with (map fst m1 ++ [k] ++ j :: map fst m2) in S. rewrite app_assoc in S.
  destruct (sorted_mid _ _ _ S) as (A & B).
  assert (IJ : In (j, l2) m) by (rewrite EM; apply in_or_app; right; right; left; reflexivity).
  assert (JL := proj1 (KS j l2 IJ)). assert (MJ : map_get j m = Some l2) by (apply map_get_In; auto).
  destruct (Nat.ltb_spec (j - k) D) as [X|X].
  { exfalso. assert (E := NONE (j - k)%nat ltac:(lia)). rewrite Nat.mod_small in E by lia. replace (k + (j - k))%nat with j in E by lia. congruence. }
  rewrite Nat.mod_small in MG |- * by lia.
  assert (IK : In (k + D)%nat (map fst m)) by (apply (map_get_In _ _ _ S0) in MG; apply (in_map fst) in MG; exact MG).
  rewrite EM, map_app in IK. cbn [map fst] in IK. apply in_app_or in IK. destruct IK as [Y|[Y|[Y|Y]]].
  - exfalso. specialize (A (k + D)%nat ltac:(apply in_or_app; left; exact Y)).
    change (map fst m1 ++ k :: j :: map fst m2) with (map fst m1 ++ k :: (j :: map fst m2)) in *.
    rewrite <- app_assoc in S. destruct (sorted_mid (map fst m1) (j :: map fst m2) k S) as (A' & _). specialize (A' _ Y). lia.
  - lia.
  - rewrite <- Y in *. split; [reflexivity|congruence].
  - specialize (B _ Y). lia.
Qed.

Lemma last_entry m1 k l k0 l0 m0 : m = m1 ++ [(k, l)] -> m = (k0, l0) :: m0 ->
  forall D l', (1 <= D <= n)%nat -> (forall i, (1 <= i < D)%nat -> map_get ((k + i) mod n)%nat m = None) ->
     map_get ((k + D) mod n)%nat m = Some l' -> ((k + D) mod n)%nat = k0 /\ l' = l0.
Proof.
  intros EM E0 D l' LD NONE MG. destruct G as (S & _). assert (S1 := S). assert (S2 := S). rewrite EM, map_app in S1. cbn [map fst] in S1.
  rewrite E0 in S2. cbn [map fst] in S2.
  destruct (sorted_mid _ _ _ S1) as (A & _). destruct (sorted_mid [] _ _ S2) as (_ & B).
  assert (KL : (k < n)%nat) by (apply (KS k l); rewrite EM; apply in_or_app; right; left; reflexivity).
  assert (I0 : In (k0, l0) m) by (rewrite E0; left; reflexivity).
  assert (K0 : (k0 <= k)%nat).
  { assert (I : In k0 (map fst m)) by (apply (in_map fst) in I0; exact I0). rewrite EM, map_app in I. cbn [map fst] in I. apply in_app_or in I as [I|[I|[]]]; [|lia].
    specialize (A _ I). lia. }
  assert (MK0 : map_get k0 m = Some l0) by (apply map_get_In; auto).
  assert (RANGE : forall x lx, map_get x m = Some lx -> (k0 <= x <= k)%nat).
  { intros x lx E. apply (map_get_In _ _ _ S) in E. apply (in_map fst) in E. cbn [fst] in E. assert (E' := E). rewrite EM, map_app in E. rewrite E0 in E'. cbn [map fst] in E, E'.
    split; [destruct E' as [<-|E']; [lia|]; specialize (B _ E'); lia|]. apply in_app_or in E as [E|[E|[]]]; [|lia]. specialize (A _ E). lia. }
  destruct (Nat.ltb_spec (n - k + k0) D) as [X|X].
  { exfalso. assert (E := NONE (n - k + k0)%nat ltac:(lia)). replace (k + (n - k + k0))%nat with (k0 + 1 * n)%nat in E by lia.
    rewrite Nat.mod_add, Nat.mod_small in E by lia. congruence. }
  assert (R := RANGE _ _ MG).
  destruct (Nat.ltb_spec (k + D) n) as [Y|Y].
  - rewrite Nat.mod_small in R by exact Y. lia.
  - replace (k + D)%nat with (k + D - n + 1 * n)%nat in * by lia. rewrite Nat.mod_add in MG, R |- * by lia. rewrite (Nat.mod_small (k + D - n)) in MG, R |- * by lia.
    assert (EK : (k + D - n = k0)%nat) by lia. rewrite EK in *. split; [reflexivity|congruence].
Qed.

Lemma split_last {A} (l : list A) x : exists l' z, x :: l = l' ++ [z].
Proof. destruct (exists_last (l := x :: l)) as (l' & z & E); [discriminate|]. eauto. Qed.

Lemma Forall2_cons_iff {A B} (P : A -> B -> Prop) x l y l' : Forall2 P (x :: l) (y :: l') <-> P x y /\ Forall2 P l l'.
Proof. split; [intros H; inversion H; auto|intros []; auto]. Qed.

Lemma all_between k0 l0 m0 first ps0 : m = (k0, l0) :: m0 -> entry_ok (k0, l0) (first :: ps0) ->
  forall es m1 css pss, m = m1 ++ es -> Forall2 (entry_cands p second eps m) es css -> Forall2 entry_ok es pss -> 
  Forall2 (between p) (filter free_gap (gaps_to first (concat pss))) (concat css).
Proof.
  intros E0 OK0 es. induction es as [|e es IH]; intros m1 css pss EM FC FO.
  - inversion FC; subst. inversion FO; subst. constructor.
  - destruct css as [|cs css']; [inversion FC|]. destruct pss as [|ps pss']; [inversion FO|].
    apply Forall2_cons_iff in FC as [EC FC']. apply Forall2_cons_iff in FO as [EO FO'].
    assert (NEE : forall e ps, In e m -> entry_ok e ps -> exists y ps', ps = y :: ps').
    { intros [kq lq] qs I (a & b & _ & _ & _ & _ & EMP & _). destruct G as (_ & G1 & _). destruct (G1 kq lq I) as (NE & _). cbn [snd] in EMP.
      destruct qs; [cbn in EMP; congruence|eauto]. }
    assert (IE : In e m) by (rewrite EM; apply in_or_app; right; left; reflexivity).
    destruct (NEE e ps IE EO) as (x & ps' & ->). destruct (split_last ps' x) as (la & z & EZ). cbn [concat]. rewrite EZ. rewrite EZ in EO.
    destruct es as [|e2 es'].
    + destruct css' as [|]; [|inversion FC']. destruct pss' as [|]; [|inversion FO']. cbn [concat]. rewrite !app_nil_r, gaps_to_open.
      destruct e as [k lk]. apply (entry_step (k, lk) la z cs (k0, l0) first ps0 IE); auto; [rewrite E0; left; reflexivity|].
      cbn [fst snd]. apply (last_entry m1 k lk k0 l0 m0); auto.
    + destruct pss' as [|ps2 pss2]; [inversion FO'|]. assert (EO2 : entry_ok e2 ps2) by (apply Forall2_cons_iff in FO' as [? _]; assumption).
      assert (IE2 : In e2 m) by (rewrite EM; apply in_or_app; right; right; left; reflexivity).
      destruct (NEE e2 ps2 IE2 EO2) as (y & ps2' & ->).
      specialize (IH (m1 ++ [e]) css' ((y :: ps2') :: pss2)). cbn [concat app] in IH |- *. rewrite <- app_assoc. rewrite gaps_to_app.
      rewrite app_assoc, filter_app. apply Forall2_app; [|apply IH; [rewrite <- app_assoc; exact EM|exact FC'|exact FO']].
      destruct e as [k lk]. destruct e2 as [j l2].
      replace (open_gap z y) with [(z, y)].
      * apply (entry_step (k, lk) la z cs (j, l2) y ps2' IE IE2 EO EC EO2). cbn [fst snd]. apply (next_entry m1 k lk j l2 es' EM).
      * assert (KZ : fst (fst z) = k). { destruct EO as (? & ? & _ & _ & _ & _ & _ & F & _). apply Forall_app in F as [_ F]. inversion F as [|? ? [X _] _]. exact X. }
        assert (KY : fst (fst y) = j). { destruct EO2 as (? & ? & _ & _ & _ & _ & _ & F & _). inversion F as [|? ? [X _] _]. exact X. }
        assert (KJ : (k < j)%nat). { destruct G as (S & _). rewrite EM, map_app in S. cbn [map fst] in S. destruct (sorted_mid _ _ _ S) as (_ & B). apply B. left. reflexivity. }
        unfold open_gap, same_place. destruct z as [[kz tz] sz]. destruct y as [[ky ty] sy]. cbn [fst] in KZ, KY. subst kz ky.
        destruct (Nat.eqb_spec k j) as [Z|Z]; [lia|reflexivity].
Qed.
End All.

(** ** The cut points in order *)
Lemma filter_split_perm {A} (f : A -> bool) l : Permutation (filter f l ++ filter (fun x => negb (f x)) l) l.
Proof.
  induction l as [|x l IH]; [constructor|]. cbn [filter]. destruct (f x); cbn [negb app]; [now constructor|].
  apply Permutation_sym, Permutation_cons_app, Permutation_sym, IH.
Qed.

Lemma filter_filter_key {A} (k k' : nat) (l : list (nat * A)) : k' <> k ->
  filter (fun c => Nat.eqb (fst c) k') (filter (fun c => negb (Nat.eqb (fst c) k)) l) = filter (fun c => Nat.eqb (fst c) k') l.
Proof.
  intros NE. induction l as [|[x y] l IH]; [reflexivity|]. cbn [filter fst]. destruct (Nat.eqb_spec x k) as [->|X]; cbn [negb].
  - destruct (Nat.eqb_spec k k') as [->|_]; [congruence|exact IH].
  - cbn [filter fst]. now rewrite IH.
Qed.

Lemma group_perm {A} (m : list (nat * list A)) : forall cuts : list (nat * A), StronglySorted lt (map fst m) ->
  (forall k l, In (k, l) m -> Permutation l (map snd (filter (fun c => Nat.eqb (fst c) k) cuts))) ->
  (forall k x, In (k, x) cuts -> exists l, In (k, l) m) ->
  Permutation (concat (map (fun e => map (pair (fst e)) (snd e)) m)) cuts.
Proof.
  induction m as [|[k l] m IH]; intros cuts S G1 G2.
  - destruct cuts as [|[k x] cuts]; [constructor|]. destruct (G2 k x (or_introl eq_refl)) as (l & []).
  - cbn [map fst] in S. inversion S as [|? ? S' F]; subst. rewrite Forall_forall in F.
    eapply perm_trans; [|apply (filter_split_perm (fun c => Nat.eqb (fst c) k))].
    cbn [map fst snd concat]. apply Permutation_app.
    + eapply perm_trans; [apply Permutation_map, (G1 k l), or_introl, eq_refl|]. rewrite map_map.
      rewrite <- (map_id (filter _ cuts)) at 2. rewrite (map_ext_in _ (fun x => x)); [reflexivity|].
      intros [k' x] I. apply filter_In in I as [_ E]. apply Nat.eqb_eq in E. cbn in E |- *. now subst.
    + apply IH; [exact S'| |].
      * intros k' l' I. rewrite filter_filter_key; [apply G1; right; exact I|]. apply (in_map fst) in I. specialize (F _ I). cbn in F. lia.
      * intros k' x I. apply filter_In in I as [I E]. cbn in E. destruct (G2 k' x I) as (l' & [E'|I']); [|eauto].
        injection E' as -> _. rewrite Nat.eqb_refl in E. discriminate.
Qed.

Lemma ssorted_app {A} (P : A -> A -> Prop) l1 l2 : StronglySorted P l1 -> StronglySorted P l2 -> (forall x y, In x l1 -> In y l2 -> P x y) ->
  StronglySorted P (l1 ++ l2).
Proof.
  induction l1 as [|x l1 IH]; intros S1 S2 H; [exact S2|]. inversion S1 as [|? ? S1' F]; subst. cbn [app]. constructor.
  - apply IH; auto. intros y z Y Z. apply H; [right; exact Y|exact Z].
  - apply Forall_app. split; [exact F|]. apply Forall_forall. intros y Y. apply H; [left; reflexivity|exact Y].
Qed.

Lemma entries_along p eps m pss : StronglySorted lt (map fst m) -> Forall2 (entry_ok p eps) m pss ->
  StronglySorted along (concat pss) /\ Forall (fun x : place => In (fst (fst x)) (map fst m)) (concat pss)
  /\ map (fun x : place => (fst (fst x), snd x)) (concat pss) = concat (map (fun e => map (pair (fst e)) (snd e)) m).
Proof.
  intros S F. induction F as [|[k l] ps m pss (a & b & _ & _ & _ & _ & EM & FP & SP) F IH]; [repeat constructor|].
  cbn [map fst snd] in *. inversion S as [|? ? S' FK]; subst. destruct (IH S') as (IH1 & IH2 & IH3).
  assert (KP : forall x : place, In x ps -> fst (fst x) = k). { rewrite Forall_forall in FP. intros x I. apply (FP x I). }
  cbn [concat]. split; [|split].
  - apply ssorted_app; [|exact IH1|].
    + clear - SP KP. induction SP as [|x ps S IH F]; constructor; [apply IH; intros y Y; apply KP; right; exact Y|].
      rewrite Forall_forall in *. intros y Y. destruct (F y Y) as (LE & _). assert (EX := KP x (or_introl eq_refl)). assert (EY := KP y (or_intror Y)).
      destruct x as [[kx t] sx]. destruct y as [[ky u] sy]. cbn [fst snd] in *. subst. right. auto.
    + intros x y X Y. rewrite Forall_forall in IH2, FK. specialize (FK _ (IH2 y Y)). rewrite <- (KP x X) in FK.
      destruct x as [[kx t] sx]. destruct y as [[ky u] sy]. cbn [fst snd] in *. left. exact FK.
  - apply Forall_app. split.
    + apply Forall_forall. intros x X. left. symmetry. now apply KP.
    + eapply Forall_impl; [|exact IH2]. intros x X. right. exact X.
  - rewrite map_app, IH3, map_map. f_equal. apply map_ext_in. intros x X. now rewrite (KP x X).
Qed.

(** C32: where the candidates run. *)
Theorem slices_between (p1 p2 : pline R) (second : bool) eps bs os o1 o2 :
  let p := if second then p2 else p1 in
  0 < eps -> (2 <= vertex_count p)%nat -> is_closed p = true -> clear_pline eps p ->
  (forall b, In b bs -> ((if second then bi_index2 b else bi_index1 b) < vertex_count p)%nat) ->
  (forall s, In s os -> ((if second then snd (os_start_indexes s) else fst (os_start_indexes s)) < vertex_count p)%nat
                        /\ ((if second then snd (os_end_indexes s) else fst (os_end_indexes s)) < vertex_count p)%nat) ->
  clear_cuts eps p (cut_points p eps second bs os) ->
  exists order cs, Permutation (map (fun x : place => (fst (fst x), snd x)) order) (cut_points p eps second bs os)
  /\ Forall (placed p) order /\ StronglySorted along order
  /\ Forall (candidate p1 p2 second) cs /\ Forall2 (between p) (filter free_gap (gaps order)) cs
  /\ forall pred g, (forall x, pred x = Ret (g x)) ->
     slice_at_intersects p (BInfo os bs o1 o2) second pred eps = Ret (map fst (filter (fun c => g (snd c)) cs)).
Proof.
  intros p He VC CLO HC HB HO CC.
  destruct (slice_at_spec p second eps VC bs os o1 o2 HB HO) as (m & css & G & K & F & E).
  assert (EX : forall es, incl es m -> exists pss, Forall2 (entry_ok p eps) es pss /\ Forall (placed p) (concat pss)).
  { induction es as [|[k l] es IH]; intros I; [exists []; split; constructor|].
    destruct IH as (pss & F1 & F2); [intros x X; apply I; right; exact X|].
    destruct (entry_places p eps He VC CLO HC _ m CC G K k l (I _ (or_introl eq_refl))) as (ps & O & P).
    exists (ps :: pss). split; [now constructor|]. cbn [concat]. now apply Forall_app. }
  destruct (EX m (incl_refl m)) as (pss & FO & FP). clear EX.
  assert (S := proj1 G). destruct (entries_along p eps m pss S FO) as (AL & _ & EM).
  exists (concat pss), (concat css).
  split; [rewrite EM; apply group_perm; [exact S|intros k l I; apply G; exact I|apply G]|].
  split; [exact FP|]. split; [exact AL|]. split.
  { apply Forall_concat, Forall_forall. intros cs I. destruct (Forall2_In_r _ _ _ F cs I) as (e & IE & H).
    apply (entry_candidates p1 p2 second eps VC m e cs); [|exact H]. destruct e as [k l]. apply (K k l IE). }
  split; [|exact E].
  destruct m as [|[k0 l0] m0]; [inversion FO; inversion F; subst; constructor|].
  destruct pss as [|ps0 pss]; [inversion FO|]. assert (O0 : entry_ok p eps (k0, l0) ps0) by (inversion FO; assumption).
  destruct ps0 as [|first ps0].
  { exfalso. destruct O0 as (? & ? & _ & _ & _ & _ & X & _). cbn in X. destruct G as (_ & G1 & _). destruct (G1 k0 l0 (or_introl eq_refl)) as (NE & _). congruence. }
  change (gaps (concat ((first :: ps0) :: pss))) with (gaps_to first (concat ((first :: ps0) :: pss))).
  apply (all_between p second eps He VC CLO _ _ G K k0 l0 m0 first ps0 eq_refl O0 ((k0, l0) :: m0) []); auto.
Qed.

(** ** An example: a square cut at two points, one of them twice on the way to a third *)
Lemma square_cuts :
  let p := PL [Vtx 0 0 0; Vtx 4 0 0; Vtx 4 4 0; Vtx 0 4 0] true in
  let bs := [BI 1 0 (V2 4 3); BI 1 1 (V2 4 1); BI 2 1 (V2 2 4)] in
  clear_pline (1 / 100000) p
  /\ cut_points p (1 / 100000) false bs [] = [(1%nat, SP (V2 4 3) false); (1%nat, SP (V2 4 1) false); (2%nat, SP (V2 2 4) false)]
  /\ clear_cuts (1 / 100000) p (cut_points p (1 / 100000) false bs []).
Proof.
  cbv zeta. split; [|split; [reflexivity|]].
  - intros v1 v2 H. simpl in H.
    repeat (destruct H as [H|H]; [injection H as <- <-; split; [split; [left; reflexivity|intros E; now destruct E]|cbn [px py]]|]);
      try contradiction.
    all: first [left; rabs_lra|right; rabs_lra].
  - assert (LINES : forall k v t u, nth_error (vtx (PL [Vtx 0 0 0; Vtx 4 0 0; Vtx 4 4 0; Vtx 0 4 0] true)) k = Some v -> part_ok v t u).
    { intros k v t u E. apply nth_error_In in E. simpl in E. left. repeat (destruct E as [E|E]; [subst v; reflexivity|]). destruct E. }
    split.
    + intros k sp H. split.
      * intros v Hv. cbn in H, Hv.
        destruct H as [[= <- <-]|[[= <- <-]|[[= <- <-]|[]]]]; destruct Hv as [<-|[<-|[<-|[<-|[]]]]]; right; unfold pos; cbn [px py vx vy sp_pos];
          first [left; rabs_lra|right; rabs_lra].
      * cbn in H. destruct H as [[= <- <-]|[[= <- <-]|[[= <- <-]|[]]]].
        -- exists (3 / 4). split; [|intros v; apply LINES]. split; [lra|]. exists (Vtx 4 0 0), (Vtx 4 4 0). split; [reflexivity|]. split; [lra|].
           left. split; [reflexivity|]. unfold line_pt, pos. cbn [px py vx vy sp_pos]. f_equal; lra.
        -- exists (1 / 4). split; [|intros v; apply LINES]. split; [lra|]. exists (Vtx 4 0 0), (Vtx 4 4 0). split; [reflexivity|]. split; [lra|].
           left. split; [reflexivity|]. unfold line_pt, pos. cbn [px py vx vy sp_pos]. f_equal; lra.
        -- exists (1 / 2). split; [|intros v; apply LINES]. split; [lra|]. exists (Vtx 4 4 0), (Vtx 0 4 0). split; [reflexivity|]. split; [lra|].
           left. split; [reflexivity|]. unfold line_pt, pos. cbn [px py vx vy sp_pos]. f_equal; lra.
    + intros k sp sp' H H'. split; [|intros t u v _ _ _; apply LINES]. cbn in H, H'.
      destruct H as [[= <- <-]|[[= <- <-]|[[= <- <-]|[]]]]; destruct H' as [[=]|[[=]|[[=]|[]]]]; subst; unfold crisp; cbn [sp_pos vx vy];
        first [left; reflexivity|right; left; rabs_lra|right; right; rabs_lra].
Qed.
