(** Loops without a common point are one inside the other or apart (C63). *)
From Coq Require Import Reals ZArith Bool List Arith Lra Lia Psatz Classical.
From Verif Require Import Num RNum Res ModelMath ModelSeg ModelPline ModelView ModelIndex ModelIntersects ModelBoolean.
From Verif Require Import Spec SpecPline SpecGeom SpecBox SpecWinding SpecView SpecPrune SpecRegion SpecBoolean SpecIndex SpecIntersects.
From Verif Require ProofBox3 ProofUi3 ProofShape.
From Verif Require Import ProofR ProofBase ProofIter ProofArc ProofBox2 ProofBoolean ProofWinding ProofWinding2 ProofWinding6 ProofWinding7 ProofRegion6 ProofRegion7 ProofRegion10 ProofRegion11.
Import ListNotations.
Local Open Scope R_scope.

(** ** The first point of a closed set along an interval *)
Lemma first_hit (P : R -> Prop) : (forall t, 0 <= t <= 1 -> ~ P t -> exists e, 0 < e /\ forall s, 0 <= s <= 1 -> Rabs (s - t) < e -> ~ P s) ->
  P 1 -> exists t, 0 <= t <= 1 /\ P t /\ forall s, 0 <= s < t -> ~ P s.
Proof.
  intros Op H1. destruct (classic (P 0)) as [H0|H0]; [exists 0; split; [lra|]; split; [exact H0|]; intros s Hs; lra|].
  set (E := fun t => 0 <= t <= 1 /\ forall s, 0 <= s <= t -> ~ P s).
  destruct (completeness E) as (m & UB & LB).
  - exists 1. intros t (Ht & _). lra.
  - exists 0. split; [lra|]. intros s Hs. replace s with 0 by lra. exact H0.
  - assert (M0 : 0 <= m) by (apply UB; split; [lra|]; intros s Hs; replace s with 0 by lra; exact H0).
    assert (M1 : m <= 1) by (apply LB; intros t (Ht & _); lra).
    assert (BF : forall s, 0 <= s < m -> ~ P s).
    { intros s Hs N. assert (m <= s); [|lra]. apply LB. intros t (Ht & K). destruct (Rle_dec t s) as [L|L]; [exact L|]. exfalso. apply (K s); [lra|exact N]. }
    exists m. split; [lra|]. split; [|exact BF]. apply NNPP. intros N. destruct (Op m ltac:(lra) N) as (e & He & K).
    destruct (Req_dec m 1) as [->|D]; [contradiction|].
    assert (C : E (Rmin 1 (m + e / 2))).
    { unfold E. pose proof (Rmin_l 1 (m + e / 2)). pose proof (Rmin_r 1 (m + e / 2)).
      split; [split; [apply Rmin_glb; lra|lra]|]. intros s Hs. destruct (Rlt_dec s m) as [L|L]; [apply BF; lra|]. apply K; [lra|]. rewrite Rabs_right; lra. }
    specialize (UB _ C). unfold Rmin in UB. destruct (Rle_dec 1 (m + e / 2)); lra.
Qed.

(** ** Straight lines and paths *)
Lemma line_near x y t s e : 0 < e -> Rabs (s - t) < e / (dist x y + 1) -> dist (line_pt x y t) (line_pt x y s) < e.
Proof.
  intros He Hs. assert (D0 : 0 <= dist x y) by apply sqrt_pos.
  assert (E : dist (line_pt x y t) (line_pt x y s) = Rabs (s - t) * dist x y).
  { unfold dist, line_pt. cbn [vx vy]. rewrite <- sqrt_Rsqr_abs. rewrite <- sqrt_mult by (try apply Rle_0_sqr; apply Rplus_le_le_0_compat; apply Rle_0_sqr).
    f_equal. unfold Rsqr. ring. }
  rewrite E. apply Rle_lt_trans with (Rabs (s - t) * (dist x y + 1)).
  - apply Rmult_le_compat_l; [apply Rabs_pos|lra].
  - apply Rlt_le_trans with (e / (dist x y + 1) * (dist x y + 1)).
    + apply Rmult_lt_compat_r; lra.
    + right. field. lra.
Qed.

Lemma path_open p x y t : pline_ok p -> ~ on_path p (line_pt x y t) -> exists e, 0 < e /\ forall s, Rabs (s - t) < e -> ~ on_path p (line_pt x y s).
Proof.
  intros Ok N. destruct (path_room p _ Ok N) as (e & He & K). assert (D0 : 0 <= dist x y) by apply sqrt_pos.
  exists (e / (dist x y + 1)). split; [apply Rdiv_lt_0_compat; lra|]. intros s Hs On. specialize (K _ On). pose proof (line_near x y t s e He Hs). lra.
Qed.

Lemma line_part x y t s : line_pt x (line_pt x y t) s = line_pt x y (s * t).
Proof. unfold line_pt. apply vec2_eq; cbn [vx vy]; ring. Qed.

Lemma wn_straight p x x' : pline_ok p -> (forall t, 0 <= t <= 1 -> ~ on_path p (line_pt x x' t)) -> wn p x = wn p x'.
Proof. intros Ok H. pose proof (winding_straight p x x' Ok H) as E. rewrite !winding_wn in E. now injection E. Qed.

Lemma wn_until p x y t : pline_ok p -> 0 <= t -> (forall s, 0 <= s <= t -> ~ on_path p (line_pt x y s)) -> wn p x = wn p (line_pt x y t).
Proof.
  intros Ok T H. apply wn_straight; [exact Ok|]. intros s Hs. rewrite line_part. apply H.
  split; [apply Rmult_le_pos; lra|]. rewrite <- (Rmult_1_l t) at 2. apply Rmult_le_compat_r; lra.
Qed.

(** ** Outside *)
Lemma wn_right p x : pline_ok p -> valid_loop p -> (forall q, on_path p q -> vx q < vx x) -> wn p x = 0%Z.
Proof.
  intros Ok (VC & CL) H. assert (O : ~ on_path p x) by (intros On; specialize (H x On); lra).
  unfold wn. rewrite winding_nw by assumption.
  assert (G : forall l, (forall s, In s l -> nw x s = 0%Z) -> zsum (map (nw x) l) = 0%Z).
  { induction l as [|s l IH]; intros Hl; [reflexivity|]. specialize (IH (fun s I => Hl s (or_intror I))). unfold zsum in *. cbn [map fold_right]. rewrite (Hl s (or_introl eq_refl)), IH. reflexivity. }
  apply G. intros [a b] I. apply nw_right; [exact (Ok a b I)|]. intros q On. apply H. exists a, b. auto.
Qed.

Lemma outside_both p1 p2 : pline_ok p1 -> pline_ok p2 -> valid_loop p1 -> valid_loop p2 ->
  exists z, ~ on_path p1 z /\ ~ on_path p2 z /\ wn p1 z = 0%Z /\ wn p2 z = 0%Z.
Proof.
  intros O1 O2 V1 V2'. destruct (path_right p1 O1) as (M1 & B1). destruct (path_right p2 O2) as (M2 & B2).
  exists (V2 (Rmax M1 M2) 0). pose proof (Rmax_l M1 M2). pose proof (Rmax_r M1 M2).
  split; [intros On; specialize (B1 _ On); cbn [vx] in *; lra|]. split; [intros On; specialize (B2 _ On); cbn [vx] in *; lra|].
  split; apply wn_right; auto; intros q On; [specialize (B1 q On)|specialize (B2 q On)]; cbn [vx]; lra.
Qed.

(** ** The winding number around the points of another path *)
Lemma chain_constant (f : vec2 R -> Z) segs : forall v0, ProofBox3.chain v0 segs ->
  (forall v1 v2, In (v1, v2) segs -> seg_ok v1 v2 /\ forall q q', on_seg v1 v2 q -> on_seg v1 v2 q' -> f q = f q') ->
  forall v1 v2 q, In (v1, v2) segs -> on_seg v1 v2 q -> f q = f (pos v0).
Proof.
  induction segs as [|[a b] t IH]; intros v0 C H v1 v2 q I On; [destruct I|]. destruct C as (-> & C).
  destruct (H v0 b (or_introl eq_refl)) as (Ok & K). destruct (on_seg_ends v0 b Ok) as (P & Q).
  destruct I as [[= <- <-]|I]; [now apply K|].
  rewrite (IH b C (fun x y J => H x y (or_intror J)) v1 v2 q I On). now apply K.
Qed.

(** It is the same around all points of a path that does not meet the first. *)
Lemma wn_along p p' : pline_ok p -> pline_ok p' -> (forall q, ~ (on_path p q /\ on_path p' q)) ->
  forall q v0, nth_error (vtx p') 0 = Some v0 -> on_path p' q -> wn p q = wn p (pos v0).
Proof.
  intros Ok Ok' Ap q v0 E0 (v1 & v2 & I & On).
  apply (chain_constant (wn p) (spec_segs (vtx p') (is_closed p')) v0) with (v1 := v1) (v2 := v2); [| |exact I|exact On].
  - destruct (vtx p') as [|a t]; [discriminate|]. cbn in E0. injection E0 as <-. apply (ProofBox3.chain_spec_segs _ _ a t). reflexivity.
  - intros w1 w2 J. split; [now apply Ok'|]. intros r r' (t & Ht & Hr) (t' & Ht' & Hr').
    assert (OFF : forall s x, 0 <= s <= 1 -> seg_at w1 w2 s x -> ~ on_path p x).
    { intros s x Hs Hx N. apply (Ap x). split; [exact N|]. exists w1, w2. split; [exact J|]. exists s. auto. }
    destruct (Rle_dec t t') as [L|L].
    + apply (stretch p w1 w2 t t'); auto. intros s x Hs. apply OFF. lra.
    + symmetry. apply (stretch p w1 w2 t' t); auto; [lra|]. intros s x Hs. apply OFF. lra.
Qed.

Section Nest.
Variables p1 p2 : pline R.
Hypothesis ok1 : pline_ok p1.
Hypothesis ok2 : pline_ok p2.
Hypothesis vl1 : valid_loop p1.
Hypothesis vl2 : valid_loop p2.
Hypothesis ap : forall q, ~ (on_path p1 q /\ on_path p2 q).

(** A point inside the first loop is around the second as the first loop is, if the second is outside of the first. *)
Lemma inside_with x a b : nth_error (vtx p1) 0 = Some a -> nth_error (vtx p2) 0 = Some b ->
  wn p1 (pos b) = 0%Z -> ~ on_path p1 x -> ~ on_path p2 x -> wn p1 x <> 0%Z -> wn p2 x = wn p2 (pos a).
Proof.
  intros E1 E2 Z0 O1 O2 W.
  destruct (outside_both p1 p2 ok1 ok2 vl1 vl2) as (z & N1 & N2 & W1 & W2).
  assert (H : exists t, 0 <= t <= 1 /\ on_path p1 (line_pt x z t)).
  { apply NNPP. intros N. apply W. rewrite <- W1. apply wn_straight; [exact ok1|]. intros t Ht On. apply N. eauto. }
  destruct H as (t0 & Ht0 & On0).
  destruct (first_hit (fun t => on_path p1 (line_pt x z (t * t0)))) as (t & Ht & Ont & Bef).
  - intros t Ht N. destruct (path_open p1 x z (t * t0) ok1 N) as (e & He & K). exists e. split; [exact He|].
    intros s Hs Hd. apply K. rewrite <- Rmult_minus_distr_r, Rabs_mult, (Rabs_right t0) by lra.
    apply Rle_lt_trans with (Rabs (s - t) * 1); [apply Rmult_le_compat_l; [apply Rabs_pos|lra]|lra].
  - rewrite Rmult_1_l. exact On0.
  - set (y := line_pt x z (t * t0)) in *.
    assert (B : forall s, 0 <= s < 1 -> ~ on_path p1 (line_pt x y s)).
    { intros s Hs. unfold y. rewrite line_part. replace (s * (t * t0)) with ((s * t) * t0) by ring.
      destruct (Req_dec t 0) as [->|D].
      - replace (s * 0 * t0) with 0 by ring. replace (line_pt x z 0) with x by (unfold line_pt; apply vec2_eq; cbn; ring). exact O1.
      - apply Bef. split; [apply Rmult_le_pos; lra|]. rewrite <- (Rmult_1_l t) at 2. apply Rmult_lt_compat_r; lra. }
    rewrite (wn_straight p2 x y ok2).
    + apply (wn_along p2 p1 ok2 ok1) with (v0 := a); auto. intros q (Q2 & Q1). apply (ap q). auto.
    + intros s Hs On. destruct (Req_dec s 1) as [->|D].
      * replace (line_pt x y 1) with y in On by (unfold line_pt; apply vec2_eq; cbn; ring). apply (ap y). auto.
      * assert (Q : wn p1 (line_pt x y s) = 0%Z).
        { rewrite (wn_along p1 p2 ok1 ok2 ap _ b E2 On). exact Z0. }
        apply W. rewrite <- Q. apply wn_until; [exact ok1|lra|]. intros r Hr. apply B. lra.
Qed.

(** The loops are not each inside the other. *)
Lemma not_both a b : nth_error (vtx p1) 0 = Some a -> nth_error (vtx p2) 0 = Some b ->
  wn p1 (pos b) = 0%Z \/ wn p2 (pos a) = 0%Z.
Proof.
  intros E1 E2. destruct (outside_both p1 p2 ok1 ok2 vl1 vl2) as (z & N1 & N2 & W1 & W2).
  assert (Oa : on_path p1 (pos a)).
  { apply ProofUi3.vertex_on_path; [exact ok1| |eapply nth_error_In; exact E1]. destruct vl1 as (L & _). intros N. apply ProofShape.spec_segs_none in N. unfold vertex_count in L. lia. }
  destruct (first_hit (fun t => on_path p1 (line_pt z (pos a) t) \/ on_path p2 (line_pt z (pos a) t))) as (t & Ht & Ont & Bef).
  - intros t Ht N. destruct (path_open p1 z (pos a) t ok1) as (e & He & K); [tauto|]. destruct (path_open p2 z (pos a) t ok2) as (e' & He' & K'); [tauto|].
    exists (Rmin e e'). split; [now apply Rmin_pos|]. intros s Hs Hd [On|On]; [apply (K s)|apply (K' s)]; auto;
      (eapply Rlt_le_trans; [exact Hd|]); [apply Rmin_l|apply Rmin_r].
  - left. replace (line_pt z (pos a) 1) with (pos a) by (unfold line_pt; apply vec2_eq; cbn; ring). exact Oa.
  - set (y := line_pt z (pos a) t) in *.
    assert (U : forall p, pline_ok p -> ~ on_path p y -> (forall s, 0 <= s < t -> ~ on_path p (line_pt z (pos a) s)) -> wn p z = wn p y).
    { intros p Ok N H. apply wn_until; [exact Ok|lra|]. intros s Hs. destruct (Req_dec s t) as [->|D]; [exact N|apply H; lra]. }
    destruct Ont as [On|On].
    + right. rewrite <- W2. rewrite (U p2 ok2); [symmetry; apply (wn_along p2 p1 ok2 ok1); auto; intros q (Q2 & Q1); apply (ap q); auto|intros N; apply (ap y); auto|].
      intros s Hs N. apply (Bef s Hs). auto.
    + left. rewrite <- W1. rewrite (U p1 ok1); [symmetry; apply (wn_along p1 p2 ok1 ok2); auto|intros N; apply (ap y); auto|].
      intros s Hs N. apply (Bef s Hs). auto.
Qed.
End Nest.

(** The relation computed from the first vertexes is that of the loops. *)
Lemma relation_right p1 p2 a b : pline_ok p1 -> pline_ok p2 -> valid_loop p1 -> valid_loop p2 -> (forall q, ~ (on_path p1 q /\ on_path p2 q)) ->
  nth_error (vtx p1) 0 = Some a -> nth_error (vtx p2) 0 = Some b ->
  related (fun p x => ~ on_path p1 x /\ ~ on_path p2 x /\ inside p x = true) (relation (wn p2 (pos a)) (wn p1 (pos b))) p1 p2.
Proof.
  intros O1 O2 V1 V2' Ap E1 E2. assert (Ap' : forall q, ~ (on_path p2 q /\ on_path p1 q)) by (intros q (Q2 & Q1); apply (Ap q); auto).
  assert (IW : forall p x, inside p x = true <-> wn p x <> 0%Z).
  { intros p x. rewrite inside_wn. destruct (Z.eqb_spec (wn p x) 0); cbn; split; intros; congruence. }
  pose proof (fun x => inside_with p1 p2 O1 O2 V1 V2' Ap x a b E1 E2) as H12.
  pose proof (fun x => inside_with p2 p1 O2 O1 V2' V1 Ap' x b a E2 E1) as H21.
  pose proof (not_both p1 p2 O1 O2 V1 V2' Ap a b E1 E2) as NB.
  unfold relation. destruct (Z.eqb_spec (wn p2 (pos a)) 0) as [Za|Za]; cbn [negb related].
  - destruct (Z.eqb_spec (wn p1 (pos b)) 0) as [Zb|Zb]; cbn [negb related].
    + intros x ((N1 & N2 & I1) & (_ & _ & I2)). apply IW in I1, I2. apply I2. rewrite (H12 x); auto.
    + intros x (N1 & N2 & I). split; [exact N1|]. split; [exact N2|]. apply IW in I. apply IW. rewrite (H21 x); auto.
  - destruct NB as [Zb|C]; [|contradiction]. intros x (N1 & N2 & I). split; [exact N1|]. split; [exact N2|]. apply IW in I. apply IW. rewrite (H12 x); auto.
Qed.

(** An operation on loops without a common point, none reported, gives the region of the operation. *)
Theorem region_apart mk (p1 p2 : pline R) op idx eps boxes :
  index_of boxes idx -> length boxes = length (spec_segs (vtx p1) (is_closed p1)) ->
  valid_loop p1 -> valid_loop p2 -> pline_ok p1 -> pline_ok p2 -> (forall q, ~ (on_path p1 q /\ on_path p2 q)) ->
  find_intersects p1 p2 idx eps = Ret ([], []) ->
  exists r, polyline_boolean mk p1 p2 op idx eps = Ret r
  /\ (forall l, In l (br_pos r ++ br_neg r) -> brp_pline l = p1 \/ brp_pline l = p2)
  /\ forall x, ~ on_path p1 x -> ~ on_path p2 x ->
     (region (fun p y => inside p y = true) r x <-> operation op (inside p1 x = true) (inside p2 x = true)).
Proof.
  intros IO BL V1 V2' O1 O2 Ap EF.
  destruct (boolean_whole mk p1 p2 op idx eps boxes IO BL V1 V2') as (bs & os & sl & a & b & w12 & w21 & EF' & EJ & E1 & E2 & W12 & W21 & H).
  rewrite EF in EF'. injection EF' as <- <-. cbn in EJ. injection EJ as <-. cbv zeta in H. destruct H as (_ & H). specialize (H eq_refl eq_refl).
  rewrite winding_wn in W12, W21. injection W12 as <-. injection W21 as <-.
  pose proof (relation_right p1 p2 a b O1 O2 V1 V2' Ap E1 E2) as RL. set (info := relation _ _) in *.
  pose proof (whole_region _ op info p1 p2 RL) as WR.
  destruct (whole_loops op info p1 p2) as (ps, ns) eqn:EW. eexists. split; [exact H|]. split.
  - cbn [br_pos br_neg]. rewrite <- map_app. intros l I. apply in_map_iff in I. destruct I as (q & <- & I). cbn [brp_pline].
    assert (G : In q (fst (whole_loops op info p1 p2) ++ snd (whole_loops op info p1 p2))) by (rewrite EW; exact I).
    clear - G. destruct op, info; cbn in G; intuition.
  - intros x N1 N2. specialize (WR x). unfold region in *. cbn [br_pos br_neg] in *.
    assert (D : forall p, (~ on_path p1 x /\ ~ on_path p2 x /\ inside p x = true) \/ ~ (~ on_path p1 x /\ ~ on_path p2 x /\ inside p x = true)) by (intros p; apply classic).
    specialize (WR (D p1) (D p2)).
    assert (Q : forall p, (~ on_path p1 x /\ ~ on_path p2 x /\ inside p x = true) <-> inside p x = true) by (intros p; tauto).
    assert (QE : forall l : list (boolean_result_pline R), (exists s, In s l /\ ~ on_path p1 x /\ ~ on_path p2 x /\ inside (brp_pline s) x = true) <-> (exists s, In s l /\ inside (brp_pline s) x = true)).
    { intros l. split; intros (s & I & J); exists s; tauto. }
    rewrite !QE in WR. rewrite WR. destruct op; cbn [operation]; rewrite !Q; reflexivity.
Qed.

Lemma relation_winding p1 p2 a b w12 w21 : pline_ok p1 -> pline_ok p2 -> valid_loop p1 -> valid_loop p2 -> (forall q, ~ (on_path p1 q /\ on_path p2 q)) ->
  nth_error (vtx p1) 0 = Some a -> nth_error (vtx p2) 0 = Some b -> winding_number p2 (pos a) = Ret w12 -> winding_number p1 (pos b) = Ret w21 ->
  related (fun p x => ~ on_path p1 x /\ ~ on_path p2 x /\ inside p x = true) (relation w12 w21) p1 p2.
Proof.
  intros O1 O2 V1 V2' Ap E1 E2 W1 W2. rewrite winding_wn in W1, W2. injection W1 as <-. injection W2 as <-. now apply relation_right.
Qed.
