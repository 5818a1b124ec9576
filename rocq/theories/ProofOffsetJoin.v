(** Joining raw offset segments (C47): notions and trimming of arcs. *)
From Coq Require Import Reals ZArith Bool List Arith Lra Lia Psatz.
From Verif Require Import Num RNum Res ModelMath ModelIntr ModelSeg ModelPline ModelView ModelSegIntr ModelIndex ModelIntersects ModelBoolean ModelOffset.
From Verif Require Import Spec SpecGeom SpecIntr SpecOffset SpecSegIntr SpecOffsetJoin.
From Verif Require Import ProofR ProofBase ProofIter ProofArc ProofArc2 ProofSlice ProofIntr ProofRepeat ProofMeasure ProofClosest ProofRedundantR ProofSegIntr ProofSegIntr2 ProofSegIntr5 ProofOffset1.
Import ListNotations.
Local Open Scope R_scope.


Lemma put_ok p v eps : put eps (vtx p) v (vtx (add_or_replace_vertex p v eps)).
Proof.
  destruct p as [vs cl]. cbn [vtx]. destruct vs as [|v0 t] eqn:EV.
  - right. split; [intros [|] ?; discriminate|reflexivity].
  - rewrite <- EV. assert (Hne : vs <> []) by (rewrite EV; discriminate). clear EV.
    destruct (exists_last Hne) as (pre & w & ->). rewrite add_or_replace_vertex_snoc. cbn [vtx].
    destruct (v2fuzzy_eq_eps (pos w) (pos v) eps) eqn:E.
    + left. exists pre, w. split; [reflexivity|]. split; [now apply is_point_R|reflexivity].
    + right. split.
      * intros pre' w' E'. apply app_inj_tail in E' as [_ <-]. rewrite is_point_R. congruence.
      * rewrite <- app_assoc. reflexivity.
Qed.

Lemma put_closed (p : pline R) v eps : is_closed (add_or_replace_vertex p v eps) = is_closed p.
Proof.
  unfold add_or_replace_vertex, add_vertex. destruct (rev (vtx p)) as [|l t]; [reflexivity|].
  destruct (v2fuzzy_eq_eps _ _ _); reflexivity.
Qed.

(** Entering an arc at a point [x] of it. *)
Lemma seg_at_ends v1 v2 t p u q : seg_ok v1 v2 -> pbulge v1 <> 0 -> seg_at v1 v2 t p -> seg_at v1 v2 u q ->
  forall b, sweep b = (u - t) * sweep (pbulge v1) ->
  let c := centre_of (pos v1) (pos v2) (pbulge v1) in let r := radius_of (pos v1) (pos v2) (pbulge v1) in
  is_arc p q b c r (angle c (pos v1) + t * sweep (pbulge v1)).
Proof.
  intros Hok Hb Hp Hq b Eb c r. assert (HP : pos v1 <> pos v2) by (apply Hok, Hb).
  pose proof (radius_pos _ _ _ HP Hb) as Hr. fold r in Hr.
  apply (seg_at_arc v1 v2 t p HP Hb) in Hp. apply (seg_at_arc v1 v2 u q HP Hb) in Hq. fold c r in Hp, Hq.
  split; [lra|]. split; [exact Hp|]. rewrite Hq. f_equal. rewrite Eb. ring.
Qed.

Lemma sweep_from_angle th : - PI <= th <= PI -> sweep (bulge_from_angle th) = th.
Proof. intros H. pose proof PI_pos. unfold bulge_from_angle. rnum. apply sweep_tan. lra. Qed.

Lemma bulge_pos_R (v : vertex R) : bulge_is_pos v = rltb 0 (pbulge v).
Proof. reflexivity. Qed.

(** The turn between two points of an arc, measured from its centre: it is found, unless it is half a
    turn to the right, when it has the wrong sign. *)
Lemma turn_between v1 v2 t p u q : seg_ok v1 v2 -> pbulge v1 <> 0 -> 0 <= t -> t < u -> u <= 1 ->
  seg_at v1 v2 t p -> seg_at v1 v2 u q ->
  let c := centre_of (pos v1) (pos v2) (pbulge v1) in
  let th := delta_angle (angle c p) (angle c q) in
  (Bool.eqb (rltb 0 th) (rltb 0 (pbulge v1)) = true /\ th = (u - t) * sweep (pbulge v1) /\ - PI <= th <= PI)
  \/ (Bool.eqb (rltb 0 th) (rltb 0 (pbulge v1)) = false /\ t = 0 /\ u = 1 /\ th = PI).
Proof.
  intros Hok Hb H0 H1 H2 Hp Hq c th. assert (HP : pos v1 <> pos v2) by (apply Hok, Hb).
  set (r := radius_of (pos v1) (pos v2) (pbulge v1)).
  assert (Hr : 0 < r) by (apply radius_pos; assumption).
  apply (seg_at_arc v1 v2 t p HP Hb) in Hp. apply (seg_at_arc v1 v2 u q HP Hb) in Hq. fold c r in Hp, Hq.
  set (s := sweep (pbulge v1)) in *. set (a := angle c (pos v1)) in *.
  assert (HB : - PI <= s <= PI).
  { apply sweep_bound. destruct Hok as [[E|[_ E]] _]; [contradiction|exact E]. }
  assert (Hs : s <> 0) by (now apply sweep_nonzero).
  pose proof PI_pos as HPI.
  assert (C : congr ((u - t) * s) (angle c q - angle c p)).
  { destruct (angle_congr c r (a + t * s) Hr) as [k K]. rewrite <- Hp in K.
    destruct (angle_congr c r (a + u * s) Hr) as [m M]. rewrite <- Hq in M.
    exists (k - m)%Z. rewrite minus_IZR. lra. }
  assert (SG : rltb 0 (pbulge v1) = rltb 0 s).
  { unfold s, sweep. destruct (Rtotal_order (pbulge v1) 0) as [L|[E|L]]; [|contradiction|].
    - pose proof (sweep_neg _ L) as G. unfold sweep in G. destruct (rltb_spec 0 (pbulge v1)), (rltb_spec 0 (4 * atan (pbulge v1))); try reflexivity; lra.
    - pose proof (sweep_pos _ L) as G. unfold sweep in G. destruct (rltb_spec 0 (pbulge v1)), (rltb_spec 0 (4 * atan (pbulge v1))); try reflexivity; lra. }
  rewrite SG.
  destruct (Req_dec ((u - t) * s) (- PI)) as [E|E].
  - right. assert (u - t = 1 /\ s = - PI) as [U S] by (split; nra).
    assert (ET : th = PI).
    { unfold th. apply delta_angle_unique; [|lra]. eapply congr_trans; [|exact C]. exists 1%Z. rewrite E. lra. }
    rewrite ET. destruct (rltb_spec 0 PI), (rltb_spec 0 s); try lra.
  - left. assert (- PI < (u - t) * s <= PI) by nra.
    assert (ET : th = (u - t) * s) by (unfold th; now apply delta_angle_unique).
    rewrite ET. split; [|split; [reflexivity|lra]].
    destruct (rltb_spec 0 ((u - t) * s)), (rltb_spec 0 s); try reflexivity; nra.
Qed.

Lemma drawn_ok v1 v2 t u w x : seg_ok v1 v2 -> pbulge v1 <> 0 -> drawn v1 v2 t u w x ->
  let c := centre_of (pos v1) (pos v2) (pbulge v1) in let r := radius_of (pos v1) (pos v2) (pbulge v1) in
  is_arc (pos w) (pos x) (pbulge w) c r (angle c (pos v1) + t * sweep (pbulge v1)).
Proof. intros Hok Hb (A & B & C) c r. apply (seg_at_ends v1 v2 t (pos w) u (pos x) Hok Hb A B). exact C. Qed.

Lemma sweep_zero_iff b : sweep b = 0 <-> b = 0.
Proof.
  split; [|intros ->; unfold sweep; rewrite atan_0; ring]. intros E. destruct (Req_dec b 0) as [|N]; [assumption|].
  exfalso. now apply (sweep_nonzero b).
Qed.

Lemma drawn_bulge v1 v2 t u w x : pbulge v1 <> 0 -> t < u -> drawn v1 v2 t u w x -> pbulge w <> 0 /\ rltb 0 (pbulge w) = rltb 0 (pbulge v1).
Proof.
  intros Hb Ht (_ & _ & E). pose proof (sweep_nonzero _ Hb) as N. split.
  - intros Z. apply sweep_zero_iff in Z. rewrite Z in E. symmetry in E. apply Rmult_integral in E. lra.
  - destruct (Rtotal_order (pbulge v1) 0) as [L|[Z|L]]; [|contradiction|].
    + pose proof (sweep_neg _ L). assert (sweep (pbulge w) < 0) by (rewrite E; nra).
      destruct (rltb_spec 0 (pbulge w)) as [P|P], (rltb_spec 0 (pbulge v1)) as [Q|Q]; try reflexivity; try lra.
      pose proof (sweep_pos _ P). lra.
    + pose proof (sweep_pos _ L). assert (0 < sweep (pbulge w)) by (rewrite E; nra).
      destruct (rltb_spec 0 (pbulge w)) as [P|P], (rltb_spec 0 (pbulge v1)) as [Q|Q]; try reflexivity; try lra.
      exfalso. destruct (Rtotal_order (pbulge w) 0) as [P'|[P'|P']]; [pose proof (sweep_neg _ P'); lra| |lra]. rewrite P' in H0. assert (sweep 0 = 0) by now apply sweep_zero_iff. lra.
Qed.

Lemma pos_vertex_at p b : pos (vertex_at p b) = p.
Proof. destruct p. reflexivity. Qed.

Lemma drawn_distinct v1 v2 t u w x : seg_ok v1 v2 -> pbulge v1 <> 0 -> 0 <= t -> t < u -> u <= 1 -> drawn v1 v2 t u w x -> pos w <> pos x.
Proof.
  intros Hok Hb H0 H1 H2 (A & B & _) E. rewrite E in A.
  assert (t = u) by (apply (seg_at_inj v1 v2 t u (pos x) Hok); [apply Hok, Hb|lra|lra|exact A|exact B]). lra.
Qed.

(** Entering an arc at one of its points. *)
Lemma enter_arc u1 u2 x t : seg_ok u1 u2 -> pbulge u1 <> 0 -> 0 <= t -> t < 1 -> seg_at u1 u2 t x ->
  let c := centre_of (pos u1) (pos u2) (pbulge u1) in
  let th := delta_angle (angle c x) (angle c (pos u2)) in
  drawn u1 u2 t 1 (vertex_at x (if Bool.eqb (rltb 0 th) (rltb 0 (pbulge u1)) then bulge_from_angle th else pbulge u1)) u2.
Proof.
  intros Hok Hb H0 H1 Hx c th. pose proof (seg_at_1 u1 u2 Hok) as H2. unfold drawn. rewrite pos_vertex_at.
  split; [exact Hx|]. split; [exact H2|]. cbn [vertex_at pbulge].
  destruct (turn_between u1 u2 t x 1 (pos u2) Hok Hb H0 H1 (Rle_refl 1) Hx H2) as [(E & V & B)|(E & V & _)]; fold c th in E; rewrite E.
  - fold c th in V, B. rewrite sweep_from_angle by exact B. exact V.
  - rewrite V. ring.
Qed.

(** Shortening the arc from [w] to the end of the segment at its point [x]. *)
Lemma trim_arc v1 v2 tw tx w x pre cl eps : seg_ok v1 v2 -> pbulge v1 <> 0 -> 0 <= tw -> tw < tx -> tx <= 1 ->
  drawn v1 v2 tw 1 w v2 -> seg_at v1 v2 tx x -> 1 / 100000000 <= Rabs (pbulge w) -> ~ is_point (pos w) (pos v2) eps ->
  exists b, trim_previous_arc (PL (pre ++ [w]) cl) v2 (centre_of (pos v1) (pos v2) (pbulge v1)) x eps = Ret (PL (pre ++ [with_bulge w b]) cl)
    /\ forall x', pos x' = x -> drawn v1 v2 tw tx (with_bulge w b) x'.
Proof.
  intros Hok Hb H0 H1 H2 Hw Hx Hwb Hwp. set (c := centre_of (pos v1) (pos v2) (pbulge v1)).
  unfold trim_previous_arc. rewrite last_snoc_pline. cbn [rbind unwrap].
  assert (Z : bulge_is_zero w = false).
  { unfold bulge_is_zero, fuzzy_eq_zero, fuzzy_eq_zero_eps. rnum. destruct (rltb_spec (Rabs (pbulge w)) (1 / 100000000)) as [L|L]; [lra|].
    destruct (rltb_spec (Rabs (pbulge w)) (nfuzzy_epsilon (Num:=RNum))) as [L'|L']; [|reflexivity]. unfold nfuzzy_epsilon in L'. cbn in L'. lra. }
  rewrite Z, (not_point_R _ _ _ Hwp). cbn [negb andb].
  assert (H3 : tw < 1) by lra.
  destruct (drawn_bulge v1 v2 tw 1 w v2 Hb H3 Hw) as [Bw Sw].
  pose proof (drawn_distinct v1 v2 tw 1 w v2 Hok Hb H0 H3 (Rle_refl 1) Hw) as Dw.
  rewrite (arc_radius_and_center_eq w v2 Dw Bw). cbn [snd].
  pose proof (drawn_ok v1 v2 tw 1 w v2 Hok Hb Hw) as HA.
  destruct (arc_unique _ _ _ _ _ _ Bw HA) as [EC _]. rewrite <- EC. fold c.
  rewrite bulge_pos_R, Sw. rnum. pose proof Hw as (W1 & W2 & W3).
  destruct (turn_between v1 v2 tw (pos w) tx x Hok Hb H0 H1 H2 W1 Hx) as [(E & V & B)|(E & V1 & V2 & _)]; fold c in E; rewrite E.
  - fold c in V, B. rewrite set_last_snoc_pline. eexists. split; [reflexivity|]. intros x' Ex.
    unfold drawn. rewrite Ex. split; [exact W1|]. split; [exact Hx|]. cbn [with_bulge pbulge]. rewrite sweep_from_angle by exact B. exact V.
  - assert (WB : with_bulge w (pbulge w) = w) by (destruct w; reflexivity).
    exists (pbulge w). rewrite WB. split; [reflexivity|]. intros x' Ex. unfold drawn. rewrite Ex.
    split; [exact W1|]. split; [exact Hx|]. rewrite W3, V2. reflexivity.
Qed.
