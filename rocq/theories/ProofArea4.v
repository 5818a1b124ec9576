(** How the area under an arc grows with the height (for C65). *)
From Coq Require Import Reals ZArith Bool List Lra Lia Psatz Classical.
From Verif Require Import Num RNum Res ModelMath ModelSeg ModelPline Spec SpecGeom SpecBox SpecWinding.
From Verif Require Import ProofR ProofBase ProofIter ProofArc ProofArc2 ProofSlice ProofMeasure ProofWalk ProofIntr ProofWinding ProofWinding2 ProofWinding3 ProofWinding4 ProofWinding6 ProofWinding7 ProofSegIntr5 ProofPolyOff2 ProofNest ProofJordan ProofJordan2 ProofJordan5 ProofArea ProofArea2 ProofArea3.
From Verif Require Import ProofRedundantR.
Import ListNotations.
Local Open Scope R_scope.

Definition asinc (v : R) : R := asin (clip (-1) 1 v).

Lemma clip_range a b x : a <= b -> a <= clip a b x <= b.
Proof. intros L. unfold clip, Rmax, Rmin. destruct (Rle_dec x b), (Rle_dec a _); lra. Qed.
Lemma clip_lip a b x y : a <= b -> Rabs (clip a b x - clip a b y) <= Rabs (x - y).
Proof. intros L. unfold clip, Rmax, Rmin. destruct (Rle_dec x b), (Rle_dec y b); repeat destruct (Rle_dec a _); unfold Rabs; repeat destruct (Rcase_abs _); lra. Qed.

Lemma asinc_range v : - (PI / 2) <= asinc v <= PI / 2.
Proof. unfold asinc. pose proof (asin_bound (clip (-1) 1 v)). lra. Qed.
Lemma sin_asinc v : sin (asinc v) = clip (-1) 1 v.
Proof. unfold asinc. apply sin_asin. apply clip_range. lra. Qed.

Lemma asinc_above v y : - (PI / 2) <= y <= PI / 2 -> clip (-1) 1 v < sin y -> asinc v < y.
Proof.
  intros Hy L. apply Rnot_le_lt. intros N. pose proof (asinc_range v). rewrite <- sin_asinc in L.
  destruct (Rle_lt_or_eq_dec _ _ N) as [N'|E]; [|rewrite E in L; lra]. assert (sin y < sin (asinc v)) by (apply sin_increasing_1; lra). lra.
Qed.
Lemma asinc_below v y : - (PI / 2) <= y <= PI / 2 -> sin y < clip (-1) 1 v -> y < asinc v.
Proof.
  intros Hy L. apply Rnot_le_lt. intros N. pose proof (asinc_range v). rewrite <- sin_asinc in L.
  destruct (Rle_lt_or_eq_dec _ _ N) as [N'|E]; [|rewrite E in L; lra]. assert (sin (asinc v) < sin y) by (apply sin_increasing_1; lra). lra.
Qed.

Lemma continuity_asinc x : continuity_pt asinc x.
Proof.
  intros e He. pose proof (asinc_range x) as RX. set (y := asinc x) in *. set (m := Rmin (e / 2) (PI / 2)). pose proof PI_pos.
  assert (Hm : 0 < m) by (apply Rmin_pos; lra). pose proof (Rmin_l (e / 2) (PI / 2)) as M1. pose proof (Rmin_r (e / 2) (PI / 2)) as M2. fold m in M1, M2.
  assert (Sx : sin y = clip (-1) 1 x) by apply sin_asinc.
  assert (Up : exists d, 0 < d /\ forall v, Rabs (v - x) < d -> asinc v < y + e).
  { destruct (Rle_dec (y + m) (PI / 2)) as [L|L].
    - assert (S : sin y < sin (y + m)) by (apply sin_increasing_1; lra). exists (sin (y + m) - sin y). split; [lra|]. intros v Hv.
      apply Rlt_trans with (y + m); [|lra]. apply asinc_above; [lra|]. pose proof (clip_lip (-1) 1 v x ltac:(lra)) as Q. rewrite <- Sx in Q. unfold Rabs in Q at 1. destruct (Rcase_abs _); lra.
    - exists 1. split; [lra|]. intros v _. pose proof (asinc_range v). lra. }
  assert (Dn : exists d, 0 < d /\ forall v, Rabs (v - x) < d -> y - e < asinc v).
  { destruct (Rle_dec (- (PI / 2)) (y - m)) as [L|L].
    - assert (S : sin (y - m) < sin y) by (apply sin_increasing_1; lra). exists (sin y - sin (y - m)). split; [lra|]. intros v Hv.
      apply Rlt_trans with (y - m); [lra|]. apply asinc_below; [lra|]. pose proof (clip_lip (-1) 1 v x ltac:(lra)) as Q. rewrite <- Sx in Q. unfold Rabs in Q at 1. destruct (Rcase_abs _); lra.
    - exists 1. split; [lra|]. intros v _. pose proof (asinc_range v). lra. }
  destruct Up as (d1 & P1 & K1). destruct Dn as (d2 & P2 & K2). exists (Rmin d1 d2). split; [now apply Rmin_pos|].
  intros v ((_ & N) & D). cbn in *. unfold R_dist in *. pose proof (Rmin_l d1 d2). pose proof (Rmin_r d1 d2).
  specialize (K1 v ltac:(lra)). specialize (K2 v ltac:(lra)). apply Rabs_def1; fold y; lra.
Qed.

Lemma deriv_asinc v : -1 < v < 1 -> derivable_pt_lim asinc v (1 / sqrt (1 - v * v)).
Proof.
  intros Hv. apply (deriv_local _ asin).
  - exists (Rmin (1 - v) (1 + v)). split; [apply Rmin_pos; lra|]. intros y Hy. pose proof (Rmin_l (1 - v) (1 + v)). pose proof (Rmin_r (1 - v) (1 + v)).
    unfold asinc. rewrite clip_mid; [reflexivity|]. unfold Rabs in Hy. destruct (Rcase_abs _); lra.
  - apply (derive_pt_eq_1 asin v _ (derivable_pt_asin v Hv)). apply derive_pt_asin.
Qed.

Definition ek (k : Z) : Z := if Z.even k then 1%Z else (-1)%Z.
Definition ks : list Z := [-2; -1; 0; 1; 2]%Z.

Lemma trig_k k y : In k ks -> sin (IZR k * PI + IZR (ek k) * y) = sin y /\ cos (IZR k * PI + IZR (ek k) * y) = IZR (ek k) * cos y.
Proof.
  assert (Pr : forall x j, sin (x + IZR j * (2 * PI)) = sin x /\ cos (x + IZR j * (2 * PI)) = cos x).
  { intros x j. split; [apply congr_sin|apply congr_cos]; exists j; reflexivity. }
  intros [<-|[<-|[<-|[<-|[<-|[]]]]]]; unfold ek; cbn [Z.even].
  - destruct (Pr y (-1)%Z) as (A & B). replace (-2 * PI + 1 * y) with (y + -1 * (2 * PI)) by ring. rewrite A, B. split; ring.
  - destruct (Pr (PI - y) (-1)%Z) as (A & B). replace (-1 * PI + -1 * y) with (PI - y + -1 * (2 * PI)) by ring. rewrite A, B.
    rewrite sin_PI_x. split; [reflexivity|]. replace (PI - y) with (- y + PI) by ring. rewrite neg_cos, cos_neg. ring.
  - replace (0 * PI + 1 * y) with y by ring. split; [reflexivity|ring].
  - replace (1 * PI + -1 * y) with (PI - y) by ring. rewrite sin_PI_x. split; [reflexivity|]. replace (PI - y) with (- y + PI) by ring. rewrite neg_cos, cos_neg. ring.
  - destruct (Pr y 1%Z) as (A & B). replace (2 * PI + 1 * y) with (y + 1 * (2 * PI)) by ring. rewrite A, B. split; ring.
Qed.
Lemma ek_sqr k : IZR (ek k) * IZR (ek k) = 1.
Proof. unfold ek. destruct (Z.even k); ring. Qed.

Section Arc.
Variables (v1 v2 : vertex R).
Hypothesis Ok : seg_ok v1 v2.
Hypothesis Hb : pbulge v1 <> 0.
Let s : seg := (v1, v2).
Let c := centre_of (pos v1) (pos v2) (pbulge v1).
Let r := radius_of (pos v1) (pos v2) (pbulge v1).
Let al := angle c (pos v1).
Let th := sweep (pbulge v1).
Let a := lo v1 v2.
Let b := hi v1 v2.
Let Hr : 0 < r := arc_r v1 v2 Ok Hb.
Let Rg : - (2 * PI) <= a /\ a < b /\ b <= 2 * PI /\ b - a <= PI := arc_range v1 v2 Ok Hb.

Definition prim (t : R) : R := vx c * r * sin t + r * r / 2 * (t + sin t * cos t).

Lemma prim_deriv t : derivable_pt_lim prim t ((vx c + r * cos t) * (r * cos t)).
Proof.
  eapply deriv_ext.
  - apply (derivable_pt_lim_plus (fun t => vx c * r * sin t) (fun t => r * r / 2 * (t + sin t * cos t))).
    + apply (derivable_pt_lim_scal sin (vx c * r)). apply derivable_pt_lim_sin.
    + apply (derivable_pt_lim_scal (fun t => t + sin t * cos t) (r * r / 2)).
      apply (derivable_pt_lim_plus id (fun t => sin t * cos t)); [apply derivable_pt_lim_id|].
      apply (derivable_pt_lim_mult sin cos); [apply derivable_pt_lim_sin|apply derivable_pt_lim_cos].
  - pose proof (sin2_cos2 t) as Q. unfold Rsqr in Q. set (x := sin t) in *. set (y := cos t) in *.
    transitivity (vx c * r * y + r * r / 2 * (x * x + y * y + (y * y - x * x))); [rewrite Q; ring|field].
Qed.

Definition tk (k : Z) (h : R) : R := IZR k * PI + IZR (ek k) * asinc ((h - vy c) / r).
Definition Dk (k : Z) (h : R) : R := IZR (turn v1 * ek k) * prim (clip a b (tk k h)).
Definition nk (k : Z) (h : R) : Z := if Rlt_dec (Rabs (h - vy c)) r then if Rlt_dec a (tk k h) then if Rlt_dec (tk k h) b then 1%Z else 0%Z else 0%Z else 0%Z.
Definition wk (k : Z) (h : R) : Z := (turn v1 * ek k * nk k h)%Z.
Definition Xk (k : Z) (h : R) : R := vx c + IZR (ek k) * half v1 v2 h.

Lemma tk_cont k h : continuity_pt (tk k) h.
Proof.
  apply (continuity_pt_plus (fun _ => IZR k * PI) (fun h => IZR (ek k) * asinc ((h - vy c) / r))); [apply continuity_pt_const; intros x y; reflexivity|].
  apply (continuity_pt_mult (fun _ => IZR (ek k)) (fun h => asinc ((h - vy c) / r))); [apply continuity_pt_const; intros x y; reflexivity|].
  apply (continuity_pt_comp (fun h => (h - vy c) / r) asinc); [|apply continuity_asinc]. apply derivable_continuous_pt. reg.
Qed.

Lemma Dk_cont k h : continuity_pt (Dk k) h.
Proof.
  apply (continuity_pt_mult (fun _ => IZR (turn v1 * ek k)) (fun h => prim (clip a b (tk k h)))); [apply continuity_pt_const; intros x y; reflexivity|].
  apply (continuity_pt_comp (fun h => clip a b (tk k h)) prim).
  - apply (continuity_pt_comp (tk k) (clip a b)); [apply tk_cont|apply continuity_clip].
  - apply derivable_continuous_pt. exists ((vx c + r * cos (clip a b (tk k h))) * (r * cos (clip a b (tk k h)))). apply prim_deriv.
Qed.

Definition bad : list R := [vy c - r; vy c + r; py v1; py v2].

Lemma near_cont f x (e : R) : continuity_pt f x -> 0 < e -> exists d, 0 < d /\ forall y, Rabs (y - x) < d -> Rabs (f y - f x) < e.
Proof.
  intros C He. destruct (C e He) as (d & Hd & K). exists d. split; [exact Hd|]. intros y Hy.
  destruct (Req_dec x y) as [<-|N]; [rewrite Rminus_diag_eq, Rabs_R0 by reflexivity; exact He|].
  apply (K y). split; [split; [exact I|exact N]|exact Hy].
Qed.

Lemma ratio h : Rabs (h - vy c) < r -> -1 < (h - vy c) / r < 1.
Proof.
  intros B. assert (E : h - vy c = (h - vy c) / r * r) by (field; lra). unfold Rabs in B. set (v := (h - vy c) / r) in *. destruct (Rcase_abs _); split; nra.
Qed.

Lemma tk_trig k h : In k ks -> Rabs (h - vy c) < r -> r * sin (tk k h) = h - vy c /\ r * cos (tk k h) = IZR (ek k) * half v1 v2 h.
Proof.
  intros I B. destruct (trig_k k (asinc ((h - vy c) / r)) I) as (S & C). fold (tk k h) in S, C. rewrite S, C, sin_asinc. pose proof (ratio h B) as V.
  rewrite clip_mid by lra. split; [field; lra|]. unfold asinc. rewrite clip_mid by lra. rewrite cos_asin by lra. unfold half. fold c r.
  replace (r * r - (h - vy c) * (h - vy c)) with (Rsqr r * (1 - ((h - vy c) / r)²)) by (unfold Rsqr; field; lra).
  rewrite sqrt_mult; [rewrite sqrt_Rsqr by lra; ring|apply Rle_0_sqr|]. unfold Rsqr. set (v := (h - vy c) / r) in *. nra.
Qed.

Lemma tk_point k h : In k ks -> Rabs (h - vy c) < r -> circle_pt c r (tk k h) = V2 (Xk k h) h.
Proof. intros I B. destruct (tk_trig k h I B) as (S & C). unfold circle_pt, Xk. apply vec2_eq; cbn [vx vy]; lra. Qed.

Lemma tk_ends k h : In k ks -> Rabs (h - vy c) < r -> ~ In h bad -> tk k h <> a /\ tk k h <> b.
Proof.
  intros I B N. destruct (tk_trig k h I B) as (S & _). destruct (arc_end_heights v1 v2 Ok Hb) as (E1 & E2). fold c r in E1, E2. fold al in E1, E2. fold th in E2.
  assert (G : tk k h <> al /\ tk k h <> al + th).
  { split; intros Q; rewrite Q in S; apply N; unfold bad; cbn [In]; right; right; [left|right; left]; lra. }
  unfold a, b, lo, hi. fold c. fold al. fold th. unfold Rmin, Rmax. destruct (Rle_dec al (al + th)); tauto.
Qed.

Lemma Dk_deriv k h : In k ks -> ~ In h bad -> derivable_pt_lim (Dk k) h (IZR (wk k h) * Xk k h).
Proof.
  intros I N. unfold wk, nk.
  assert (Const : (exists d, 0 < d /\ forall y, Rabs (y - h) < d -> clip a b (tk k y) = clip a b (tk k h)) -> derivable_pt_lim (Dk k) h (IZR (turn v1 * ek k * 0) * Xk k h)).
  { intros (d & Hd & K). apply (deriv_local _ (fun _ => Dk k h)).
    - exists d. split; [exact Hd|]. intros y Hy. unfold Dk. rewrite K by exact Hy. reflexivity.
    - eapply deriv_ext; [apply derivable_pt_lim_const|]. rewrite Z.mul_0_r. ring. }
  destruct (Rlt_dec (Rabs (h - vy c)) r) as [B|B].
  - destruct (tk_ends k h I B N) as (Na & Nb). pose proof (ratio h B) as V.
    destruct (near_cont (tk k) h (Rmin (Rabs (tk k h - a)) (Rabs (tk k h - b))) (tk_cont k h)) as (d & Hd & K); [apply Rmin_pos; apply Rabs_pos_lt; lra|].
    pose proof (Rmin_l (Rabs (tk k h - a)) (Rabs (tk k h - b))) as ML. pose proof (Rmin_r (Rabs (tk k h - a)) (Rabs (tk k h - b))) as MR.
    destruct (Rlt_dec a (tk k h)) as [La|La]; [destruct (Rlt_dec (tk k h) b) as [Lb|Lb]|].
    + apply (deriv_local _ (fun y => IZR (turn v1 * ek k) * prim (tk k y))).
      * exists d. split; [exact Hd|]. intros y Hy. unfold Dk. specialize (K y Hy). rewrite (Rabs_right (tk k h - a)) in * by lra. rewrite (Rabs_left (tk k h - b)) in * by lra.
        rewrite clip_mid; [reflexivity|]. unfold Rabs in K. destruct (Rcase_abs _); lra.
      * eapply deriv_ext.
        -- apply (derivable_pt_lim_scal (fun y => prim (tk k y)) (IZR (turn v1 * ek k))).
           apply (derivable_pt_lim_comp (tk k) prim h (IZR (ek k) * (1 / sqrt (1 - (h - vy c) / r * ((h - vy c) / r)) * / r))); [|apply prim_deriv].
           eapply deriv_ext; [apply (derivable_pt_lim_plus (fun _ => IZR k * PI) (fun h => IZR (ek k) * asinc ((h - vy c) / r)))|].
           ++ apply derivable_pt_lim_const.
           ++ apply (derivable_pt_lim_scal (fun h => asinc ((h - vy c) / r)) (IZR (ek k))).
              apply (derivable_pt_lim_comp (fun h => (h - vy c) / r) asinc h (/ r)); [|apply deriv_asinc; exact V].
              apply (deriv_local _ (fun t => - vy c / r + t * / r)); [exists 1; split; [lra|]; intros y _; field; lra|apply deriv_affine].
           ++ apply Rplus_0_l.
        -- destruct (tk_trig k h I B) as (_ & C). rewrite C. unfold Xk. rewrite Z.mul_1_r, !mult_IZR.
           assert (Q : sqrt (1 - (h - vy c) / r * ((h - vy c) / r)) * r = half v1 v2 h).
           { unfold half. fold c r. replace (r * r - (h - vy c) * (h - vy c)) with ((1 - (h - vy c) / r * ((h - vy c) / r)) * Rsqr r) by (unfold Rsqr; field; lra).
             rewrite sqrt_mult; [rewrite sqrt_Rsqr by lra; ring| |apply Rle_0_sqr]. set (v := (h - vy c) / r) in *. nra. }
           pose proof (half_pos v1 v2 Ok Hb h B) as HP. fold c r in HP. rewrite <- Q in HP |- *.
           set (w := sqrt (1 - (h - vy c) / r * ((h - vy c) / r))) in *. assert (w <> 0) by (intros E; rewrite E in HP; lra).
           pose proof (ek_sqr k) as E2. set (e := IZR (ek k)) in *.
           transitivity (IZR (turn v1) * e * (e * e) * (vx c + e * (w * r))); [field; lra|rewrite E2; ring].
    + apply Const. exists d. split; [exact Hd|]. intros y Hy. specialize (K y Hy). rewrite (Rabs_right (tk k h - b)) in * by lra.
      assert (Q : Rabs (tk k y - tk k h) < tk k h - b) by lra. apply Rabs_def2 in Q. rewrite !clip_high; lra.
    + apply Const. exists d. split; [exact Hd|]. intros y Hy. specialize (K y Hy). rewrite (Rabs_left (tk k h - a)) in * by lra.
      assert (Q : Rabs (tk k y - tk k h) < - (tk k h - a)) by lra. apply Rabs_def2 in Q. rewrite !clip_low; lra.
  - apply Const. assert (P : 0 < Rabs (h - vy c) - r).
    { assert (Rabs (h - vy c) <> r); [|lra]. intros Q. apply N. unfold bad. cbn [In]. unfold Rabs in Q. destruct (Rcase_abs _); [left|right; left]; lra. }
    exists (Rabs (h - vy c) - r). split; [exact P|]. intros y Hy. f_equal. unfold tk. f_equal. f_equal. unfold asinc. f_equal.
    assert (E1 : h - vy c = (h - vy c) / r * r) by (field; lra). assert (E2 : y - vy c = (y - vy c) / r * r) by (field; lra).
    set (vh := (h - vy c) / r) in *. set (vy' := (y - vy c) / r) in *.
    destruct (Rle_dec 0 (h - vy c)) as [L|L].
    + rewrite (Rabs_right (h - vy c)) in * by lra. assert (r < y - vy c) by (unfold Rabs in Hy; destruct (Rcase_abs _); lra). rewrite !clip_high; try lra; nra.
    + rewrite (Rabs_left (h - vy c)) in * by lra. assert (y - vy c < - r) by (unfold Rabs in Hy; destruct (Rcase_abs _); lra). rewrite !clip_low; try lra; nra.
Qed.

Lemma sum_cont l h : continuity_pt (fun h => rsum (map (fun k => Dk k h) l)) h.
Proof.
  induction l as [|k l IH]; [apply continuity_pt_const; intros x y; reflexivity|].
  apply (continuity_pt_plus (Dk k) (fun h => rsum (map (fun k => Dk k h) l))); [apply Dk_cont|exact IH].
Qed.
Lemma sum_deriv l h : (forall k, In k l -> In k ks) -> ~ In h bad ->
  derivable_pt_lim (fun h => rsum (map (fun k => Dk k h) l)) h (moment (map (fun k => (wk k h, Xk k h)) l)).
Proof.
  intros Sub N. induction l as [|k l IH]; [apply derivable_pt_lim_const|].
  apply (derivable_pt_lim_plus (Dk k) (fun h => rsum (map (fun k => Dk k h) l))).
  - apply Dk_deriv; [apply Sub; now left|exact N].
  - apply IH. intros k' I. apply Sub. now right.
Qed.

Definition total : R := prim (al + th) - prim al.

Lemma total_turn : IZR (turn v1) * (prim b - prim a) = total.
Proof.
  unfold total, a, b, lo, hi. fold c. fold al. fold th. unfold turn. pose proof (sweep_nonzero _ Hb) as N. fold th in N.
  destruct (Rlt_dec 0 (pbulge v1)) as [P|P].
  - pose proof (sweep_pos _ P) as T. fold th in T. rewrite Rmin_left, Rmax_right by lra. ring.
  - assert (T : th < 0) by (apply sweep_neg; lra). rewrite Rmin_right, Rmax_left by lra. ring.
Qed.

Lemma Dk_step k m : In k ks -> vy c + r <= m -> - m <= vy c - r ->
  Dk k m - Dk k (- m) = IZR (turn v1) * (prim (clip a b (IZR k * PI + PI / 2)) - prim (clip a b (IZR k * PI - PI / 2))).
Proof.
  intros I H1 H2. unfold Dk, tk, asinc.
  rewrite (clip_high (-1) 1), (clip_low (-1) 1); try lra.
  - rewrite asin_1. replace (-1) with (- (1)) by ring. rewrite asin_opp, asin_1. rewrite mult_IZR. unfold ek. destruct (Z.even k).
    + replace (IZR k * PI + 1 * (PI / 2)) with (IZR k * PI + PI / 2) by ring. replace (IZR k * PI + 1 * - (PI / 2)) with (IZR k * PI - PI / 2) by ring. ring.
    + replace (IZR k * PI + -1 * (PI / 2)) with (IZR k * PI - PI / 2) by ring. replace (IZR k * PI + -1 * - (PI / 2)) with (IZR k * PI + PI / 2) by ring. ring.
  - assert (E : - m - vy c = (- m - vy c) / r * r) by (field; lra). set (v := (- m - vy c) / r) in *. nra.
  - assert (E : m - vy c = (m - vy c) / r * r) by (field; lra). set (v := (m - vy c) / r) in *. nra.
Qed.

Lemma total_sum m : vy c + r <= m -> - m <= vy c - r ->
  rsum (map (fun k => Dk k m) ks) - rsum (map (fun k => Dk k (- m)) ks) = total.
Proof.
  intros H1 H2. assert (S : forall k, In k ks -> Dk k m = Dk k (- m) + IZR (turn v1) * (prim (clip a b (IZR k * PI + PI / 2)) - prim (clip a b (IZR k * PI - PI / 2)))).
  { intros k I. pose proof (Dk_step k m I H1 H2). lra. }
  cbn [ks map]. rewrite !rsum_cons, !rsum_nil. rewrite (S (-2)%Z), (S (-1)%Z), (S 0%Z), (S 1%Z), (S 2%Z) by (cbn; tauto). pose proof PI_pos.
  replace (-1 * PI - PI / 2) with (-2 * PI + PI / 2) by field. replace (0 * PI - PI / 2) with (-1 * PI + PI / 2) by field.
  replace (1 * PI - PI / 2) with (0 * PI + PI / 2) by field. replace (2 * PI - PI / 2) with (1 * PI + PI / 2) by field.
  rewrite (clip_high a b (2 * PI + PI / 2)) by lra. rewrite (clip_low a b (-2 * PI - PI / 2)) by lra.
  rewrite <- total_turn. ring.
Qed.

Lemma arc_integral : seg_has_integral v1 v2 (2 * total - (corner v2 - corner v1)).
Proof.
  pose proof (computed_is_arc _ _ _ (arc_ne v1 v2 Ok Hb) Hb) as HA. fold c r in HA. fold al in HA.
  exists (fun t => vx c + r * cos (al + t * th)), (fun t => vy c + r * sin (al + t * th)),
      (fun t => r * (- sin (al + t * th) * th)), (fun t => r * (cos (al + t * th) * th)),
      (fun t => 2 * prim (al + t * th) - (vx c + r * cos (al + t * th)) * (vy c + r * sin (al + t * th))).
  pose proof (arc_param _ _ _ _ _ Hb HA) as PA. split; [exact PA|]. destruct PA as (_ & DX & DY). split.
  - intros t. eapply deriv_ext.
    + apply (derivable_pt_lim_minus (fun t => 2 * prim (al + t * th)) (fun t => (vx c + r * cos (al + t * th)) * (vy c + r * sin (al + t * th)))).
      * apply (derivable_pt_lim_scal (fun t => prim (al + t * th)) 2). apply (derivable_pt_lim_comp (fun t => al + t * th) prim t th); [apply deriv_affine|apply prim_deriv].
      * apply (derivable_pt_lim_mult (fun t => vx c + r * cos (al + t * th)) (fun t => vy c + r * sin (al + t * th))); [apply DX|apply DY].
    + fold th. ring.
  - destruct HA as (_ & A1 & A2). apply (f_equal vx) in A1 as P1. apply (f_equal vy) in A1 as P2. apply (f_equal vx) in A2 as P3. apply (f_equal vy) in A2 as P4.
    fold th in P3, P4. cbn [pos circle_pt vx vy] in P1, P2, P3, P4. unfold corner, total. rewrite P1, P2, P3, P4.
    rewrite !Rmult_1_l, !Rmult_0_l, !Rplus_0_r. ring.
Qed.

Lemma on_k k h : In k ks -> Rabs (h - vy c) < r -> nk k h = 1%Z -> on s (V2 (Xk k h) h).
Proof.
  intros I B E. unfold nk in E. destruct (Rlt_dec (Rabs _) _); [|lra]. destruct (Rlt_dec a _); [|discriminate]. destruct (Rlt_dec _ b); [|discriminate].
  rewrite <- (tk_point k h I B). apply (arc_on v1 v2 Ok Hb). exists (tk k h). split; [|reflexivity]. unfold a, b in *. lra.
Qed.
Lemma nk_01 k h : nk k h = 0%Z \/ nk k h = 1%Z.
Proof. unfold nk. destruct (Rlt_dec _ _); [destruct (Rlt_dec _ _); [destruct (Rlt_dec _ _)|]|]; auto. Qed.
Lemma nk_one k h : Rabs (h - vy c) < r -> a < tk k h < b -> nk k h = 1%Z.
Proof. intros B T. unfold nk. destruct (Rlt_dec (Rabs _) _); [|lra]. destruct (Rlt_dec a _); [|lra]. destruct (Rlt_dec _ b); [reflexivity|lra]. Qed.
Lemma nk_zero k h : ~ a < tk k h < b -> nk k h = 0%Z.
Proof. intros T. unfold nk. destruct (Rlt_dec (Rabs _) _); [|reflexivity]. destruct (Rlt_dec a _); [|reflexivity]. destruct (Rlt_dec _ b); [exfalso; apply T; lra|reflexivity]. Qed.

Lemma right_count h : Rabs (h - vy c) < r -> ~ In h bad ->
  (on s (V2 (vx c + half v1 v2 h) h) /\ (nk (-2) h + nk 0 h + nk 2 h = 1)%Z) \/ (~ on s (V2 (vx c + half v1 v2 h) h) /\ (nk (-2) h + nk 0 h + nk 2 h = 0)%Z).
Proof.
  intros B N. pose proof PI_pos. pose proof (asinc_range ((h - vy c) / r)) as A0.
  assert (X0 : forall k, In k ks -> Z.even k = true -> Xk k h = vx c + half v1 v2 h) by (intros k _ E; unfold Xk, ek; rewrite E; ring).
  assert (T2 : tk 2 h = tk 0 h + 2 * PI) by (unfold tk; unfold ek; cbn [Z.even]; ring).
  assert (T2' : tk (-2) h = tk 0 h - 2 * PI) by (unfold tk; unfold ek; cbn [Z.even]; ring).
  assert (T0 : tk 0 h = asinc ((h - vy c) / r)) by (unfold tk; unfold ek; cbn [Z.even]; ring).
  destruct (classic (on s (V2 (vx c + half v1 v2 h) h))) as [O|O]; [left|right]; (split; [exact O|]).
  - rewrite <- (X0 0%Z) in O by (cbn; auto). rewrite <- (tk_point 0 h) in O by (cbn; auto). apply (arc_on v1 v2 Ok Hb) in O as (t & Ht & E). fold a b in Ht. fold c r in E.
    apply circle_pt_inj in E; [|exact Hr]. apply congr_sym in E. destruct E as (j & E).
    assert (J : (j = -1 \/ j = 0 \/ j = 1)%Z).
    { assert (IZR (-2) < IZR j) by (apply Rmult_lt_reg_r with (2 * PI); lra). assert (IZR j < IZR 2) by (apply Rmult_lt_reg_r with (2 * PI); lra). apply lt_IZR in H0, H1. lia. }
    destruct (tk_ends (-2) h) as (a1 & b1); [cbn; auto|exact B|exact N|]. destruct (tk_ends 0 h) as (a2 & b2); [cbn; auto|exact B|exact N|]. destruct (tk_ends 2 h) as (a3 & b3); [cbn; tauto|exact B|exact N|].
    destruct J as [->|[->| ->]].
    + rewrite (nk_one (-2) h B) by lra. rewrite !nk_zero by lra. reflexivity.
    + rewrite (nk_one 0 h B) by lra. rewrite !nk_zero by lra. reflexivity.
    + rewrite (nk_one 2 h B) by lra. rewrite !nk_zero by lra. reflexivity.
  - assert (Z0 : forall k, In k ks -> Z.even k = true -> nk k h = 0%Z).
    { intros k I E. destruct (nk_01 k h) as [Q|Q]; [exact Q|]. exfalso. apply O. rewrite <- (X0 k I E). now apply on_k. }
    rewrite !Z0 by (cbn; tauto). reflexivity.
Qed.

Lemma left_count h : Rabs (h - vy c) < r -> ~ In h bad ->
  (on s (V2 (vx c - half v1 v2 h) h) /\ (nk (-1) h + nk 1 h = 1)%Z) \/ (~ on s (V2 (vx c - half v1 v2 h) h) /\ (nk (-1) h + nk 1 h = 0)%Z).
Proof.
  intros B N. pose proof PI_pos. pose proof (asinc_range ((h - vy c) / r)) as A0.
  assert (X0 : forall k, In k ks -> Z.even k = false -> Xk k h = vx c - half v1 v2 h) by (intros k _ E; unfold Xk, ek; rewrite E; ring).
  assert (T2' : tk (-1) h = tk 1 h - 2 * PI) by (unfold tk; unfold ek; cbn [Z.even]; ring).
  assert (T0 : tk 1 h = PI - asinc ((h - vy c) / r)) by (unfold tk; unfold ek; cbn [Z.even]; ring).
  destruct (classic (on s (V2 (vx c - half v1 v2 h) h))) as [O|O]; [left|right]; (split; [exact O|]).
  - rewrite <- (X0 1%Z) in O by (cbn; auto). rewrite <- (tk_point 1 h) in O by (cbn; auto). apply (arc_on v1 v2 Ok Hb) in O as (t & Ht & E). fold a b in Ht. fold c r in E.
    apply circle_pt_inj in E; [|exact Hr]. apply congr_sym in E. destruct E as (j & E).
    assert (J : (j = -1 \/ j = 0)%Z).
    { assert (IZR (-2) < IZR j) by (apply Rmult_lt_reg_r with (2 * PI); lra). assert (IZR j < IZR 1) by (apply Rmult_lt_reg_r with (2 * PI); lra). apply lt_IZR in H0, H1. lia. }
    destruct (tk_ends (-1) h) as (a1 & b1); [cbn; auto|exact B|exact N|]. destruct (tk_ends 1 h) as (a2 & b2); [cbn; tauto|exact B|exact N|].
    destruct J as [->| ->].
    + rewrite (nk_one (-1) h B) by lra. rewrite !nk_zero by lra. reflexivity.
    + rewrite (nk_one 1 h B) by lra. rewrite !nk_zero by lra. reflexivity.
  - assert (Z0 : forall k, In k ks -> Z.even k = false -> nk k h = 0%Z).
    { intros k I E. destruct (nk_01 k h) as [Q|Q]; [exact Q|]. exfalso. apply O. rewrite <- (X0 k I E). now apply on_k. }
    rewrite !Z0 by (cbn; tauto). reflexivity.
Qed.

Lemma arc_profile : exists D L bad J M, profile [s] D L bad J M.
Proof.
  exists (fun h => rsum (map (fun k => Dk k h) ks)), (fun h => map (fun k => (wk k h, Xk k h)) ks), bad, total, (Rabs (vx c) + Rabs (vy c) + r).
  split; [intros h; apply sum_cont|]. split; [|split; [|split]].
  - intros h N. split; [apply sum_deriv; auto|]. intros u Nu. rewrite map_map in Nu. cbn [snd] in Nu.
    assert (Nh : py v1 <> h /\ py v2 <> h) by (split; intros <-; apply N; cbn; auto). destruct Nh as (N1 & N2).
    destruct (Rlt_dec (Rabs (h - vy c)) r) as [B|B].
    + assert (Ur : u <> vx c + half v1 v2 h) by (intros ->; apply Nu; apply in_map_iff; exists 0%Z; split; [unfold Xk; unfold ek; cbn [Z.even]; ring|cbn; auto]).
      assert (Ul : u <> vx c - half v1 v2 h) by (intros ->; apply Nu; apply in_map_iff; exists 1%Z; split; [unfold Xk; unfold ek; cbn [Z.even]; ring|cbn; auto]).
      split; [intros x [<-|[]] O; destruct (level_on v1 v2 Ok Hb h B u O); contradiction|].
      unfold tot, zsum. cbn [map fold_right]. rewrite Z.add_0_r.
      pose proof (right_count h B N) as CR. pose proof (left_count h B N) as CL.
      unfold s. rewrite (arc_level v1 v2 Ok Hb h N1 N2 B (nk (-2) h + nk 0 h + nk 2 h) (nk (-1) h + nk 1 h) u CR CL Ur Ul).
      unfold count, zsum. cbn [ks map fold_right fst snd]. unfold wk, Xk. unfold ek; cbn [Z.even]. fold c.
      replace (vx c + 1 * half v1 v2 h) with (vx c + half v1 v2 h) by ring. replace (vx c + -1 * half v1 v2 h) with (vx c - half v1 v2 h) by ring.
      destruct (Rlt_dec u (vx c + half v1 v2 h)), (Rlt_dec u (vx c - half v1 v2 h)); lia.
    + assert (P : r < Rabs (h - vy c)).
      { assert (Rabs (h - vy c) <> r); [|lra]. intros Q. apply N. unfold bad. cbn [In]. unfold Rabs in Q. destruct (Rcase_abs _); [left|right; left]; lra. }
      assert (Of : forall w, ~ on s (V2 w h)) by (intros w O; apply (arc_bound v1 v2 Ok Hb) in O as (_ & O); cbn [vy] in O; fold c r in O; lra).
      split; [intros x [<-|[]]; apply Of|]. unfold tot, zsum. cbn [map fold_right]. rewrite Z.add_0_r.
      unfold s. rewrite (level_right v1 v2 Ok Hb h N1 N2 u) by (intros w _; apply Of).
      unfold count, zsum. cbn [ks map fold_right fst snd]. unfold wk, nk. destruct (Rlt_dec (Rabs (h - vy c)) r); [lra|]. rewrite !Z.mul_0_r.
      repeat (destruct (Rlt_dec u _)); reflexivity.
  - intros m Hm. apply total_sum; pose proof (Rle_abs (vy c)); pose proof (Rle_abs (- vy c)); rewrite Rabs_Ropp in *; pose proof (Rabs_pos (vx c)); lra.
  - intros x q [<-|[]] O. apply (arc_bound v1 v2 Ok Hb) in O as (B1 & B2). fold c r in B1, B2. pose proof (Rabs_pos (vx c)). pose proof (Rabs_pos (vy c)).
    pose proof (Rabs_triang (vx q - vx c) (vx c)) as Q1. pose proof (Rabs_triang (vy q - vy c) (vy c)) as Q2.
    replace (vx q - vx c + vx c) with (vx q) in Q1 by ring. replace (vy q - vy c + vy c) with (vy q) in Q2 by ring. lra.
  - exists [2 * total - (corner v2 - corner v1)]. split; [|cbn; ring]. constructor; [|constructor]. apply arc_integral.
Qed.
End Arc.
