(** How an arc winds around the points at one height (for C65). *)
From Coq Require Import Reals ZArith Bool List Lra Lia Psatz Classical.
From Verif Require Import Num RNum Res ModelMath ModelSeg ModelPline Spec SpecGeom SpecBox SpecWinding.
From Verif Require Import ProofR ProofBase ProofIter ProofArc ProofArc2 ProofSlice ProofMeasure ProofWalk ProofIntr ProofWinding ProofWinding2 ProofWinding3 ProofWinding4 ProofWinding6 ProofWinding7 ProofSegIntr5 ProofPolyOff2 ProofNest ProofJordan ProofJordan2 ProofJordan5 ProofArea ProofArea2.
From Verif Require Import ProofRedundantR.
Import ListNotations.
Local Open Scope R_scope.

Section Arc.
Variables (v1 v2 : vertex R).
Hypothesis Ok : seg_ok v1 v2.
Hypothesis Hb : pbulge v1 <> 0.
Let s : seg := (v1, v2).
Let c := centre_of (pos v1) (pos v2) (pbulge v1).
Let r := radius_of (pos v1) (pos v2) (pbulge v1).
Let al := angle c (pos v1).
Let th := sweep (pbulge v1).

Lemma arc_ne : pos v1 <> pos v2.
Proof. exact (proj2 Ok Hb). Qed.
Lemma arc_r : 0 < r.
Proof. apply radius_pos; [apply arc_ne|exact Hb]. Qed.

Definition lo := Rmin al (al + th).
Definition hi := Rmax al (al + th).

Lemma arc_small : Rabs (pbulge v1) <= 1.
Proof. destruct (proj1 Ok) as [E|[_ E]]; [contradiction|exact E]. Qed.

Lemma arc_range : - (2 * PI) <= lo /\ lo < hi /\ hi <= 2 * PI /\ hi - lo <= PI.
Proof.
  pose proof (sweep_bound _ arc_small) as B. pose proof (sweep_nonzero _ Hb) as N. fold th in B, N.
  assert (NE : pos v1 <> c) by (apply (centre_neq _ _ _ arc_ne Hb)).
  destruct (angle_spec c (pos v1) NE) as (_ & _ & _ & _ & A). fold al in A.
  unfold lo, hi, Rmin, Rmax. destruct (Rle_dec al (al + th)); lra.
Qed.

Lemma arc_on q : on s q <-> exists t, lo <= t <= hi /\ q = circle_pt c r t.
Proof.
  pose proof arc_range as RG. pose proof (sweep_nonzero _ Hb) as N. fold th in N. split.
  - intros (t & Ht & Hq). cbn [s fst snd] in Hq. apply seg_at_arc in Hq; [|apply arc_ne|exact Hb]. fold c r al th in Hq.
    exists (al + t * th). split; [|exact Hq]. unfold lo, hi, Rmin, Rmax. destruct (Rle_dec al (al + th)); split; nra.
  - intros (t & Ht & Hq). exists ((t - al) / th). assert (E : t - al = (t - al) / th * th) by (field; exact N). split.
    + set (u := (t - al) / th) in *. unfold lo, hi, Rmin, Rmax in Ht. destruct (Rle_dec al (al + th)).
      * assert (0 < th) by lra. split; nra.
      * assert (th < 0) by lra. split; nra.
    + cbn [s fst snd]. apply seg_at_arc; [apply arc_ne|exact Hb|]. fold c r al th. rewrite <- E. replace (al + (t - al)) with t by ring. exact Hq.
Qed.

Lemma arc_end_heights : py v1 = vy c + r * sin al /\ py v2 = vy c + r * sin (al + th).
Proof.
  destruct (computed_is_arc _ _ _ arc_ne Hb) as (_ & A1 & A2). fold c r al th in A1, A2.
  apply (f_equal vy) in A1. apply (f_equal vy) in A2. split; [exact A1|exact A2].
Qed.

Lemma arc_circle q : on s q -> (vx q - vx c) * (vx q - vx c) + (vy q - vy c) * (vy q - vy c) = r * r.
Proof.
  intros O. apply arc_on in O as (t & _ & ->). unfold circle_pt. cbn [vx vy]. pose proof (sin2_cos2 t) as E. unfold Rsqr in E.
  transitivity (r * r * (sin t * sin t + cos t * cos t)); [ring|rewrite E; ring].
Qed.

Lemma arc_bound q : on s q -> Rabs (vx q - vx c) <= r /\ Rabs (vy q - vy c) <= r.
Proof.
  intros O. apply arc_circle in O. pose proof arc_r. pose proof (Rle_0_sqr (vx q - vx c)) as A. pose proof (Rle_0_sqr (vy q - vy c)) as B. unfold Rsqr in *.
  split; apply Rabs_le; split; nra.
Qed.

Section Level.
Variable h : R.
Hypothesis N1 : py v1 <> h.
Hypothesis N2 : py v2 <> h.
Let at_ u := V2 u h.

Lemma level_line u u' t : line_pt (at_ u) (at_ u') t = at_ (u + t * (u' - u)).
Proof. unfold line_pt, at_. cbn [vx vy]. apply vec2_eq; cbn [vx vy]; ring. Qed.

Lemma level_move u u' : u <= u' -> (forall w, u <= w <= u' -> ~ on s (at_ w)) -> nw (at_ u) s = nw (at_ u') s.
Proof.
  intros L Of. apply nw_level; [exact Ok|reflexivity|exact N1|exact N2|]. intros t Ht. rewrite level_line. apply Of. split; nra.
Qed.

Lemma level_right u : (forall w, u <= w -> ~ on s (at_ w)) -> nw (at_ u) s = 0%Z.
Proof.
  intros Of. set (U := Rmax u (vx c + r + 1)). pose proof (Rmax_l u (vx c + r + 1)). pose proof (Rmax_r u (vx c + r + 1)). fold U in H, H0.
  rewrite (level_move u U H) by (intros w Hw; apply Of; lra). apply nw_right; [exact Ok|]. intros q O. apply arc_bound in O as (B & _). cbn [at_ vx].
  unfold Rabs in B. destruct (Rcase_abs _); lra.
Qed.

Lemma level_side u : sideof s (at_ u) = 2 * pbulge v1 * (r * r - ((vx c - u) * (vx c - u) + (vy c - h) * (vy c - h))).
Proof.
  pose proof (inside_side v1 v2 (at_ u) Hb) as E. fold c r s in E. cbn [at_ vx vy] in E. rewrite E. field. exact Hb.
Qed.

Lemma level_across z u1 u2 : u1 < z < u2 -> (forall w, u1 <= w <= u2 -> w <> z -> ~ on s (at_ w) /\ sideof s (at_ w) <> 0) ->
  on s (at_ z) -> (forall w, u1 <= w < z -> (0 < sideof s (at_ u1) <-> 0 < sideof s (at_ w))) ->
  (forall w, z < w <= u2 -> (0 < sideof s (at_ u2) <-> 0 < sideof s (at_ w))) ->
  nw (at_ u1) s = (nw (at_ u2) s + over (sideof s (at_ u1)) - over (sideof s (at_ u2)))%Z.
Proof.
  intros Hz Of On S1 S2. destruct On as (t & Ht & Hq).
  assert (Ht' : 0 < t < 1).
  { destruct (Req_dec t 0) as [->|T0]; [exfalso; apply (seg_at_unique _ _ 0 _ (pos v1)) in Hq; [|apply seg_at_0; exact Ok|exact Ok]; apply (f_equal vy) in Hq; cbn in Hq; lra|].
    destruct (Req_dec t 1) as [->|T1]; [exfalso; apply (seg_at_unique _ _ 1 _ (pos v2)) in Hq; [|apply seg_at_1; exact Ok|exact Ok]; apply (f_equal vy) in Hq; cbn in Hq; lra|]. lra. }
  destruct (side_jump s t (at_ z) Ok arc_ne Ht' Hq) as (s' & k & d & Ok' & E1 & E2 & Nz & Hd & J).
  destruct (offs_room [s'] (at_ z)) as (e & He & K).
  { intros x [<-|[]]. exact Ok'. }
  { intros x [<-|[]]. exact Nz. }
  set (m := Rmin (Rmin (d / 2) (e / 2)) (Rmin (z - u1) (u2 - z))).
  assert (Hm : 0 < m) by (unfold m; repeat apply Rmin_pos; lra).
  assert (Bm : m <= d / 2 /\ m <= e / 2 /\ m <= z - u1 /\ m <= u2 - z).
  { unfold m. pose proof (Rmin_l (Rmin (d / 2) (e / 2)) (Rmin (z - u1) (u2 - z))). pose proof (Rmin_r (Rmin (d / 2) (e / 2)) (Rmin (z - u1) (u2 - z))).
    pose proof (Rmin_l (d / 2) (e / 2)). pose proof (Rmin_r (d / 2) (e / 2)). pose proof (Rmin_l (z - u1) (u2 - z)). pose proof (Rmin_r (z - u1) (u2 - z)). lra. }
  assert (Dz : forall w, dist (at_ z) (at_ w) = Rabs (w - z)).
  { intros w. unfold dist, at_. cbn [vx vy]. replace (h - h) with 0 by ring. rewrite Rmult_0_l, Rplus_0_r.
    change ((z - w) * (z - w)) with (Rsqr (z - w)). rewrite sqrt_Rsqr_abs. apply Rabs_minus_sym. }
  destruct (Of (z - m)) as (Oa & Sa); [lra|lra|]. destruct (Of (z + m)) as (Ob & Sb); [lra|lra|].
  rewrite (level_move u1 (z - m)) by (try lra; intros w Hw; apply Of; lra).
  rewrite <- (level_move (z + m) u2) by (try lra; intros w Hw; apply Of; lra).
  assert (Lv : nw (at_ (z - m)) s' = nw (at_ (z + m)) s').
  { apply nw_level; [exact Ok'|reflexivity| | |].
    - apply (f_equal vy) in E1. cbn [pos vy] in E1. rewrite E1. exact N1.
    - apply (f_equal vy) in E2. cbn [pos vy] in E2. rewrite E2. exact N2.
    - intros w Hw. rewrite level_line. intros O. specialize (K s' _ (or_introl eq_refl) O). rewrite Dz in K.
      assert (- m <= z - m + w * (z + m - (z - m)) - z <= m) by (split; nra). unfold Rabs in K. destruct (Rcase_abs _); lra. }
  rewrite (J (at_ (z - m))), (J (at_ (z + m))); auto; try (rewrite Dz; unfold Rabs; destruct (Rcase_abs _); lra).
  rewrite Lv.
  assert (O1 : over (sideof s (at_ (z - m))) = over (sideof s (at_ u1))) by (unfold over; specialize (S1 (z - m) ltac:(lra)); destruct (Rlt_dec _ _), (Rlt_dec _ _); tauto).
  assert (O2 : over (sideof s (at_ (z + m))) = over (sideof s (at_ u2))) by (unfold over; specialize (S2 (z + m) ltac:(lra)); destruct (Rlt_dec _ _), (Rlt_dec _ _); tauto).
  rewrite O1, O2. lia.
Qed.

Hypothesis Hin : Rabs (h - vy c) < r.
Definition half := sqrt (r * r - (h - vy c) * (h - vy c)).

Lemma half_sqr : half * half = r * r - (h - vy c) * (h - vy c).
Proof. apply sqrt_sqrt. pose proof arc_r. unfold Rabs in Hin. destruct (Rcase_abs _); nra. Qed.
Lemma half_pos : 0 < half.
Proof. apply sqrt_lt_R0. pose proof arc_r. unfold Rabs in Hin. destruct (Rcase_abs _); nra. Qed.

Lemma level_on w : on s (at_ w) -> w = vx c + half \/ w = vx c - half.
Proof.
  intros O. apply arc_circle in O. cbn [at_ vx vy] in O. pose proof half_sqr as Q.
  assert (P : (w - vx c - half) * (w - vx c + half) = 0) by nra. apply Rmult_integral in P as [P|P]; [left|right]; lra.
Qed.

Lemma level_sign u : sideof s (at_ u) = 2 * pbulge v1 * (half * half - (u - vx c) * (u - vx c)).
Proof. rewrite level_side, half_sqr. ring. Qed.

Definition turn : Z := if Rlt_dec 0 (pbulge v1) then 1%Z else (-1)%Z.

Lemma level_nonzero w : w <> vx c + half -> w <> vx c - half -> sideof s (at_ w) <> 0.
Proof.
  intros A B Q. rewrite level_sign in Q. apply Rmult_integral in Q as [Q|Q]; [lra|].
  assert (P : (w - vx c - half) * (w - vx c + half) = 0) by nra. apply Rmult_integral in P as [P|P]; lra.
Qed.

Lemma over_in u : Rabs (u - vx c) < half -> over (sideof s (at_ u)) = (if Rlt_dec 0 (pbulge v1) then 1 else 0)%Z.
Proof.
  intros B. assert (0 < half * half - (u - vx c) * (u - vx c)) by (unfold Rabs in B; destruct (Rcase_abs _); nra).
  unfold over. rewrite level_sign. destruct (Rlt_dec 0 (pbulge v1)), (Rlt_dec _ _); try reflexivity; exfalso; nra.
Qed.
Lemma over_out u : half < Rabs (u - vx c) -> over (sideof s (at_ u)) = (if Rlt_dec 0 (pbulge v1) then 0 else 1)%Z.
Proof.
  pose proof half_pos. intros B. assert (half * half - (u - vx c) * (u - vx c) < 0) by (unfold Rabs in B; destruct (Rcase_abs _); nra).
  unfold over. rewrite level_sign. destruct (Rlt_dec 0 (pbulge v1)), (Rlt_dec _ _); try reflexivity; exfalso; nra.
Qed.
Lemma same_over x y : over x = over y -> (0 < x <-> 0 < y).
Proof. unfold over. destruct (Rlt_dec 0 x), (Rlt_dec 0 y); intros; tauto || discriminate. Qed.

Lemma arc_level nR nL u :
  (on s (at_ (vx c + half)) /\ nR = 1%Z \/ ~ on s (at_ (vx c + half)) /\ nR = 0%Z) ->
  (on s (at_ (vx c - half)) /\ nL = 1%Z \/ ~ on s (at_ (vx c - half)) /\ nL = 0%Z) ->
  u <> vx c + half -> u <> vx c - half ->
  nw (at_ u) s = (turn * ((if Rlt_dec u (vx c + half) then nR else 0) - (if Rlt_dec u (vx c - half) then nL else 0)))%Z.
Proof.
  intros HR HL Ur Ul. pose proof half_pos as P.
  assert (A : forall u, vx c + half < u -> nw (at_ u) s = 0%Z).
  { intros w Hw. apply level_right. intros y Hy O. apply level_on in O. lra. }
  assert (B : forall u, vx c - half < u < vx c + half -> nw (at_ u) s = (turn * nR)%Z).
  { intros w Hw. destruct HR as [(O & ->)|(O & ->)].
    - rewrite (level_across (vx c + half) w (vx c + half + 1)); [|lra| |exact O| |].
      + rewrite A by lra. rewrite over_in by (apply Rabs_def1; lra). rewrite over_out by (rewrite Rabs_right; lra). unfold turn. destruct (Rlt_dec 0 _); reflexivity.
      + intros y Hy NE. split; [intros Q; apply level_on in Q; lra|apply level_nonzero; lra].
      + intros y Hy. apply same_over. rewrite !over_in by (apply Rabs_def1; lra). reflexivity.
      + intros y Hy. apply same_over. rewrite !over_out by (rewrite Rabs_right; lra). reflexivity.
    - rewrite (level_move w (vx c + half + 1)); [|lra|intros y Hy Q; destruct (level_on y Q) as [E|E]; subst y; [contradiction|lra]]. rewrite A by lra. lia. }
  destruct (Rlt_dec u (vx c - half)) as [L|L]; [|destruct (Rlt_dec u (vx c + half)) as [L'|L']].
  - destruct (Rlt_dec u (vx c + half)); [|lra]. destruct HL as [(O & ->)|(O & ->)].
    + rewrite (level_across (vx c - half) u (vx c)); [|lra| |exact O| |].
      * rewrite B by lra. rewrite (over_in (vx c)) by (apply Rabs_def1; lra). rewrite (over_out u) by (rewrite Rabs_left; lra). unfold turn. destruct (Rlt_dec 0 _); lia.
      * intros y Hy NE. split; [intros Q; apply level_on in Q; lra|apply level_nonzero; lra].
      * intros y Hy. apply same_over. rewrite !over_out by (rewrite Rabs_left; lra). reflexivity.
      * intros y Hy. apply same_over. rewrite !over_in by (apply Rabs_def1; lra). reflexivity.
    + rewrite (level_move u (vx c)); [|lra|intros y Hy Q; destruct (level_on y Q) as [E|E]; subst y; [lra|contradiction]]. rewrite B by lra. lia.
  - rewrite B by lra. lia.
  - rewrite A by lra. lia.
Qed.
End Level.
End Arc.
