(** The raw offset of a polygon holds every point at the distance of the offset on its side (C78). *)
From Coq Require Import Reals ZArith Bool List Arith Lra Lia Psatz Classical.
From Verif Require Import Num RNum Res ModelMath ModelSeg ModelPline.
From Verif Require Import Spec SpecPline SpecGeom SpecIntr SpecBox SpecView SpecPrune SpecBoolean SpecOffset SpecOffsetJoin SpecJordan SpecPolyOff SpecRound.
From Verif Require Import ProofR ProofArc ProofRound3 ProofRay ProofWinding2 ProofWinding6 ProofWinding7 ProofNest ProofOverlap ProofJordan ProofJordan2 ProofConvexOff ProofOff2 ProofOff3 ProofOff4.
From Verif Require ProofIntr ProofMeasure ProofConvex ProofPolyOff2 ProofRawNear2.
Import ListNotations.
Local Open Scope R_scope.

Lemma nearest_before z a b t : 0 <= t < 1 -> (forall u, 0 <= u <= 1 -> dist z (line_pt a b t) <= dist z (line_pt a b u)) -> dot (vec (line_pt a b t) z) (vec a b) <= 0.
Proof.
  intros Ht M. apply Rnot_lt_le. intros D. destruct (towards z (line_pt a b t) b) as (s & Hs & L).
  - replace (dot (vec (line_pt a b t) z) (vec (line_pt a b t) b)) with ((1 - t) * dot (vec (line_pt a b t) z) (vec a b)) by (unfold dot, vec, line_pt; cbn [vx vy]; ring). apply Rmult_lt_0_compat; lra.
  - replace (line_pt (line_pt a b t) b s) with (line_pt a b (t + s * (1 - t))) in L by (unfold line_pt; apply vec2_eq; cbn [vx vy]; ring).
    assert (0 <= s * (1 - t)) by (apply Rmult_le_pos; lra). assert (0 <= (1 - s) * (1 - t)) by (apply Rmult_le_pos; lra). specialize (M (t + s * (1 - t)) ltac:(lra)). lra.
Qed.

Lemma nearest_after z a b t : 0 < t <= 1 -> (forall u, 0 <= u <= 1 -> dist z (line_pt a b t) <= dist z (line_pt a b u)) -> 0 <= dot (vec (line_pt a b t) z) (vec a b).
Proof.
  intros Ht M. pose proof (nearest_before z b a (1 - t) ltac:(lra)) as Q. rewrite line_back in Q. replace (1 - (1 - t)) with t in Q by ring.
  assert (H : dot (vec (line_pt a b t) z) (vec b a) <= 0). { apply Q. intros u Hu. rewrite (line_back b a u). apply M. lra. }
  unfold dot, vec in *. cbn [vx vy] in *. lra.
Qed.

Section Cover.
Variables (ps : list (vec2 R)) (d eps : R) (vss : list (list (vertex R))) (o : Z).
Let p := polygon ps.
Let sides := spec_segs ps true.
Let raw := PL (going_round vss) true.
Let n := length ps.
Hypothesis Hd : d <> 0.
Hypothesis He : 0 < eps.
Hypothesis Vl : valid_loop p.
Hypothesis Po : passes_once p.
Hypothesis Ho : o = 1%Z \/ o = (-1)%Z.
Hypothesis W : forall x, ~ on_path p x -> wn p x = 0%Z \/ wn p x = o.
Hypothesis MC : Forall2 (fun ss vs => corner_made d eps (fst (fst ss)) (snd (fst ss)) (snd (snd ss)) vs) (with_previous sides) vss.

Lemma cv_n : (2 <= n)%nat. Proof. exact (sides_count ps Vl). Qed.
Lemma cv_sides : length sides = n.
Proof. unfold sides. rewrite ProofIter.spec_segs_length. pose proof cv_n as N. unfold n in *. destruct ps as [|x [|y l]]; cbn in *; lia. Qed.
Lemma cv_len : length vss = n.
Proof. rewrite <- (forall2_length _ _ _ MC), with_previous_length. apply cv_sides. Qed.

Lemma corner_of i a b : nth_error sides i = Some (a, b) ->
  exists c vs, nth_error sides ((i + 1) mod n) = Some (b, c) /\ nth_error vss ((i + 1) mod n) = Some vs /\ corner_made d eps a b c vs.
Proof.
  intros E. pose proof cv_n as N. destruct (with_previous_next sides i (a, b) E) as (s & Es). rewrite cv_sides in Es.
  destruct (side_nth ps Vl ((i + 1) mod n)) as (b' & c & E2); [apply Nat.mod_upper_bound; unfold n; lia|]. fold sides in E2.
  assert (b' = b). { pose proof E2 as E4. apply ProofPolyOff2.segs_nth in E4 as (E4 & _). pose proof E as E3. apply ProofPolyOff2.segs_nth in E3 as (_ & E3). fold n in E3. congruence. } subst b'.
  destruct (with_previous_this sides _ _ E2) as (x & Ex). pose proof (eq_trans (eq_sym Es) Ex) as Q. injection Q as <- ->.
  destruct (nth_error vss ((i + 1) mod n)) as [vs|] eqn:Ev.
  2:{ exfalso. apply nth_error_None in Ev. rewrite cv_len in Ev. pose proof (Nat.mod_upper_bound (i + 1) n ltac:(lia)). lia. }
  exists c, vs. split; [exact E2|]. split; [reflexivity|].
  assert (F : forall (l : list (vec2 R * vec2 R * (vec2 R * vec2 R))) m i x y, Forall2 (fun ss vs => corner_made d eps (fst (fst ss)) (snd (fst ss)) (snd (snd ss)) vs) l m -> nth_error l i = Some x -> nth_error m i = Some y -> corner_made d eps (fst (fst x)) (snd (fst x)) (snd (snd x)) y).
  { clear. intros l m i x y H. revert i. induction H as [|x0 y0 l m H0 H IH]; intros [|i] E1 E2; try discriminate; cbn in *; [congruence|now apply (IH i)]. }
  exact (F _ _ _ _ _ MC Es Ev).
Qed.

Lemma corner_before k b c : nth_error sides k = Some (b, c) -> exists i a vs, (i + 1) mod n = k /\ nth_error sides i = Some (a, b) /\ nth_error vss k = Some vs /\ corner_made d eps a b c vs.
Proof.
  intros E. pose proof cv_n as N. assert (Lk : (k < n)%nat) by (rewrite <- cv_sides; apply nth_error_Some; congruence).
  set (i := ((k + (n - 1)) mod n)%nat). assert (Ei : ((i + 1) mod n = k)%nat).
  { unfold i. rewrite Nat.add_mod_idemp_l by lia. replace (k + (n - 1) + 1)%nat with (k + 1 * n)%nat by lia. rewrite Nat.mod_add by lia. now apply Nat.mod_small. }
  destruct (side_nth ps Vl i) as (a & b' & Ea); [apply Nat.mod_upper_bound; lia|]. fold sides in Ea.
  destruct (corner_of i a b' Ea) as (c' & vs & E2 & Ev & M). rewrite Ei in E2, Ev. rewrite E in E2. injection E2 as <- <-. exists i, a, vs. auto.
Qed.

Lemma ray_off z y : (forall y', on_path p y' -> Rabs d <= dist z y') -> dist z y <= Rabs d -> forall s, 0 < s <= 1 -> ~ on_path p (line_pt y z s).
Proof.
  intros F D s Hs On. specialize (F _ On). destruct (line_pt_ends y z) as (_ & X1). rewrite <- X1 in F at 1. rewrite ProofIntr.dist_line_pt, (Rabs_right (1 - s)) in F by lra.
  rewrite (ProofJordan2.dist_sym y z) in F. pose proof (ProofIntr.dist_pos z y). assert (0 < Rabs d) by now apply Rabs_pos_lt. assert (0 <= s * dist z y) by (apply Rmult_le_pos; lra).
  destruct (Req_dec (dist z y) 0) as [Q|Q]; [rewrite Q in F; lra|]. assert (0 < s * dist z y) by (apply Rmult_lt_0_compat; lra). lra.
Qed.

(** A foot on a side. *)
Lemma foot_normal z a b t m : left_normal a b m -> 0 < t < 1 -> (forall u, 0 <= u <= 1 -> dist z (line_pt a b t) <= dist z (line_pt a b u)) -> dist z (line_pt a b t) = Rabs d ->
  exists h, (h = d \/ h = - d) /\ z = moved (line_pt a b t) m h.
Proof.
  intros N Ht M D. pose proof (nearest_before z a b t ltac:(lra) M) as D1. pose proof (nearest_after z a b t ltac:(lra) M) as D2. set (f := line_pt a b t) in *.
  destruct (normal_dir _ _ _ N) as (U & PL & Bx & By). assert (D0 : (vx z - vx f) * vy m - (vy z - vy f) * vx m = 0).
  { assert (Q : dot (vec f z) (vec a b) = dist a b * ((vx z - vx f) * vy m - (vy z - vy f) * vx m)) by (unfold dot, vec; cbn [vx vy]; rewrite Bx, By; ring).
    assert (Q0 : dist a b * ((vx z - vx f) * vy m - (vy z - vy f) * vx m) = 0) by lra. apply Rmult_integral in Q0 as [Q0|Q0]; lra. }
  set (h := (vx z - vx f) * vx m + (vy z - vy f) * vy m).
  assert (X : vx z - vx f = h * vx m). { transitivity ((vx z - vx f) * (vx m * vx m + vy m * vy m)); [rewrite U; ring|]. transitivity (h * vx m + vy m * ((vx z - vx f) * vy m - (vy z - vy f) * vx m)); [unfold h; ring|rewrite D0; ring]. }
  assert (Y : vy z - vy f = h * vy m). { transitivity ((vy z - vy f) * (vx m * vx m + vy m * vy m)); [rewrite U; ring|]. transitivity (h * vy m - vx m * ((vx z - vx f) * vy m - (vy z - vy f) * vx m)); [unfold h; ring|rewrite D0; ring]. }
  exists h. split; [|unfold moved; apply vec2_eq; cbn [vx vy]; lra].
  assert (Q : h * h = d * d). { transitivity (dist z f * dist z f); [|rewrite D; symmetry; exact (Rsqr_abs d)]. rewrite ProofIntr.dist_sqr, X, Y. transitivity (h * h * (vx m * vx m + vy m * vy m)); [rewrite U; ring|ring]. }
  assert (Q2 : (h - d) * (h + d) = 0) by lra. apply Rmult_integral in Q2 as [Q2|Q2]; [left|right]; lra.
Qed.

Lemma side_sign h : (h = d \/ h = - d) -> (0 < IZR o * h <-> 0 < IZR o * d) -> h = d.
Proof. intros [-> | ->] Q; [reflexivity|]. exfalso. destruct Ho as [-> | ->]; destruct (Rdichotomy _ _ Hd); lra. Qed.

(** The line of a side. *)
Lemma side_line k b c m : nth_error sides k = Some (b, c) -> left_normal b c m ->
  exists v v' u t, In (v, v') (spec_segs (going_round vss) true) /\ pbulge v = 0 /\ pos v = line_pt (moved b m d) (moved c m d) u /\ pos v' = line_pt (moved b m d) (moved c m d) t /\ 0 <= u <= 1 /\ 0 <= t <= 1
    /\ (forall s, 0 <= s < u -> exists y, on_path p y /\ dist (moved (line_pt b c s) m d) y < Rabs d)
    /\ (forall s, t < s <= 1 -> exists y, on_path p y /\ dist (moved (line_pt b c s) m d) y < Rabs d).
Proof.
  intros E N. destruct (corner_before k b c E) as (i & a & vs & Ei & Ea & Ev & M). destruct (corner_of k b c E) as (f & vs' & Ef & Ev' & M').
  destruct (line_starts d eps Hd He a b c m vs M N) as (l & v & u & -> & Bv & Pv & Hu & T1). destruct (line_ends d eps Hd He b c f m vs' M' N) as (v' & l' & t & -> & Pv' & Ht & T2).
  exists v, v', u, t. split; [|split; [exact Bv|]; split; [exact Pv|]; split; [exact Pv'|]; split; [exact Hu|]; split; [exact Ht|]; split].
  - apply (round_next vss k v v' l l'); [rewrite cv_len; exact cv_n|exact Ev|rewrite cv_len; exact Ev'].
  - intros s Hs. destruct (T1 s Hs) as (y & Hy & D). exists (line_pt a b y). split; [|exact D]. exact (side_on ps a b y (nth_error_In _ _ Ea) Hy).
  - intros s Hs. destruct (T2 s Hs) as (y & Hy & D). exists (line_pt c f y). split; [|exact D]. exact (side_on ps c f y (nth_error_In _ _ Ef) Hy).
Qed.

Lemma moved_line b c m s : moved (line_pt b c s) m d = line_pt (moved b m d) (moved c m d) s.
Proof. unfold moved, line_pt. apply vec2_eq; cbn [vx vy]; ring. Qed.

Theorem covers_all z y : ~ on_path p z -> (inside p z = true <-> 0 < IZR o * d) -> (forall y', on_path p y' -> Rabs d <= dist z y') -> on_path p y -> dist z y = Rabs d -> on_path raw z.
Proof.
  intros Nz In_z Far Oy Dy.
  assert (CORNER : forall i a b c vs, nth_error sides i = Some (a, b) -> nth_error sides ((i + 1) mod n) = Some (b, c) -> nth_error vss ((i + 1) mod n) = Some vs -> corner_made d eps a b c vs -> dist z b = Rabs d -> on_path raw z).
  { intros i a b c vs E1 E2 Ev M Db.
    assert (Da : 0 <= dot (vec b z) (vec a b)).
    { pose proof (nearest_after z a b 1 ltac:(lra)) as Q. destruct (line_pt_ends a b) as (_ & X1). rewrite X1 in Q. apply Q. intros u Hu. rewrite Db. apply Far. exact (side_on ps a b u (nth_error_In _ _ E1) Hu). }
    assert (Dc : dot (vec b z) (vec b c) <= 0).
    { pose proof (nearest_before z b c 0 ltac:(lra)) as Q. destruct (line_pt_ends b c) as (X0 & _). rewrite X0 in Q. apply Q. intros u Hu. rewrite Db. apply Far. exact (side_on ps b c u (nth_error_In _ _ E2) Hu). }
    destruct M as [(q & (n1 & n2 & t & u & N1 & N2 & Ht & Hu & Q1 & Q2 & X) & ->)|(v & w & M & ->)].
    - exfalso. assert (Xn : cross (vec a b) (vec b c) <> 0) by (intros Q; rewrite Q, Rabs_R0 in X; lra).
      destruct (trim_facts d a b c n1 n2 t u N1 N2 Hd Ht (eq_trans (eq_sym Q1) Q2) Xn) as (_ & _ & _ & _ & Xc & _ & DS & _ & P1 & P2).
      assert (DX : 0 < d * cross (vec a b) (vec b c)).
      { rewrite Xc. replace (d * (dist a b * dist b c * (vx n1 * vy n2 - vy n1 * vx n2))) with (dist a b * dist b c * (d * (vx n1 * vy n2 - vy n1 * vx n2))) by ring. apply Rmult_lt_0_compat; [apply Rmult_lt_0_compat; assumption|exact DS]. }
      assert (Zb : z <> b). { intros ->. apply Nz. destruct (line_pt_ends a b) as (_ & X1). rewrite <- X1. apply (side_on ps a b 1 (nth_error_In _ _ E1)). lra. }
      pose proof (corner_out ps o Vl Po Ho W i a b c d z E1 E2 DX Zb Da Dc (ray_off z b Far ltac:(lra))) as Q. fold p in Q. rewrite In_z in Q.
      destruct Ho as [-> | ->]; destruct (Rdichotomy _ _ Hd); destruct Q as (Qa & Qb); lra.
    - exists v, w. split; [|exact (arc_holds d eps Hd a b c v w z M Db Da Dc)]. cbn [vtx is_closed raw]. exact (round_in vss _ [v; w] [] v w [] Ev eq_refl). }
  pose proof Oy as Oy'. apply ProofConvex.polygon_path in Oy' as (b & c & s & I & Hs & ->). destruct (In_nth_error _ _ I) as (k & E). fold sides in E.
  destruct (Req_dec s 1) as [->|S1].
  { destruct (line_pt_ends b c) as (_ & X1). rewrite X1 in Dy. destruct (corner_of k b c E) as (f & vs & Ef & Ev & M). exact (CORNER k b c f vs E Ef Ev M Dy). }
  destruct (Req_dec s 0) as [->|S0].
  { destruct (line_pt_ends b c) as (X0 & _). rewrite X0 in Dy. destruct (corner_before k b c E) as (i & a & vs & Ei & Ea & Ev & M). rewrite <- Ei in E, Ev. exact (CORNER i a b c vs Ea E Ev M Dy). }
  assert (Nbc : b <> c).
  { intros Q. rewrite Q in E. assert (A0 : point_at p k 0 c) by (apply (side_point ps _ _ _ _ E); [lra|apply line_pt_ends]). assert (A1 : point_at p k (1 / 2) c) by (apply (side_point ps _ _ _ _ E); [lra|cbn [fst snd]; unfold line_pt; apply vec2_eq; cbn [vx vy]; ring]).
    destruct (Po _ _ _ _ _ A0 A1 ltac:(lra) ltac:(lra)). lra. }
  assert (exists m, left_normal b c m) as (m & N) by (eexists; apply ProofOffsetJoin4.left_normal_exists; exact Nbc).
  assert (NE : forall u, 0 <= u <= 1 -> dist z (line_pt b c s) <= dist z (line_pt b c u)) by (intros u Hu; rewrite Dy; apply Far; exact (side_on ps b c u I Hu)).
  destruct (foot_normal z b c s m N ltac:(lra) NE Dy) as (h & Hh & Ez).
  assert (Hz : h = d).
  { apply side_sign; [exact Hh|]. rewrite <- In_z. symmetry. rewrite Ez. apply (pt_side ps o Vl Po Ho W b c s m h I ltac:(lra) N); [destruct Hh as [-> | ->]; lra|]. rewrite <- Ez. apply ray_off; [exact Far|lra]. }
  subst h. destruct (side_line k b c m E N) as (v & v' & u & t & J & Bv & Pv & Pv' & Hu & Ht & T1 & T2).
  assert (US : u <= s). { apply Rnot_lt_le. intros L. destruct (T1 s ltac:(lra)) as (y & On & D). rewrite <- Ez in D. specialize (Far y On). lra. }
  assert (ST : s <= t). { apply Rnot_lt_le. intros L. destruct (T2 s ltac:(lra)) as (y & On & D). rewrite <- Ez in D. specialize (Far y On). lra. }
  exists v, v'. split; [exact J|]. rewrite moved_line in Ez.
  destruct (Req_dec u t) as [Q|Q].
  - exists 0. split; [lra|]. apply seg_at_line; [exact Bv|]. destruct (line_pt_ends (pos v) (pos v')) as (X0 & _). rewrite X0, Pv, Ez. f_equal. lra.
  - exists ((s - u) / (t - u)). split.
    + split; [apply Rmult_le_pos; [lra|]; apply Rlt_le, Rinv_0_lt_compat; lra|]. apply Rmult_le_reg_r with (t - u); [lra|]. unfold Rdiv. rewrite Rmult_assoc, Rinv_l by lra. lra.
    + apply seg_at_line; [exact Bv|]. rewrite Pv, Pv', Ez. unfold line_pt. apply vec2_eq; cbn [vx vy]; field; lra.
Qed.

(** If the path keeps the distance, it is on the side of the offset. *)
Theorem right_side : pline_ok raw -> (forall q y, on_path raw q -> on_path p y -> Rabs d <= dist q y) -> (forall a b, In (a, b) (spec_segs (vtx raw) true) -> pos a <> pos b) ->
  forall q, on_path raw q -> (inside p q = true <-> 0 < IZR o * d).
Proof.
  intros Okr Keep Diff q Oq. assert (Ed : 0 < Rabs d) by now apply Rabs_pos_lt. pose proof cv_n as N2.
  destruct (side_nth ps Vl 0) as (b & c & E); [unfold n in N2; lia|]. fold sides in E.
  assert (Nbc : b <> c).
  { intros Q. rewrite Q in E. assert (A0 : point_at p 0 0 c) by (apply (side_point ps _ _ _ _ E); [lra|apply line_pt_ends]). assert (A1 : point_at p 0 (1 / 2) c) by (apply (side_point ps _ _ _ _ E); [lra|cbn [fst snd]; unfold line_pt; apply vec2_eq; cbn [vx vy]; ring]).
    destruct (Po _ _ _ _ _ A0 A1 ltac:(lra) ltac:(lra)). lra. }
  assert (exists m, left_normal b c m) as (m & N) by (eexists; apply ProofOffsetJoin4.left_normal_exists; exact Nbc).
  destruct (side_line 0 b c m E N) as (v & v' & u & t & J & Bv & Pv & Pv' & Hu & Ht & T1 & T2).
  assert (ON : forall k, 0 <= k <= 1 -> on_path raw (line_pt (pos v) (pos v') k)). { intros k Hk. exists v, v'. split; [exact J|]. exists k. split; [exact Hk|]. apply seg_at_line; [exact Bv|reflexivity]. }
  assert (UT : u < t).
  { destruct (Rtotal_order u t) as [L|[L|L]]; [exact L| |]; exfalso.
    - apply (Diff v v' J). rewrite Pv, Pv', L. reflexivity.
    - destruct (T2 u ltac:(lra)) as (y & On & D). specialize (Keep (pos v) y). rewrite moved_line, <- Pv in D. destruct (line_pt_ends (pos v) (pos v')) as (X0 & _). rewrite <- X0 in Keep at 1. specialize (Keep (ON 0 ltac:(lra)) On). lra. }
  set (s := (u + t) / 2). set (z := moved (line_pt b c s) m d).
  assert (Ez : z = line_pt (pos v) (pos v') (1 / 2)) by (unfold z; rewrite moved_line, Pv, Pv'; unfold s, line_pt; apply vec2_eq; cbn [vx vy]; field).
  assert (Oz : on_path raw z) by (rewrite Ez; apply ON; lra).
  assert (Dz : dist z (line_pt b c s) <= Rabs d).
  { destruct (normal_dir _ _ _ N) as (U & _). rewrite <- (Rabs_pos_eq (dist z (line_pt b c s))) by apply ProofIntr.dist_pos. right. apply Rsqr_eq_abs_0. unfold Rsqr. rewrite ProofIntr.dist_sqr. unfold z, moved. cbn [vx vy]. transitivity (d * d * (vx m * vx m + vy m * vy m)); [ring|rewrite U; ring]. }
  pose proof (pt_side ps o Vl Po Ho W b c s m d (nth_error_In _ _ E) ltac:(unfold s; lra) N Hd) as PS. fold z p in PS. specialize (PS (ray_off z (line_pt b c s) (fun y On => Keep z y Oz On) Dz)).
  assert (Ap : forall q, ~ (on_path p q /\ on_path raw q)). { intros q' (O1 & O2). specialize (Keep q' q' O2 O1). rewrite ProofJordan5.dist_self in Keep. lra. }
  assert (exists v0, nth_error (vtx raw) 0 = Some v0) as (v0 & E0). { cbn [vtx raw]. destruct (going_round vss) as [|v0 l]; [destruct J|]. now exists v0. }
  assert (Q : wn p q = wn p z) by (rewrite (wn_along p raw (ProofConvex.polygon_ok ps) Okr Ap q v0 E0 Oq), (wn_along p raw (ProofConvex.polygon_ok ps) Okr Ap z v0 E0 Oz); reflexivity).
  rewrite inside_iff, Q, <- inside_iff. exact PS.
Qed.
End Cover.
