(** Every point of the raw offset of a polygon is at the distance of the offset (C78). *)
From Coq Require Import Reals ZArith Bool List Arith Lra Lia Psatz Classical.
From Verif Require Import Num RNum Res ModelMath ModelSeg ModelPline.
From Verif Require Import Spec SpecPline SpecGeom SpecIntr SpecBox SpecView SpecPrune SpecBoolean SpecOffset SpecOffsetJoin SpecJordan SpecPolyOff SpecRound.
From Verif Require Import ProofR ProofArc ProofRound3 ProofRay ProofConvexOff ProofOff2 ProofOff3 ProofOff4 ProofOff5 ProofOff6 ProofWinding6.
From Verif Require ProofIntr ProofMeasure ProofConvex ProofPolyOff2 ProofOffsetJoin4.
From Verif Require Import ProofWinding7.
Import ListNotations.
Local Open Scope R_scope.

Lemma combine_in {A} (a : A) m : forall z x y, In (x, y) (combine (z :: m) (m ++ [a])) -> (exists l1 l2, z :: m = l1 ++ x :: y :: l2) \/ (exists m', z :: m = m' ++ [x] /\ y = a).
Proof.
  induction m as [|b m IH]; intros z x y.
  - intros [I|[]]. injection I as <- <-. right. exists []. auto.
  - intros [I|I].
    + injection I as <- <-. left. exists [], m. reflexivity.
    + destruct (IH b x y I) as [(l1 & l2 & E)|(m' & E & Ey)]; [left; exists (z :: l1), l2|right; exists (z :: m')]; cbn [app]; rewrite E; auto.
Qed.
Lemma segs_follow {A} (l : list A) x y : In (x, y) (spec_segs l true) -> follows l x y.
Proof.
  destruct l as [|a [|b l]]; [destruct 1..|]. intros I. cbn [spec_segs tl] in I. destruct (combine_in a (b :: l) a x y I) as [H|(m' & E & ->)]; [now left|]. right.
  destruct m' as [|c m']; [destruct l; discriminate|]. injection E as <- E. exists m'. rewrite E. reflexivity.
Qed.
Lemma round_follows (vss : list (list (vertex R))) x y : follows (going_round vss) x y -> follows (concat vss) x y.
Proof.
  destruct vss as [|vs t]; [exact (fun H => H)|]. cbn [concat going_round]. intros H. rewrite app_assoc in H. apply follows_rotate in H. rewrite app_assoc, firstn_skipn in H. exact H.
Qed.

Lemma concat_pair {A} (vss : list (list A)) l1 x y l2 : (forall vs, In vs vss -> vs <> []) -> concat vss = l1 ++ x :: y :: l2 ->
  (exists i m1 m2, nth_error vss i = Some (m1 ++ x :: y :: m2)) \/ (exists i m1 m2, nth_error vss i = Some (m1 ++ [x]) /\ nth_error vss (i + 1) = Some (y :: m2)).
Proof.
  revert l1. induction vss as [|vs t IH]; intros l1 NE E; [destruct l1; discriminate|]. cbn [concat] in E.
  assert (NT : forall vs, In vs t -> vs <> []) by (intros; apply NE; now right).
  destruct (app_eq_app _ _ _ _ E) as (m & [(E1 & E2)|(E1 & E2)]).
  - destruct m as [|x' [|y' m]].
    + cbn in E2. specialize (IH [] NT (eq_sym E2)) as [(i & a & b & Q)|(i & a & b & Q & Q')]; [left; exists (S i), a, b|right; exists (S i), a, b]; cbn; auto.
    + injection E2 as <- E2. right. exists 0%nat, l1. destruct t as [|v t]; [destruct l2; discriminate|]. destruct v as [|y' v]; [now destruct (NT [] (or_introl eq_refl))|]. injection E2 as <- _. exists v. cbn. now rewrite E1.
    + injection E2 as <- <- _. left. exists 0%nat, l1, m. cbn. now rewrite E1.
  - specialize (IH m NT E2) as [(i & a & b & Q)|(i & a & b & Q & Q')]; [left; exists (S i), a, b|right; exists (S i), a, b]; cbn; auto.
Qed.
Lemma concat_ends {A} (vss : list (list A)) y m x : (forall vs, In vs vss -> vs <> []) -> concat vss = y :: m ++ [x] ->
  exists m1 m2, nth_error vss (length vss - 1) = Some (m1 ++ [x]) /\ nth_error vss 0 = Some (y :: m2).
Proof.
  intros NE E. destruct vss as [|v t]; [discriminate|]. destruct v as [|y' v]; [now destruct (NE [] (or_introl eq_refl))|]. cbn in E. injection E as -> E.
  destruct (exists_last (l := (y :: v) :: t)) as (u & z & EU); [discriminate|]. assert (Z : z <> []) by (apply NE; rewrite EU; apply in_app_iff; right; now left).
  destruct (exists_last Z) as (m1 & x' & ->). exists m1, v. split; [|reflexivity].
  assert (x' = x). { assert (Q : concat ((y :: v) :: t) = y :: m ++ [x]) by (cbn; now rewrite E). rewrite EU, concat_app in Q. cbn [concat] in Q. rewrite app_nil_r, app_assoc in Q. rewrite app_comm_cons in Q. now apply app_inj_tail in Q as (_ & Q). }
  subst x'. rewrite EU, app_length. cbn [length]. replace (length u + 1 - 1)%nat with (length u) by lia. rewrite nth_error_app2 by lia. now rewrite Nat.sub_diag.
Qed.
(** A segment of the path is within a corner or joins two neighbouring ones. *)
Lemma round_pairs (vss : list (list (vertex R))) v w : (2 <= length vss)%nat -> (forall vs, In vs vss -> vs <> []) -> In (v, w) (spec_segs (going_round vss) true) ->
  (exists i m1 m2, nth_error vss i = Some (m1 ++ v :: w :: m2))
  \/ exists i m1 m2, (i < length vss)%nat /\ nth_error vss i = Some (m1 ++ [v]) /\ nth_error vss ((i + 1) mod length vss) = Some (w :: m2).
Proof.
  intros L NE I. apply segs_follow, round_follows in I as [(l1 & l2 & E)|(m & E)].
  - destruct (concat_pair vss l1 v w l2 NE E) as [H|(i & a & b & Q & Q')]; [now left|right]. exists i, a, b. assert (L' : (i + 1 < length vss)%nat) by (apply nth_error_Some; congruence). split; [lia|]. split; [exact Q|]. now rewrite Nat.mod_small.
  - right. destruct (concat_ends vss w m v NE E) as (m1 & m2 & Q & Q'). exists (length vss - 1)%nat, m1, m2. split; [lia|]. split; [exact Q|]. replace (length vss - 1 + 1)%nat with (length vss) by lia. rewrite Nat.mod_same by lia. exact Q'.
Qed.

Section Touch.
Variables (ps : list (vec2 R)) (d eps : R) (vss : list (list (vertex R))) (o : Z).
Let p := polygon ps.
Let sides := spec_segs ps true.
Let raw := PL (going_round vss) true.
Let n := length ps.
Hypothesis Hd : d <> 0.
Hypothesis He : 0 < eps.
Hypothesis Vl : valid_loop p.
Hypothesis Po : passes_once p.
Hypothesis W : forall x, ~ on_path p x -> wn p x = 0%Z \/ wn p x = o.
Hypothesis MC : Forall2 (fun ss vs => corner_made d eps (fst (fst ss)) (snd (fst ss)) (snd (snd ss)) vs) (with_previous sides) vss.

Lemma to_normal b c s m : left_normal b c m -> dist (moved (line_pt b c s) m d) (line_pt b c s) = Rabs d.
Proof.
  intros N. destruct (normal_dir _ _ _ N) as (U & _). rewrite <- (Rabs_pos_eq (dist _ _)) by apply ProofIntr.dist_pos. apply Rsqr_eq_abs_0. unfold Rsqr. rewrite ProofIntr.dist_sqr. unfold moved. cbn [vx vy]. transitivity (d * d * (vx m * vx m + vy m * vy m)); [ring|rewrite U; ring].
Qed.

Lemma side_of k vs : nth_error vss k = Some vs -> exists b c, nth_error sides k = Some (b, c).
Proof. intros E. apply (side_nth ps Vl). rewrite <- (cv_len ps d eps vss o Vl Po W MC). apply nth_error_Some. congruence. Qed.

Theorem touches q : on_path raw q -> exists y, on_path p y /\ dist q y = Rabs d.
Proof.
  intros (v & w & I & O). cbn [is_closed vtx raw] in I. pose proof (cv_len ps d eps vss o Vl Po W MC) as LN. pose proof (cv_n ps Vl) as N2.
  apply round_pairs in I; [|rewrite LN; exact N2|].
  2:{ intros vs J. destruct (In_nth_error _ _ J) as (k & E). destruct (side_of k vs E) as (b & c & Es). destruct (corner_before ps d eps vss o Vl Po W MC k b c Es) as (i & a & vs' & _ & _ & Ev & M).
      pose proof (eq_trans (eq_sym E) Ev) as Q. injection Q as <-. destruct M as [(q0 & _ & ->)|(v0 & w0 & _ & ->)]; discriminate. }
  destruct I as [(i & m1 & m2 & E)|(i & m1 & m2 & Li & E & E')].
  - destruct (side_of _ _ E) as (b & c & Es). destruct (corner_before ps d eps vss o Vl Po W MC i b c Es) as (i0 & a & vs' & _ & Ea & Ev & M).
    pose proof (eq_trans (eq_sym E) Ev) as Q. injection Q as Q. destruct M as [(q0 & _ & ->)|(v0 & w0 & M & ->)]; [destruct m1 as [|? [|]]; discriminate|].
    assert (m1 = [] /\ v = v0 /\ w = w0) as (-> & -> & ->) by (destruct m1 as [|x [|x' m1]]; [injection Q as -> -> _; auto|discriminate Q|destruct m1; discriminate Q]).
    destruct M as (nn & n' & al & N & N' & _ & _ & _ & Pv0 & _ & A & _). exists b. split.
    + destruct (line_pt_ends a b) as (_ & X). rewrite <- X. apply (side_on ps); [exact (nth_error_In _ _ Ea)|lra].
    + destruct O as (t & Ht & St). destruct (Req_dec (pbulge v0) 0) as [Z|Z]; [|exact (arc_at_dist _ _ _ _ _ _ Z (ex_intro _ al A) St)].
      apply seg_at_line in St; [|exact Z]. destruct A as (_ & E1 & E2). rewrite Z in E2. replace (sweep 0) with 0 in E2 by (unfold sweep; rewrite atan_0; ring). rewrite Rplus_0_r, <- E1 in E2.
      assert (Eq : q = pos v0) by (rewrite St, E2; unfold line_pt; apply vec2_eq; cbn [vx vy]; ring). rewrite Eq, Pv0. destruct (line_pt_ends a b) as (_ & X). rewrite <- X. now apply to_normal.
  - destruct (side_of _ _ E) as (b & c & Es). destruct (corner_before ps d eps vss o Vl Po W MC i b c Es) as (i0 & a & vs & _ & Ea & Ev & M).
    pose proof (eq_trans (eq_sym E) Ev) as Q. injection Q as <-. destruct (corner_of ps d eps vss o Vl Po W MC i b c Es) as (f & vs' & Ef & Ev' & M'). fold n in Ev'. rewrite LN in E'. pose proof (eq_trans (eq_sym E') Ev') as Q. injection Q as <-.
    assert (Nbc : b <> c). { destruct M as [(q0 & (n1 & n2 & _ & _ & N1 & (_ & _ & N2') & _) & _)|(v0 & w0 & (n1 & n2 & al & N1 & (_ & _ & N2') & _) & _)]; intros Q; rewrite Q in N2'; unfold cross, vec in N2'; cbn [vx vy] in N2'; lra. }
    assert (exists m, left_normal b c m) as (m & N) by (eexists; apply ProofOffsetJoin4.left_normal_exists; exact Nbc).
    destruct (line_starts d eps Hd He a b c m _ M N) as (l & v1 & u & Q & Bv & Pv & Hu & _). apply app_inj_tail in Q as (_ & <-).
    destruct (line_ends d eps Hd He b c f m _ M' N) as (w1 & l' & t & Q & Pw & Ht & _). injection Q as <- _.
    destruct O as (k & Hk & St). apply seg_at_line in St; [|exact Bv].
    set (s := (1 - k) * u + k * t). assert (Hs : 0 <= s <= 1) by (unfold s; split; [assert (0 <= (1 - k) * u) by (apply Rmult_le_pos; lra); assert (0 <= k * t) by (apply Rmult_le_pos; lra); lra|assert (0 <= (1 - k) * (1 - u)) by (apply Rmult_le_pos; lra); assert (0 <= k * (1 - t)) by (apply Rmult_le_pos; lra); lra]).
    exists (line_pt b c s). split; [apply (side_on ps); [exact (nth_error_In _ _ Es)|exact Hs]|].
    replace q with (moved (line_pt b c s) m d); [now apply to_normal|]. rewrite St, Pv, Pw, moved_line. unfold s, line_pt. apply vec2_eq; cbn [vx vy]; ring.
Qed.
End Touch.
