(** Validation of whole and rotated views; what a valid view is (C57). *)
From Coq Require Import Reals ZArith Bool List Arith Lra Lia Psatz.
From Verif Require Import Num RNum Res ModelMath ModelIntr ModelSeg ModelPline ModelView.
From Verif Require Import Spec SpecPline SpecGeom SpecIntr SpecView SpecClosest SpecValid.
From Verif Require Import ProofR ProofBase ProofIter ProofInvert ProofIntr ProofArc ProofView ProofView2 ProofSlice ProofSlice2 ProofSegIntr ProofSegIntr5 ProofClosest2 ProofValid.
Import ListNotations.
Local Open Scope R_scope.

Ltac vcbn := cbn [vd_updated_start vd_end_point vd_start_index vd_end_index_offset vd_updated_end_bulge].

Lemma vertex_exists (p : pline R) k : (k < vertex_count p)%nat -> exists x, nth_error (vtx p) k = Some x.
Proof. intros Hk. destruct (nth_error (vtx p) k) as [x|] eqn:X; [eauto|]. apply nth_error_None in X. unfold vertex_count in Hk. lia. Qed.

Lemma clear_not_fuzzy eps (p : pline R) k c e : 1 / 100000 <= eps -> clear_pline eps p ->
  nth_error (spec_segs (vtx p) (is_closed p)) k = Some (c, e) -> v2fuzzy_eq_eps (pos e) (pos c) (1 / 100000) = false.
Proof.
  intros Hv HC H. destruct (HC c e (nth_error_In _ _ H)) as (_ & CL). apply not_true_is_false. intros F. apply v2fuzzy_R in F. cbn [pos vx vy] in F.
  rewrite (Rabs_minus_sym (px e)), (Rabs_minus_sym (py e)) in F. lra.
Qed.

Lemma entire_valid eps (p : pline R) d : 1 / 100000 <= eps -> clear_pline eps p -> view_from_entire_pline p = Ret d -> validate_for_source d p = Ret VVIsValid.
Proof.
  intros Hv HC E. unfold view_from_entire_pline in E. set (n := vertex_count p) in *. destruct (Nat.ltb_spec n 2) as [L|H2]; [discriminate|].
  destruct (vertex_exists p 0) as (v0 & H0); [fold n; lia|]. rewrite (at_ok p 0 v0 H0) in E. cbn [rbind] in E.
  destruct (vertex_exists p 1) as (v1 & H1); [fold n; lia|].
  assert (H1' : nth_error (vtx p) ((0 + 1) mod vertex_count p)%nat = Some v1) by (fold n; rewrite Nat.mod_small by lia; exact H1).
  destruct (Bool.bool_dec (is_closed p) true) as [CP|CP].
  - rewrite CP in E. destruct (vertex_exists p (n - 1)) as (l & Hl); [fold n; lia|].
    unfold last_ in E. rewrite usub_ok in E by (fold n; lia). cbn [rbind] in E. unfold get in E. fold n in E. rewrite Hl in E. cbn [unwrap rbind] in E. injection E as <-.
    assert (FW : fwd_wrapping_index p 0 (n - 1) = (n - 1)%nat) by (unfold fwd_wrapping_index; fold n; cbn [Nat.add]; destruct (Nat.ltb_spec (n - 1) n); lia).
    assert (HN : nth_error (vtx p) ((n - 1 + 1) mod vertex_count p)%nat = Some v0) by (fold n; replace (n - 1 + 1)%nat with n by lia; rewrite Nat.mod_same by lia; exact H0).
    apply (validate_ok p _ v0 v1 l v0); vcbn; fold n; rewrite ?FW; auto; try lia.
    destruct (segs_at_intro p (n - 1)) as (x & y & Hxy); [fold n; lia|fold n; lia|congruence|]. destruct (segs_at p _ x y Hxy) as (_ & _ & _ & Hx & Hy).
    assert (x = l) by congruence. assert (y = v0) by congruence. subst. exact (clear_not_fuzzy eps p _ l v0 Hv HC Hxy).
  - apply not_true_is_false in CP. rewrite CP in E. destruct (vertex_exists p (n - 1)) as (l & Hl); [fold n; lia|]. destruct (vertex_exists p (n - 2)) as (w & Hw); [fold n; lia|].
    rewrite (at_ok p _ w Hw), (at_ok p _ l Hl) in E. cbn [rbind] in E. injection E as <-.
    assert (FW : fwd_wrapping_index p 0 (n - 2) = (n - 2)%nat) by (unfold fwd_wrapping_index; fold n; cbn [Nat.add]; destruct (Nat.ltb_spec (n - 2) n); lia).
    assert (HN : nth_error (vtx p) ((n - 2 + 1) mod vertex_count p)%nat = Some l) by (fold n; rewrite Nat.mod_small by lia; replace (n - 2 + 1)%nat with (n - 1)%nat by lia; exact Hl).
    apply (validate_ok p _ v0 v1 w l); vcbn; fold n; rewrite ?FW; auto; try lia.
    + destruct (segs_at_intro p (n - 2)) as (x & y & Hxy); [fold n; lia|fold n; lia|intros _; fold n; lia|]. destruct (segs_at p _ x y Hxy) as (_ & _ & _ & Hx & Hy).
      assert (x = w) by congruence. assert (y = l) by congruence. subst. exact (clear_not_fuzzy eps p _ w l Hv HC Hxy).
    + intros Z. rewrite Z in Hw. congruence.
Qed.

Lemma new_start_valid eps (p : pline R) i t sp d : 1 / 100000 <= eps -> clear_pline eps p -> point_at p i t sp -> crisp_vertexes eps p sp ->
  (is_closed p = false -> forall l, nth_error (vtx p) (vertex_count p - 1) = Some l -> crisp_vertexes eps p (pos l)) ->
  view_from_new_start p sp i eps = Ret (Some d) -> validate_for_source d p = Ret VVIsValid.
Proof.
  intros Hv HC HP Csp Cl E. assert (He : 0 < eps) by lra. set (n := vertex_count p) in *.
  destruct (Bool.bool_dec (is_closed p) true) as [CP|CP].
  - destruct (new_start_closed p eps i t sp He CP HC HP Csp) as (d' & E' & F1 & F2 & F3 & F4 & l & first & last & EL & _ & HF & PF & HL & PL). rewrite E in E'. injection E' as <-.
    destruct (view_forward_spec d p F1 F2 F3) as (_ & EL' & LL). rewrite EL in EL'. injection EL' as ->.
    assert (PS : pos (vd_updated_start d) = sp) by (unfold fwd_list in HF; cbn in HF; injection HF as <-; exact PF). clear PF HF HL PL LL EL.
    destruct HP as (a & b & Hab & Ht & Q). destruct (segs_at p i a b Hab) as (Hi & H2 & _ & Ha & Hb). fold n in Hi, H2, Hb. destruct (HC a b (nth_error_In _ _ Hab)) as (SO & _).
    unfold view_from_new_start in E. rewrite CP in E. cbn [negb] in E. fold n in E. destruct (Nat.ltb_spec n 2); [lia|].
    rewrite (next_wrapping_index_mod p i Hi) in E. fold n in E. rewrite (at_ok p _ b Hb) in E. cbn [rbind] in E.
    set (s := if v2fuzzy_eq_eps (pos b) sp eps then ((i + 1) mod n)%nat else i) in E.
    assert (Hs : (s < n)%nat) by (unfold s; destruct (v2fuzzy_eq_eps (pos b) sp eps); [apply Nat.mod_upper_bound; lia|exact Hi]).
    assert (DS : s = i \/ (s = ((i + 1) mod n)%nat /\ sp = pos b)).
    { unfold s. destruct (v2fuzzy_eq_eps (pos b) sp eps) eqn:F; [right|left; reflexivity]. split; [reflexivity|]. symmetry. apply (crisp_true eps); auto. apply Csp. exact (nth_error_In _ _ Hb). }
    clearbody s. destruct (segs_at_intro p s) as (sv & sv2 & Hss); [exact H2|exact Hs|congruence|]. destruct (segs_at p s sv sv2 Hss) as (_ & _ & _ & Hsv & Hsv2). fold n in Hsv2.
    assert (SS : sp = pos sv \/ sp = pos sv2 \/ (seg_ok sv sv2 /\ on_seg sv sv2 sp)).
    { destruct DS as [-> |(-> & Es)].
      - right. right. assert (sv = a) by congruence. assert (sv2 = b) by congruence. subst. split; [exact SO|]. exists t. auto.
      - left. rewrite Es. congruence. }
    rewrite (at_ok p s sv Hsv) in E. cbn [rbind] in E. rewrite (next_wrapping_index_mod p s Hs) in E. fold n in E. rewrite (at_ok p _ sv2 Hsv2) in E. cbn [rbind] in E.
    destruct (v2fuzzy_eq_eps (pos sv) sp eps) eqn:F.
    + assert (EQ : pos sv = sp) by (apply (crisp_true eps); auto; apply Csp; exact (nth_error_In _ _ Hsv)).
      destruct (prev_wrapping_index p s) as [pi|]; [|discriminate]. cbn [rbind] in E. destruct (at_ p pi) as [pv|]; [|discriminate]. cbn [rbind] in E. injection E as <-.
      cbn [vd_updated_start vd_end_point vd_start_index vd_end_index_offset vd_updated_end_bulge] in *.
      set (k := fwd_wrapping_index p s (n - 1)).
      assert (KK : (k < n)%nat /\ ((k + 1) mod n)%nat = s).
      { unfold k, fwd_wrapping_index. fold n. destruct (Nat.ltb_spec (s + (n - 1)) n).
        - assert (s = 0%nat) by lia. subst s. split; [lia|]. replace (0 + (n - 1) + 1)%nat with n by lia. apply Nat.mod_same. lia.
        - split; [lia|]. rewrite Nat.mod_small by lia. lia. }
      destruct KK as (Kn & Ks). destruct (segs_at_intro p k) as (x & y & Hxy); [exact H2|exact Kn|congruence|]. destruct (segs_at p k x y Hxy) as (_ & _ & _ & Hx & Hy). fold n in Hy. rewrite Ks in Hy.
      assert (y = sv) by congruence. subst y.
      apply (validate_ok p _ sv sv2 x sv); cbn [vd_updated_start vd_end_point vd_start_index vd_end_index_offset vd_updated_end_bulge]; fold n; fold k; auto.
      * rewrite PS. exact SS.
      * rewrite Ks. exact Hsv.
      * rewrite <- EQ. exact (clear_not_fuzzy eps p k x sv Hv HC Hxy).
    + cbn [rbind] in E. injection E as <-. cbn [vd_updated_start vd_end_point vd_start_index vd_end_index_offset vd_updated_end_bulge] in *.
      assert (FW : fwd_wrapping_index p s n = s) by (unfold fwd_wrapping_index; fold n; destruct (Nat.ltb_spec (s + n) n); lia).
      apply (validate_ok p _ sv sv2 sv sv2); cbn [vd_updated_start vd_end_point vd_start_index vd_end_index_offset vd_updated_end_bulge]; fold n; rewrite ?FW; auto.
      * rewrite PS. exact SS.
      * apply (apart_not_fuzzy eps); [exact Hv|apply Csp; exact (nth_error_In _ _ Hsv)|]. intros X. rewrite X, fuzzy_refl in F by exact He. discriminate.
  - apply not_true_is_false in CP. pose proof HP as (a & b & Hab & Ht & Q). destruct (segs_at p i a b Hab) as (Hi & H2 & HiO & Ha & Hb). specialize (HiO CP). fold n in Hi, H2, HiO.
    destruct (vertex_exists p (n - 1)) as (l & Hl); [fold n; lia|]. specialize (Cl CP l Hl).
    unfold view_from_new_start in E. rewrite CP in E. cbn [negb] in E. unfold last_ in E. rewrite usub_ok in E by (fold n; lia). cbn [rbind] in E. unfold get in E. fold n in E. rewrite Hl in E.
    apply (slice_valid p eps i t sp (n - 1) 0 (pos l)); auto.
    + right. split; [exact CP|]. split; [reflexivity|]. split; [fold n; lia|]. exists l. auto.
    + apply crisp_sym, Csp. exact (nth_error_In _ _ Hl).
    + intros _. left. lia.
    + intros X. lia.
Qed.

(** ** What validity says *)
Lemma at_inv (p : pline R) k a : at_ p k = Ret a -> nth_error (vtx p) k = Some a.
Proof. unfold at_, index. intros H. destruct (nth_error (vtx p) k) eqn:X; [|discriminate]. congruence. Qed.

Lemma alike_sym eps p q : alike eps p q -> alike eps q p.
Proof. unfold alike. now rewrite (Rabs_minus_sym (vx p)), (Rabs_minus_sym (vy p)). Qed.

Lemma on_segment_means (p : pline R) k q : point_is_on_segment p k q = Ret true -> near_path (vtx p) k q.
Proof.
  unfold point_is_on_segment. rewrite lit3, lit5. intros E. destruct (at_ p k) as [a|] eqn:A; [|discriminate]. apply at_inv in A. cbn [rbind] in E.
  assert (Hk : (k < vertex_count p)%nat) by (apply nth_error_Some; congruence). rewrite (next_wrapping_index_mod p k Hk) in E.
  destruct (at_ p _) as [b|] eqn:B in E; [|discriminate]. apply at_inv in B. cbn [rbind] in E. exists a, b. split; [exact A|]. split; [exact B|].
  destruct (v2fuzzy_eq_eps q (pos a) (1 / 1000)) eqn:F1; [left; now apply v2fuzzy_R|]. destruct (v2fuzzy_eq_eps q (pos b) (1 / 1000)) eqn:F2; [right; left; now apply v2fuzzy_R|].
  cbn [orb] in E. injection E as E. apply v2fuzzy_R in E. right. right. intros Ok NG. destruct (seg_closest a b q (1 / 100000) Ok ltac:(lra)) as (On & _).
  exists (seg_closest_point a b q (1 / 100000)). split; [exact (On NG)|exact E].
Qed.

Lemma valid_means (d : view_data R) (p : pline R) : validate_for_source d p = Ret VVIsValid ->
  let n := vertex_count p in
  (2 <= n)%nat /\ (vd_start_index d < n)%nat /\ (vd_end_index_offset d <= n)%nat
  /\ near_path (vtx p) (vd_start_index d) (pos (vd_updated_start d))
  /\ near_path (vtx p) ((vd_start_index d + vd_end_index_offset d) mod n) (vd_end_point d)
  /\ (forall v, nth_error (vtx p) ((vd_start_index d + vd_end_index_offset d) mod n) = Some v -> ~ alike (1 / 100000) (vd_end_point d) (pos v))
  /\ (vd_end_index_offset d = 0%nat -> Rabs (vd_updated_end_bulge d - pbulge (vd_updated_start d)) < 1 / 100000).
Proof.
  intros E n. unfold validate_for_source in E. fold n in E. rewrite lit5 in E. destruct (Nat.ltb_spec n 2) as [|H2]; [discriminate|].
  destruct (Nat.ltb_spec n (vd_end_index_offset d)) as [|HO]; [discriminate|].
  destruct (point_is_on_segment p (vd_start_index d) _) as [[|]|] eqn:P1; cbn [rbind negb] in E; try discriminate. apply on_segment_means in P1.
  assert (HS : (vd_start_index d < n)%nat) by (destruct P1 as (a & _ & A & _); apply nth_error_Some; congruence).
  assert (FW : fwd_wrapping_index p (vd_start_index d) (vd_end_index_offset d) = ((vd_start_index d + vd_end_index_offset d) mod n)%nat).
  { unfold fwd_wrapping_index. fold n. destruct (Nat.ltb_spec (vd_start_index d + vd_end_index_offset d) n) as [L|L]; [now rewrite Nat.mod_small|].
    destruct (Nat.eq_dec (vd_start_index d + vd_end_index_offset d) (n + n)) as [X|X]; [lia|].
    replace (vd_start_index d + vd_end_index_offset d)%nat with (vd_start_index d + vd_end_index_offset d - n + 1 * n)%nat at 2 by lia. rewrite Nat.mod_add by lia. rewrite Nat.mod_small; lia. }
  rewrite FW in E. set (k := ((vd_start_index d + vd_end_index_offset d) mod n)%nat) in *.
  destruct (point_is_on_segment p k _) as [[|]|] eqn:P2; cbn [rbind negb] in E; try discriminate. apply on_segment_means in P2.
  destruct (at_ p k) as [ev|] eqn:A; [|discriminate]. apply at_inv in A. cbn [rbind] in E.
  destruct (v2fuzzy_eq_eps (vd_end_point d) (pos ev) (1 / 100000)) eqn:F; [discriminate|]. repeat (split; [assumption|]). split.
  - intros v Hv X. assert (v = ev) by congruence. subst. apply v2fuzzy_R in X. congruence.
  - intros Z. rewrite Z in E. cbn [Nat.eqb andb] in E. unfold fuzzy_eq_eps in E. rnum. destruct (rltb _ _) eqn:X in E; [now apply rltb_true in X|discriminate].
Qed.

(** The refusals name what is wrong. *)
Lemma invalid_means (d : view_data R) (p : pline R) r : validate_for_source d p = Ret r ->
  match r with
  | VVSourceHasNoSegments => (vertex_count p < 2)%nat
  | VVOffsetOutOfRange o n => o = vd_end_index_offset d /\ n = vertex_count p /\ (n < o)%nat
  | VVUpdatedStartNotOnSegment q => q = pos (vd_updated_start d) /\ forall a b, nth_error (vtx p) (vd_start_index d) = Some a ->
      nth_error (vtx p) ((vd_start_index d + 1) mod vertex_count p) = Some b -> seg_ok a b -> ~ on_seg a b q
  | VVEndPointNotOnSegment q => q = vd_end_point d /\ forall a b, let k := ((vd_start_index d + vd_end_index_offset d) mod vertex_count p)%nat in
      nth_error (vtx p) k = Some a -> nth_error (vtx p) ((k + 1) mod vertex_count p) = Some b -> seg_ok a b -> ~ on_seg a b q
  | VVEndPointOnFinalOffsetVertex q v => q = vd_end_point d /\ alike (1 / 100000) q (pos v)
      /\ nth_error (vtx p) ((vd_start_index d + vd_end_index_offset d) mod vertex_count p) = Some v
  | VVUpdatedBulgeDoesNotMatch b1 b2 => vd_end_index_offset d = 0%nat /\ b1 = vd_updated_end_bulge d /\ b2 = pbulge (vd_updated_start d) /\ b1 <> b2
  | VVIsValid => True
  end.
Proof.
  intros E. unfold validate_for_source in E. set (n := vertex_count p) in *. rewrite lit5 in E. destruct (Nat.ltb_spec n 2) as [H2|H2]; [injection E as <-; exact H2|].
  destruct (Nat.ltb_spec n (vd_end_index_offset d)) as [HO|HO]; [injection E as <-; auto|].
  destruct (point_is_on_segment p (vd_start_index d) _) as [b1|] eqn:P1; [|discriminate]. cbn [rbind] in E.
  assert (HS : (vd_start_index d < n)%nat).
  { unfold point_is_on_segment in P1. destruct (at_ p (vd_start_index d)) as [a|] eqn:A; [|discriminate]. apply at_inv in A. apply nth_error_Some. congruence. }
  destruct b1; cbn [negb] in E.
  2: { injection E as <-. split; [reflexivity|]. intros a b A B Ok On. rewrite (on_segment_ok p _ a b _ A B) in P1 by auto. discriminate. }
  assert (FW : fwd_wrapping_index p (vd_start_index d) (vd_end_index_offset d) = ((vd_start_index d + vd_end_index_offset d) mod n)%nat).
  { unfold fwd_wrapping_index. fold n. destruct (Nat.ltb_spec (vd_start_index d + vd_end_index_offset d) n) as [L|L]; [now rewrite Nat.mod_small|].
    replace (vd_start_index d + vd_end_index_offset d)%nat with (vd_start_index d + vd_end_index_offset d - n + 1 * n)%nat at 2 by lia. rewrite Nat.mod_add by lia. rewrite Nat.mod_small; lia. }
  rewrite FW in E. set (k := ((vd_start_index d + vd_end_index_offset d) mod n)%nat) in *.
  destruct (point_is_on_segment p k _) as [b2|] eqn:P2; [|discriminate]. cbn [rbind] in E. destruct b2; cbn [negb] in E.
  2: { injection E as <-. split; [reflexivity|]. intros a b k' A B Ok On. rewrite (on_segment_ok p k a b _ A B) in P2 by auto. discriminate. }
  destruct (at_ p k) as [ev|] eqn:A; [|discriminate]. apply at_inv in A. cbn [rbind] in E.
  destruct (v2fuzzy_eq_eps (vd_end_point d) (pos ev) (1 / 100000)) eqn:F.
  - injection E as <-. split; [reflexivity|]. split; [now apply v2fuzzy_R|exact A].
  - destruct (Nat.eqb_spec (vd_end_index_offset d) 0) as [Z|Z]; cbn [andb] in E; [|injection E as <-; exact I].
    destruct (fuzzy_eq_eps _ _ _) eqn:X in E; cbn [negb] in E; injection E as <-; [exact I|]. repeat split; auto. intros EQ. rewrite EQ in X.
    unfold fuzzy_eq_eps in X. rnum. rewrite Rminus_diag_eq, Rabs_R0 in X by reflexivity. rewrite (proj2 (rltb_true 0 (1 / 100000))) in X by lra. discriminate.
Qed.
