(** Views made by the library pass its own validation (C57). *)
From Coq Require Import Reals ZArith Bool List Arith Lra Lia Psatz.
From Verif Require Import Num RNum Res ModelMath ModelIntr ModelSeg ModelPline ModelView.
From Verif Require Import Spec SpecPline SpecGeom SpecIntr SpecView SpecClosest.
From Verif Require Import ProofR ProofBase ProofIter ProofIntr ProofArc ProofInvert ProofView ProofView2 ProofSlice ProofSlice2 ProofSegIntr ProofSegIntr5 ProofClosest2.
Import ListNotations.
Local Open Scope R_scope.

Lemma lit5 : nlit 1 5 = 1 / 100000. Proof. rnum. cbn. lra. Qed.
Lemma lit3 : nlit 1 3 = 1 / 1000. Proof. rnum. cbn. lra. Qed.

Lemma coords_le (p q : vec2 R) : Rabs (vx p - vx q) <= dist p q /\ Rabs (vy p - vy q) <= dist p q.
Proof.
  unfold dist. split.
  - rewrite <- sqrt_Rsqr_abs. apply sqrt_le_1_alt. pose proof (Rle_0_sqr (vy p - vy q)). unfold Rsqr in *. lra.
  - rewrite <- sqrt_Rsqr_abs. apply sqrt_le_1_alt. pose proof (Rle_0_sqr (vx p - vx q)). unfold Rsqr in *. lra.
Qed.

Lemma on_segment_ok (p : pline R) k a b q : nth_error (vtx p) k = Some a -> nth_error (vtx p) ((k + 1) mod vertex_count p)%nat = Some b ->
  q = pos a \/ q = pos b \/ (seg_ok a b /\ on_seg a b q) -> point_is_on_segment p k q = Ret true.
Proof.
  intros Ha Hb H. assert (Hk : (k < vertex_count p)%nat) by (apply nth_error_Some; congruence).
  unfold point_is_on_segment. rewrite (at_ok p k a Ha). cbn [rbind]. rewrite (next_wrapping_index_mod p k Hk), (at_ok p _ b Hb). cbn [rbind].
  rewrite lit3, lit5. destruct H as [-> |[-> |(Ok & On)]].
  - rewrite fuzzy_refl by lra. reflexivity.
  - rewrite (fuzzy_refl _ (pos b)) by lra. rewrite orb_true_r. reflexivity.
  - destruct (_ || _); [reflexivity|]. f_equal. apply v2fuzzy_R.
    destruct (seg_closest a b q (1 / 100000) Ok ltac:(lra)) as (_ & N & _). specialize (N q On). unfold not_much_further in N. rewrite dist_self in N.
    set (c := seg_closest_point a b q (1 / 100000)) in *. destruct (coords_le q c) as (X & Y).
    assert (D : dist q c < 1 / 1000).
    { destruct (Rlt_le_dec (dist q c) (1 / 1000)) as [L|L]; [exact L|]. exfalso. assert (1 / 1000 * (1 / 1000) <= dist q c * dist q c) by (apply Rmult_le_compat; lra). lra. }
    rewrite (Rabs_minus_sym (vx c)), (Rabs_minus_sym (vy c)). lra.
Qed.

Lemma apart_not_fuzzy eps g (q r : vec2 R) : g <= eps -> crisp eps q r -> q <> r -> v2fuzzy_eq_eps r q g = false.
Proof.
  intros L [H|H] N; [contradiction|]. apply not_true_is_false. intros F. apply v2fuzzy_R in F.
  rewrite (Rabs_minus_sym (vx r)), (Rabs_minus_sym (vy r)) in F. lra.
Qed.

(** What is checked, from what holds. *)
Lemma validate_ok (p : pline R) d a b c e : let n := vertex_count p in
  (2 <= n)%nat -> (vd_end_index_offset d <= n)%nat ->
  nth_error (vtx p) (vd_start_index d) = Some a -> nth_error (vtx p) ((vd_start_index d + 1) mod n)%nat = Some b ->
  (pos (vd_updated_start d) = pos a \/ pos (vd_updated_start d) = pos b \/ (seg_ok a b /\ on_seg a b (pos (vd_updated_start d)))) ->
  let k := fwd_wrapping_index p (vd_start_index d) (vd_end_index_offset d) in
  nth_error (vtx p) k = Some c -> nth_error (vtx p) ((k + 1) mod n)%nat = Some e ->
  (vd_end_point d = pos c \/ vd_end_point d = pos e \/ (seg_ok c e /\ on_seg c e (vd_end_point d))) ->
  v2fuzzy_eq_eps (vd_end_point d) (pos c) (1 / 100000) = false ->
  (vd_end_index_offset d = 0%nat -> vd_updated_end_bulge d = pbulge (vd_updated_start d)) ->
  validate_for_source d p = Ret VVIsValid.
Proof.
  intros n H2 HO Ha Hb Hs k Hc Hee HE NF HB. unfold validate_for_source. fold n. fold k.
  replace (n <? 2)%nat with false by (symmetry; apply Nat.ltb_ge; lia). replace (n <? vd_end_index_offset d)%nat with false by (symmetry; apply Nat.ltb_ge; lia).
  rewrite (on_segment_ok p _ a b _ Ha Hb Hs). cbn [rbind negb]. rewrite (on_segment_ok p k c e _ Hc Hee HE). cbn [rbind negb].
  rewrite (at_ok p k c Hc). cbn [rbind]. rewrite lit5, NF.
  destruct (Nat.eqb_spec (vd_end_index_offset d) 0) as [Z|Z]; cbn [andb]; [|reflexivity].
  rewrite (HB Z). unfold fuzzy_eq_eps. rnum. rewrite Rminus_diag_eq, Rabs_R0 by reflexivity.
  rewrite (proj2 (rltb_true 0 (1 / 100000))) by lra. reflexivity.
Qed.

Section Slice.
Context (p : pline R) (eps : R) (i : nat) (t : R) (sp : vec2 R) (j : nat) (u : R) (ep : vec2 R).
Hypothesis Hv : 1 / 100000 <= eps.
Hypothesis HC : clear_pline eps p.
Hypothesis HS : point_at p i t sp.
Hypothesis HE : end_at p j u ep.
Hypothesis Csp : crisp_vertexes eps p sp.
Hypothesis Cep : crisp_vertexes eps p ep.
Hypothesis Cse : crisp eps sp ep.
Hypothesis HO : is_closed p = false -> (i < j)%nat \/ i = j /\ t <= u.
Hypothesis HR : i = j -> t < u -> forall a, nth_error (vtx p) i = Some a -> rest_ok a t.
Let n := vertex_count p.

Lemma eps_pos : 0 < eps. Proof. lra. Qed.

Lemma slice_facts d : view_from_slice_points p sp i ep j eps = Ret (Some d) ->
  pos (vd_updated_start d) = sp /\ vd_end_point d = ep /\ (vd_start_index d < n)%nat /\ (vd_end_index_offset d <= n)%nat
  /\ (vd_end_index_offset d = 0%nat -> vd_updated_end_bulge d = pbulge (vd_updated_start d)).
Proof.
  intros E. destruct (slice_main p eps i t sp j u ep eps_pos HC HS HE Csp Cep Cse HO HR) as (A & B).
  assert (NE : ~ slice_empty p i t j u) by (intros X; rewrite (A X) in E; discriminate).
  destruct (B NE) as (d' & E' & F1 & F2 & F3 & F4 & l & first & last & EL & _ & HF & PF & HL & PL). rewrite E in E'. injection E' as <-.
  destruct (view_forward_spec d p F1 F2 F3) as (_ & EL' & LL). rewrite EL in EL'. injection EL' as ->.
  split; [|split; [|auto]].
  - unfold fwd_list in HF. cbn in HF. injection HF as <-. exact PF.
  - rewrite (fwd_list_nth d p) in HL by assumption. destruct (Nat.eqb_spec (vd_end_index_offset d + 1) 0); [lia|].
    destruct (Nat.leb_spec (vd_end_index_offset d + 1) (vd_end_index_offset d)); [lia|]. rewrite Nat.eqb_refl in HL. injection HL as <-. rewrite from_pos in PL. exact PL.
Qed.

Lemma slice_valid d : view_from_slice_points p sp i ep j eps = Ret (Some d) -> validate_for_source d p = Ret VVIsValid.
Proof.
  intros E. destruct (slice_facts d E) as (PS & PE & S1 & O1 & BM). pose proof eps_pos as He.
  destruct HS as (a & b & Hab & Ht & Q). destruct (segs_at p i a b Hab) as (Hi & H2 & HiO & Ha & Hb). fold n in Hi, H2, HiO, Hb.
  destruct (HC a b (nth_error_In _ _ Hab)) as (SO & CL).
  assert (NX : forall k, (k < n)%nat -> exists x, nth_error (vtx p) k = Some x).
  { intros k Hk. destruct (nth_error (vtx p) k) as [x|] eqn:X; [eauto|]. apply nth_error_None in X. fold (vertex_count p) in X. fold n in X. lia. }
  assert (MD : forall k, ((k + 1) mod n < n)%nat) by (intros k; apply Nat.mod_upper_bound; lia).
  assert (Hj : (j < n)%nat).
  { destruct HE as [(c & e & Hce & _)|(_ & _ & X & _)]; [apply (segs_at p j c e Hce)|unfold n; lia]. }
  destruct (NX j Hj) as (c & Hc). destruct (NX _ (MD j)) as (e & Hee).
  (* the end on its segment *)
  assert (EE : ep = pos c \/ (seg_ok c e /\ on_seg c e ep)).
  { destruct HE as [(c' & e' & Hce & Hu & Q')|(_ & _ & X & c' & Hc' & ->)].
    - right. destruct (segs_at p j c' e' Hce) as (_ & _ & _ & Hc' & He'). fold n in He'. assert (c' = c) by congruence. assert (e' = e) by congruence. subst.
      split; [apply (HC c e (nth_error_In _ _ Hce))|]. exists u. auto.
    - left. congruence. }
  assert (CE : forall k x, nth_error (vtx p) k = Some x -> ep <> pos x -> v2fuzzy_eq_eps ep (pos x) (1 / 100000) = false).
  { intros k x Hx N. apply (apart_not_fuzzy eps); [exact Hv| |congruence]. apply Cep. exact (nth_error_In _ _ Hx). }
  (* the computation *)
  unfold view_from_slice_points in E. cbv zeta in E.
  assert (SB : exists s fl, (if negb (is_closed p) && (j <=? i)%nat then Ret (i, false)
     else let! nv := at_ p (next_wrapping_index p i) in
          if v2fuzzy_eq_eps (pos nv) sp eps then Ret (next_wrapping_index p i, true) else Ret (i, false)) = Ret (s, fl)
     /\ (s < n)%nat /\ (s = i \/ (s = (i + 1) mod n /\ sp = pos b /\ (is_closed p = false -> i < j)))%nat).
  { destruct (negb (is_closed p) && (j <=? i)%nat) eqn:B; [exists i, false; auto|]. rewrite (next_wrapping_index_mod p i Hi). fold n.
    rewrite (at_ok p _ b Hb). cbn [rbind]. destruct (v2fuzzy_eq_eps (pos b) sp eps) eqn:F; [|exists i, false; auto].
    exists ((i + 1) mod n)%nat, true. split; [reflexivity|]. split; [apply MD|]. right. split; [reflexivity|]. split.
    - symmetry. apply (crisp_true eps); auto. apply Csp. exact (nth_error_In _ _ Hb).
    - intros OP. rewrite OP in B. cbn in B. apply Nat.leb_gt in B. exact B. }
  destruct SB as (s & fl & ES & Hs & DS). rewrite ES in E. cbn [rbind] in E. clear ES.
  rewrite (wrap_dist_eq p s j Hs) in E. cbn [rbind] in E. fold n in E.
  destruct (NX s Hs) as (sv & Hsv). destruct (NX _ (MD s)) as (sv2 & Hsv2).
  rewrite (at_ok p s sv Hsv) in E. cbn [rbind] in E.
  (* the start on its segment *)
  assert (SS : sp = pos sv \/ sp = pos sv2 \/ (seg_ok sv sv2 /\ on_seg sv sv2 sp)).
  { destruct DS as [-> |(-> & Es & _)].
    - right. right. assert (sv = a) by congruence. assert (sv2 = b) by congruence. subst. split; [exact SO|]. exists t. auto.
    - left. rewrite Es. congruence. }
  set (D := (if s <=? j then j - s else n - s + j)%nat) in *.
  assert (DV : (s <= j)%nat /\ D = (j - s)%nat \/ (j < s)%nat /\ D = (n - s + j)%nat) by (unfold D; destruct (Nat.leb_spec s j); [left|right]; auto).
  clearbody D.
  assert (TR : exists tc, (if Nat.eqb D 0 && is_closed p && negb (v2fuzzy_eq_eps sp ep eps)
      then if rltb (dist_squared (pos sv) sp) (dist_squared (pos sv) ep) then Ret 0%nat else Ret n else Ret D) = Ret tc
    /\ (tc = D \/ tc = n /\ D = 0%nat /\ is_closed p = true)
    /\ (tc = 0%nat -> is_closed p = true -> sp = ep \/ ep <> pos sv)).
  { destruct (Nat.eqb_spec D 0) as [D0|D0]; cbn [andb].
    - destruct (is_closed p) eqn:CP; cbn [andb].
      + destruct (v2fuzzy_eq_eps sp ep eps) eqn:F; cbn [negb].
        * exists D. split; [reflexivity|]. split; [auto|]. intros _ _. left. apply (crisp_true eps); auto.
        * destruct (rltb (dist_squared (pos sv) sp) (dist_squared (pos sv) ep)) eqn:L.
          -- exists 0%nat. split; [reflexivity|]. split; [auto|]. intros _ _. right. intros ->. apply rltb_true in L. revert L. unfold dist_squared, v2dot, v2sub. rnum.
             pose proof (Rle_0_sqr (vx (pos sv) - vx sp)). pose proof (Rle_0_sqr (vy (pos sv) - vy sp)). unfold Rsqr in *. lra.
          -- exists n. split; [reflexivity|]. split; [auto|]. intros X. lia.
      + exists D. split; [reflexivity|]. split; [auto|]. discriminate.
    - exists D. split; [reflexivity|]. split; [auto|]. lia. }
  destruct TR as (tc & ET & TC & T0). change (@nltb R RNum) with rltb in E. unfold n in ET, E |- *. rewrite ET in E. fold n in ET, E |- *. cbn [rbind] in E. clear ET.
  rewrite (next_wrapping_index_mod p s Hs) in E. fold n in E. rewrite (at_ok p _ sv2 Hsv2) in E. cbn [rbind] in E.
  set (us := if fl then _ else _) in E.
  destruct (Nat.eqb_spec tc 0) as [Z|Z].
  - (* one segment *)
    unfold create_on_single_segment in E. destruct (v2fuzzy_eq_eps (pos us) ep eps) eqn:FU; [discriminate|]. injection E as E.
    assert (JS : j = s) by lia. subst d. cbn [vd_updated_start vd_end_point vd_start_index vd_end_index_offset] in *.
    assert (NE : sp <> ep). { intros X. rewrite PS, X, fuzzy_refl in FU by exact He. discriminate. }
    assert (EP : ep <> pos sv).
    { destruct (Bool.bool_dec (is_closed p) true) as [CP|CP]; [destruct (T0 Z CP); [contradiction|assumption]|]. apply not_true_is_false in CP. intros X.
      destruct DS as [-> |(-> & Es & _)].
      - subst j. assert (sv = a) by congruence. subst sv. assert (c = a) by congruence. assert (e = b) by congruence. subst c e.
        destruct (HO CP) as [L|(_ & L)]; [lia|].
        destruct HE as [(c' & e' & Hce & Hu & Q')|(_ & _ & Y & _)]; [|specialize (HiO CP); unfold n in HiO; lia].
        rewrite Hab in Hce. injection Hce as <- <-. apply clear_fuzzy in CL. pose proof (fuzzy_false_neq _ _ _ He CL) as NC.
        assert (u = 0). { apply (seg_at_inj a b u 0 ep); auto; [lra|]. rewrite X. now apply seg_at_0. }
        assert (t = 0) by lra. subst t. apply NE. rewrite X. apply (seg_at_unique a b 0); auto. now apply seg_at_0.
      - apply NE. rewrite Es, X. congruence. }
    subst j. assert (c = sv) by congruence. assert (e = sv2) by congruence. subst c e.
    assert (FW : fwd_wrapping_index p s 0 = s) by (unfold fwd_wrapping_index; rewrite Nat.add_0_r; fold n; destruct (Nat.ltb_spec s n); [reflexivity|lia]).
    apply (validate_ok p _ sv sv2 sv sv2); cbn [vd_updated_start vd_end_point vd_start_index vd_end_index_offset vd_updated_end_bulge]; fold n; rewrite ?FW; auto.
    + rewrite PS. exact SS.
    + destruct EE as [EE|EE]; auto.
    + apply (CE s sv Hsv EP).
  - (* several *)
    unfold view_create in E. destruct (Nat.eqb_spec tc 0) as [Z'|_]; [contradiction|]. cbv zeta in E.
    rewrite (at_ok p j c Hc) in E. cbn [rbind] in E.
    destruct (v2fuzzy_eq_eps ep (pos c) eps) eqn:FC.
    + assert (EC : ep = pos c). { symmetry. apply (crisp_true eps); auto; [apply Cep; exact (nth_error_In _ _ Hc)|]. apply v2fuzzy_R. apply v2fuzzy_R in FC. rewrite (Rabs_minus_sym (vx (pos c))), (Rabs_minus_sym (vy (pos c))). exact FC. }
      (* the index before the end *)
      set (k := fwd_wrapping_index p s (tc - 1)) in *.
      assert (KK : (k < n)%nat /\ ((k + 1) mod n)%nat = j /\ (is_closed p = false -> (S k < n)%nat)).
      { unfold k, fwd_wrapping_index. fold n.
        assert (OPEN : is_closed p = false -> (s <= j)%nat).
        { intros OP. destruct DS as [-> |(-> & _ & X)]; [destruct (HO OP); lia|]. specialize (X OP). specialize (HiO OP). rewrite Nat.mod_small by lia. lia. }
        destruct (Nat.ltb_spec (s + (tc - 1)) n) as [L|L].
        - destruct (Nat.eq_dec (s + tc) n) as [EN|EN].
          + assert (j = 0%nat) by (destruct TC as [->|(-> & D0 & CT)], DV as [(? & ?)|(? & ?)]; lia). split; [lia|]. split; [replace (s + (tc - 1) + 1)%nat with n by lia; rewrite Nat.mod_same by lia; lia|].
            intros OP. specialize (OPEN OP). exfalso. destruct TC as [->|(-> & D0 & CT)]; [|congruence]. destruct DV as [(? & ?)|(? & ?)]; lia.
          + assert (s + tc = j)%nat by (destruct TC as [->|(-> & D0 & CT)], DV as [(? & ?)|(? & ?)]; lia). split; [lia|]. split; [rewrite Nat.mod_small by lia; lia|]. intros _. lia.
        - assert (s + tc = n + j)%nat by (destruct TC as [->|(-> & D0 & CT)], DV as [(? & ?)|(? & ?)]; lia). split; [lia|].
          split; [rewrite Nat.mod_small by lia; lia|]. intros OP. specialize (OPEN OP). destruct TC as [->|(-> & D0 & CT)]; [|congruence]. destruct DV as [(? & ?)|(? & ?)]; lia. }
      destruct KK as (Kn & Kj & KO). destruct (NX k Kn) as (c' & Hc').
      destruct (segs_at_intro p k H2 Kn KO) as (x & y & Hxy). destruct (segs_at p k x y Hxy) as (_ & _ & _ & Hx & Hy). fold n in Hy. rewrite Kj in Hy.
      assert (x = c') by congruence. assert (y = c) by congruence. subst x y.
      destruct (HC c' c (nth_error_In _ _ Hxy)) as (_ & CLk). apply clear_fuzzy in CLk. pose proof (fuzzy_false_neq _ _ _ He CLk) as NCk.
      assert (ED : exists bl, d = VD s (tc - 1) us bl ep false).
      { destruct (Nat.eqb (tc - 1) 0); cbn [negb rbind] in E; [injection E as <-; eauto|]. destruct (prev_wrapping_index p j) as [pi|]; [|discriminate]. cbn [rbind] in E.
        destruct (at_ p pi); [|discriminate]. cbn [rbind] in E. injection E as <-. eauto. }
      destruct ED as (bl & ->). cbn [vd_updated_start vd_end_point vd_start_index vd_end_index_offset vd_updated_end_bulge] in *.
      apply (validate_ok p _ sv sv2 c' c); cbn [vd_updated_start vd_end_point vd_start_index vd_end_index_offset vd_updated_end_bulge]; fold n; fold k; auto.
      * rewrite PS. exact SS.
      * rewrite Kj. exact Hc.
      * apply (CE k c' Hc'). rewrite EC. congruence.
    + rewrite (next_wrapping_index_mod p j Hj) in E. fold n in E. rewrite (at_ok p _ e Hee) in E. cbn [rbind] in E. injection E as <-.
      cbn [vd_updated_start vd_end_point vd_start_index vd_end_index_offset vd_updated_end_bulge] in *.
      assert (FW : fwd_wrapping_index p s tc = j).
      { unfold fwd_wrapping_index. fold n. destruct (Nat.ltb_spec (s + tc) n); destruct TC as [->|(-> & D0 & CT)], DV as [(? & ?)|(? & ?)]; lia. }
      assert (NEQ : ep <> pos c) by (intros X; rewrite X, fuzzy_refl in FC by exact He; discriminate).
      apply (validate_ok p _ sv sv2 c e); cbn [vd_updated_start vd_end_point vd_start_index vd_end_index_offset vd_updated_end_bulge]; fold n; rewrite ?FW; auto.
      * rewrite PS. exact SS.
      * destruct EE as [EE|EE]; auto.
      * apply (CE j c Hc NEQ).
Qed.
End Slice.
