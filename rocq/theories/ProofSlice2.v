(** Slices of a polyline between two points (C28) and views from a new start point (C27). *)
From Coq Require Import Reals List Arith Bool Lra Lia.
From Verif Require Import Num RNum Res ModelMath ModelSeg ModelPline ModelView Spec SpecPline SpecGeom SpecView
  ProofBase ProofIter ProofInvert ProofR ProofArc ProofArc2 ProofIntr ProofView ProofSlice.
Import ListNotations.
Local Open Scope R_scope.

Lemma view_path_intro p d sp pieces :
  (vd_start_index d < vertex_count p)%nat -> (vd_end_index_offset d <= vertex_count p)%nat ->
  vd_inverted d = false ->
  (vd_end_index_offset d = 0%nat -> vd_updated_end_bulge d = pbulge (vd_updated_start d)) ->
  pos (vd_updated_start d) = sp ->
  Forall2 (is_piece (vtx p)) pieces (spec_segs (fwd_list d p) false) ->
  view_path p d sp (vd_end_point d) pieces.
Proof.
  intros H1 H2 H3 H6 H4 H5. split; [exact H1|]. split; [exact H2|]. split; [exact H3|]. split; [exact H6|].
  exists (fwd_list d p), (vd_updated_start d), (Vtx (vx (vd_end_point d)) (vy (vd_end_point d)) 0).
  destruct (view_forward_spec d p H1 H2 H3) as (_ & HV & _).
  split; [exact HV|]. split; [exact H5|]. split; [reflexivity|]. split; [exact H4|]. split; [|apply from_pos].
  rewrite fwd_list_nth by assumption. destruct (Nat.eqb_spec (vd_end_index_offset d + 1) 0); [lia|].
  destruct (Nat.leb_spec (vd_end_index_offset d + 1) (vd_end_index_offset d)); [lia|].
  now rewrite Nat.eqb_refl.
Qed.

Ltac vcbn := cbn [vd_start_index vd_end_index_offset vd_inverted vd_updated_start vd_end_point vd_updated_end_bulge].

Definition mids (n s m : nat) : list (nat * R * R) :=
  map (fun k => ((s + 1 + k) mod n, 0%R, 1%R)%nat) (seq 0 m).

Lemma mids_snoc n s m : mids n s m ++ [(((s + 1 + m) mod n)%nat, 0, 1)] = mids n s (S m).
Proof. unfold mids. rewrite seq_S, map_app. reflexivity. Qed.

Lemma seg_at_0_inv a b u q : seg_ok a b -> seg_at a b u q -> u = 0 -> q = pos a.
Proof. intros H Q ->. apply (seg_at_unique a b 0); auto. now apply seg_at_0. Qed.

(** [view_create]: [D] >= 1 steps from segment [s] to segment [j]. *)
Lemma view_create_spec p s j D t u us a b c e ep eps :
  0 < eps -> (2 <= vertex_count p)%nat -> (s < vertex_count p)%nat ->
  (1 <= D <= vertex_count p)%nat -> ((s + D) mod vertex_count p)%nat = j ->
  nth_error (vtx p) s = Some a -> nth_error (vtx p) ((s + 1) mod vertex_count p)%nat = Some b ->
  nth_error (vtx p) j = Some c -> nth_error (vtx p) ((j + 1) mod vertex_count p)%nat = Some e ->
  piece a b t 1 us b ->
  0 <= u <= 1 -> (u = 0 -> ep = pos c) ->
  (0 < u -> seg_ok c e /\ v2fuzzy_eq_eps (pos c) (pos e) eps = false /\ seg_at c e u ep) ->
  crisp eps (pos c) ep -> crisp eps (pos e) ep ->
  exists d, view_create p s ep j us D eps = Ret d
    /\ view_path p d (pos us) ep ((s, t, 1) :: mids (vertex_count p) s (D - 1)
                                  ++ (if Rlt_dec 0 u then [(j, 0, u)] else [])).
Proof.
  intros He H2 Hs HD Hj Ha Hb Hc Hn HP Hu HU0 HU C1 C2.
  set (n := vertex_count p) in *. unfold view_create.
  assert (Hn0 : n <> 0%nat) by lia.
  assert (Hjn : (j < n)%nat) by (rewrite <- Hj; apply Nat.mod_upper_bound; exact Hn0).
  destruct (Nat.eqb_spec D 0); [lia|]. rewrite (at_ok p j c Hc). cbn [rbind].
  destruct (Rlt_dec 0 u) as [L|L].
  - destruct (HU L) as (SO & NC & Q).
    assert (N1 : pos c <> ep).
    { intros E. subst ep. assert (u = 0); [|lra].
      apply (seg_at_inj c e u 0 (pos c)); auto; try lra; [|now apply seg_at_0].
      apply (fuzzy_false_neq _ _ _ He NC). }
    rewrite (crisp_false eps ep (pos c) (crisp_sym _ _ _ C1)) by (intros E; now apply N1).
    rewrite next_wrapping_index_mod by (fold n; lia). fold n.
    rewrite (at_ok p _ e Hn). cbn [rbind].
    eexists. split; [reflexivity|].
    destruct (head_piece c e u ep eps He SO NC) as (P1 & P2); auto; [lra|].
    apply (view_path_intro p (VD s D us (pbulge (updated_start (seg_split_at_point c e ep eps))) ep false));
      cbn [vd_start_index vd_end_index_offset vd_inverted vd_updated_start vd_end_point vd_updated_end_bulge];
      try (fold n; lia); try reflexivity.
    set (d := VD s D us (pbulge (updated_start (seg_split_at_point c e ep eps))) ep false).
    pose proof (fwd_pieces_many d p t u a b c e) as F. subst d.
    cbn [vd_start_index vd_end_index_offset vd_inverted vd_updated_start vd_end_point vd_updated_end_bulge] in F.
    fold n in F. rewrite Hj in F. apply F; auto; try lia.
    + rewrite <- Nat.add_mod_idemp_l by exact Hn0. rewrite Hj. exact Hn.
    + intros x Hx. intros q y. rewrite <- (P2 x Hx q y). apply seg_at_ext; auto.
  - assert (u = 0) by lra. rewrite (HU0 H) in *. rewrite fuzzy_refl by exact He.
    destruct (Nat.eqb_spec (D - 1) 0) as [E|E]; cbn [negb].
    + cbn [rbind]. eexists. split; [reflexivity|].
      assert (D = 1%nat) by lia. subst D. cbn [Nat.sub mids seq map app].
      apply (view_path_intro p (VD s 0 us (pbulge us) (pos c) false)); vcbn; try (fold n; lia); auto.
      apply (fwd_pieces_one (VD s 0 us (pbulge us) (pos c) false) p t 1 a b); auto.
      intros x Hx. cbn in Hx. apply piece_second with b; [|exact HP].
      rewrite Hx. assert (b = c) by congruence. now subst.
    + rewrite prev_wrapping_index_mod by (fold n; lia). fold n. cbn [rbind].
      assert (Hpi : ((j + (n - 1)) mod n = (s + (D - 1)) mod n)%nat).
      { rewrite <- Hj. rewrite Nat.add_mod_idemp_l by exact Hn0.
        replace (s + D + (n - 1))%nat with (s + (D - 1) + 1 * n)%nat by lia. now rewrite Nat.mod_add by exact Hn0. }
      destruct (nth_error_some (vtx p) ((s + (D - 1)) mod n)%nat) as [v Hv].
      { fold (vertex_count p). fold n. apply Nat.mod_upper_bound. exact Hn0. }
      rewrite Hpi, (at_ok p _ v Hv). cbn [rbind]. eexists. split; [reflexivity|].
      apply (view_path_intro p (VD s (D - 1) us (pbulge v) (pos c) false)); vcbn; try (fold n; lia); auto.
      rewrite app_nil_r.
      pose proof (fwd_pieces_many (VD s (D - 1) us (pbulge v) (pos c) false) p t 1 a b v c) as F.
      cbn [vd_start_index vd_end_index_offset vd_inverted vd_updated_start vd_end_point vd_updated_end_bulge] in F.
      fold n in F.
      assert (EM : mids n s (D - 1) = mids n s (D - 1 - 1) ++ [(((s + (D - 1)) mod n)%nat, 0, 1)]).
      { replace (D - 1)%nat with (S (D - 1 - 1)) at 1 by lia. rewrite <- mids_snoc.
        replace (s + 1 + (D - 1 - 1))%nat with (s + (D - 1))%nat by lia. reflexivity. }
      rewrite EM.
      apply F; auto; try lia.
      * replace (s + (D - 1) + 1)%nat with (s + D)%nat by lia. rewrite Hj. exact Hc.
      * intros x Hx. apply piece_whole; auto.
Qed.

Lemma mod_dist n s j : (s < n)%nat -> (j < n)%nat -> s <> j ->
  exists D, (1 <= D < n)%nat /\ ((s + D) mod n)%nat = j /\ ((j + n - (s + 1)) mod n)%nat = (D - 1)%nat
    /\ D = (if s <=? j then j - s else n - s + j)%nat.
Proof.
  intros Hs Hj Hne. exists (if s <=? j then j - s else n - s + j)%nat.
  destruct (Nat.leb_spec s j) as [L|L].
  - split; [lia|]. split; [replace (s + (j - s))%nat with j by lia; apply Nat.mod_small; lia|].
    split; [|reflexivity]. replace (j + n - (s + 1))%nat with (j - s - 1 + 1 * n)%nat by lia.
    rewrite Nat.mod_add by lia. apply Nat.mod_small. lia.
  - split; [lia|]. split.
    + replace (s + (n - s + j))%nat with (j + 1 * n)%nat by lia. rewrite Nat.mod_add by lia. apply Nat.mod_small. lia.
    + split; [|reflexivity]. rewrite Nat.mod_small by lia. lia.
Qed.

Lemma wrap_dist_eq (p : pline R) s j : (s < vertex_count p)%nat ->
  fwd_wrapping_dist p s j = Ret (if s <=? j then j - s else vertex_count p - s + j)%nat.
Proof.
  intros H. unfold fwd_wrapping_dist. destruct (s <=? j)%nat; [reflexivity|]. now rewrite usub_ok by lia.
Qed.

(** Slices whose start point is not the end of its segment. *)
Lemma slice_normal p s t j u a b c e sp ep eps :
  0 < eps -> (2 <= vertex_count p)%nat -> (s < vertex_count p)%nat -> (j < vertex_count p)%nat ->
  nth_error (vtx p) s = Some a -> nth_error (vtx p) ((s + 1) mod vertex_count p)%nat = Some b ->
  nth_error (vtx p) j = Some c -> nth_error (vtx p) ((j + 1) mod vertex_count p)%nat = Some e ->
  seg_ok a b -> v2fuzzy_eq_eps (pos a) (pos b) eps = false -> 0 <= t < 1 -> seg_at a b t sp ->
  0 <= u <= 1 -> (u = 0 -> ep = pos c) ->
  (0 < u -> seg_ok c e /\ v2fuzzy_eq_eps (pos c) (pos e) eps = false /\ seg_at c e u ep) ->
  crisp eps (pos a) sp -> crisp eps (pos b) sp -> crisp eps (pos c) ep -> crisp eps (pos e) ep ->
  crisp eps sp ep ->
  (is_closed p = false -> (s < j)%nat \/ s = j /\ t <= u) ->
  (s = j -> t < u -> rest_ok a t) ->
  (s = j /\ t = u -> view_from_slice_points p sp s ep j eps = Ret None)
  /\ (~ (s = j /\ t = u) -> exists d, view_from_slice_points p sp s ep j eps = Ret (Some d)
        /\ view_path p d sp ep (slice_pieces (vertex_count p) s t j u)).
Proof.
  intros He H2 Hs Hj Ha Hb Hc Hen SO NC Ht Q Hu HU0 HU C1 C2 C3 C4 C5 HO HR.
  set (n := vertex_count p) in *.
  assert (Hn0 : n <> 0%nat) by lia.
  pose proof (fuzzy_false_neq _ _ _ He NC) as NC'.
  assert (N1 : pos b <> sp).
  { intros E. subst sp. assert (t = 1); [|lra]. apply (seg_at_inj a b t 1 (pos b)); auto; try lra. now apply seg_at_1. }
  destruct (tail_piece a b t sp eps He SO NC Ht Q C1 C2) as (T1 & T2 & _ & _).
  unfold view_from_slice_points.
  assert (Hnx : next_wrapping_index p s = ((s + 1) mod n)%nat) by (apply next_wrapping_index_mod; exact Hs).
  rewrite Hnx, (at_ok p _ b Hb). cbn [rbind].
  rewrite (crisp_false eps (pos b) sp C2 N1).
  replace (if negb (is_closed p) && (j <=? s)%nat then Ret (s, false) else Ret (s, false))
    with (@Ret (nat * bool) (s, false)) by (destruct (negb (is_closed p) && (j <=? s)%nat); reflexivity).
  cbn [rbind]. rewrite wrap_dist_eq by exact Hs. cbn [rbind]. fold n.
  rewrite (at_ok p _ a Ha). rewrite Hnx, (at_ok p _ b Hb). cbn [rbind].
  unfold slice_pieces.
  destruct (Nat.eqb_spec s j) as [Esj|Esj].
  - subst j. assert (c = a) by congruence. subst c. assert (e = b) by congruence. subst e.
    destruct (Nat.leb_spec s s); [|lia]. rewrite Nat.sub_diag. cbn [Nat.eqb].
    assert (Q' : seg_at a b u ep).
    { destruct (Req_dec u 0) as [E|E]; [|apply HU; lra]. rewrite E, (HU0 E). now apply seg_at_0. }
    assert (Hsp : t = u <-> sp = ep).
    { split; [intros ->; now apply (seg_at_unique a b u)|].
      intros <-. apply (seg_at_inj a b t u sp); auto; lra. }
    (* traverse count *)
    assert (HT : (if true && is_closed p && negb (v2fuzzy_eq_eps sp ep eps) then
                    let! sv := Ret a in
                    if (dist_squared (pos sv) sp <? dist_squared (pos sv) ep)%num then Ret 0%nat else Ret n
                  else Ret 0%nat)
               = Ret (if Rlt_dec u t then n else 0%nat)).
    { cbn [rbind andb]. destruct (is_closed p) eqn:CL; cbn [andb].
      - destruct (v2fuzzy_eq_eps sp ep eps) eqn:F; cbn [negb].
        + apply (crisp_true eps) in F; auto. apply Hsp in F. destruct (Rlt_dec u t); [lra|reflexivity].
        + assert (t <> u). { intros E. apply Hsp in E. subst ep. rewrite fuzzy_refl in F by exact He. discriminate. }
          pose proof (chord_mono a b t u sp ep SO NC' ltac:(lra) Hu Q Q') as M.
          rnum. destruct (rltb_spec (dist_squared (pos a) sp) (dist_squared (pos a) ep)) as [L|L].
          * apply M in L. destruct (Rlt_dec u t); [lra|reflexivity].
          * destruct (Rlt_dec u t); [reflexivity|]. exfalso. apply L, M. lra.
      - destruct (HO eq_refl) as [HO'|[_ HO']]; [lia|]. destruct (Rlt_dec u t); [lra|reflexivity]. }
    cbv zeta. cbn [rbind] in HT. cbv zeta in HT. rewrite HT. cbn [rbind]. clear HT.
    destruct (Rlt_dec u t) as [L|L].
    + (* all the way around *)
      split; [lra|]. intros _. destruct (Nat.eqb_spec n 0); [lia|].
      destruct (view_create_spec p s s n t u (split_vertex (seg_split_at_point a b sp eps)) a b a b ep eps)
        as (d & D1 & D2); auto; try lia.
      { fold n. replace (s + n)%nat with (s + 1 * n)%nat by lia. rewrite Nat.mod_add by lia. apply Nat.mod_small. lia. }
      rewrite D1. cbn [rbind]. exists d. split; [reflexivity|]. rewrite T1 in D2. fold n in D2.
      destruct (Rlt_dec t u); [lra|]. destruct (Rlt_dec t 1); [|lra].
      replace ((s + n - (s + 1)) mod n)%nat with (n - 1)%nat; [exact D2|].
      replace (s + n - (s + 1))%nat with (n - 1)%nat by lia. symmetry. apply Nat.mod_small. lia.
    + cbn [Nat.eqb]. unfold create_on_single_segment.
      destruct (Req_dec t u) as [Etu|Etu].
      * split; [|intros HF; exfalso; apply HF; split; [reflexivity|exact Etu]].
        intros _. assert (sp = ep) by now apply Hsp. subst ep.
        assert (PW : pos (updated_start (seg_split_at_point (split_vertex (seg_split_at_point a b sp eps)) b sp eps)) = sp).
        { set (w := split_vertex (seg_split_at_point a b sp eps)) in *. unfold seg_split_at_point.
          destruct (bulge_is_zero w); [exact T1|]. rewrite T1. rewrite (fuzzy_refl eps sp He).
          rewrite orb_true_r. cbn [updated_start]. apply from_pos. }
        rewrite PW, fuzzy_refl by exact He. reflexivity.
      * split; [intros [_ HF]; contradiction|]. intros _.
        destruct (mid_piece a b t u sp ep eps) as (M1 & M2); auto; try lra.
        { apply HR; [reflexivity|lra]. }
        set (w := updated_start (seg_split_at_point (split_vertex (seg_split_at_point a b sp eps)) b ep eps)) in *.
        rewrite M1. rewrite (crisp_false eps sp ep C5) by (intros E; apply Etu; now apply Hsp).
        exists (VD s 0 w (pbulge w) ep false). split; [reflexivity|].
        destruct (Rlt_dec t u); [|lra].
        apply (view_path_intro p (VD s 0 w (pbulge w) ep false)); vcbn; try (fold n; lia); auto.
        apply (fwd_pieces_one (VD s 0 w (pbulge w) ep false) p t u a b); auto.
  - destruct (mod_dist n s j Hs Hj Esj) as (D & HD & HDj & HDm & HDe). rewrite <- HDe.
    destruct (Nat.eqb_spec D 0); [lia|]. cbn [andb rbind].
    split; [intros [HF _]; contradiction|]. intros _.
    destruct (view_create_spec p s j D t u (split_vertex (seg_split_at_point a b sp eps)) a b c e ep eps)
        as (d & D1 & D2); auto; try (fold n; lia).
    destruct (Nat.eqb_spec D 0); [lia|].
    rewrite D1. cbn [rbind]. exists d. split; [reflexivity|]. rewrite T1 in D2. fold n in D2.
    rewrite HDm. destruct (Rlt_dec t 1); [exact D2|lra].
Qed.

Lemma slice_pieces_shift n i j u : (2 <= n)%nat -> (i < n)%nat -> (j < n)%nat -> 0 <= u <= 1 ->
  ~ (j = ((i + 1) mod n)%nat /\ u = 0) ->
  slice_pieces n i 1 j u = slice_pieces n ((i + 1) mod n) 0 j u.
Proof.
  intros H2 Hi Hj Hu HN. unfold slice_pieces.
  destruct (Rlt_dec 1 1); [lra|]. destruct (Rlt_dec 0 1); [|lra].
  assert (Hs : ((i + 1) mod n < n)%nat) by (apply Nat.mod_upper_bound; lia).
  assert (Hsi : ((i + 1) mod n)%nat = if Nat.eqb (i + 1) n then 0%nat else (i + 1)%nat).
  { destruct (Nat.eqb_spec (i + 1) n) as [E|E]; [rewrite E; apply Nat.mod_same; lia|apply Nat.mod_small; lia]. }
  destruct (Rlt_dec 1 u); [lra|].
  assert (G : forall D', (1 <= D')%nat -> D' = (if (i + 1) mod n <=? j then j - (i + 1) mod n else n - (i + 1) mod n + j)%nat ->
     (if i =? j then n else (if i <=? j then j - i else n - i + j))%nat = S D').
  { intros D' H1 ->. rewrite Hsi in *. destruct (Nat.eqb_spec i j); destruct (Nat.eqb_spec (i + 1) n); destruct (Nat.leb_spec i j);
        try destruct (Nat.leb_spec 0 j); try destruct (Nat.leb_spec (i + 1) j); lia. }
  assert (HM : ((j + n - (i + 1)) mod n)%nat = ((if i =? j then n else (if i <=? j then j - i else n - i + j)) - 1)%nat).
  { destruct (Nat.eqb_spec i j) as [E|E].
    - subst j. replace (i + n - (i + 1))%nat with (n - 1)%nat by lia. apply Nat.mod_small. lia.
    - destruct (mod_dist n i j Hi Hj E) as (D & HD & _ & HDm & HDe). rewrite HDm. now rewrite HDe. }
  replace (if (i =? j)%nat then _ else _) with
    ((if Rlt_dec 1 1 then [(i, 1, 1)] else []) ++ mids n i ((j + n - (i + 1)) mod n) ++ (if Rlt_dec 0 u then [(j, 0, u)] else []))
    by (destruct (i =? j)%nat; destruct (Rlt_dec 1 1); try lra; reflexivity).
  destruct (Rlt_dec 1 1); [lra|]. cbn [app].
  destruct (Nat.eqb_spec ((i + 1) mod n) j) as [E1|E1].
  - destruct (Rlt_dec 0 u) as [L0|L0].
    + replace ((j + n - (i + 1)) mod n)%nat with 0%nat; [cbn [mids seq map app]; now rewrite E1|].
      rewrite HM. rewrite E1 in Hsi. destruct (Nat.eqb_spec (i + 1) n); destruct (Nat.eqb_spec i j); try lia; destruct (Nat.leb_spec i j); lia.
    + exfalso. apply HN. split; [now symmetry|lra].
  - destruct (mod_dist n _ j Hs Hj E1) as (D' & HD' & _ & HDm' & HDe').
    rewrite HDm', HM, (G D') by (try lia; exact HDe').
    replace (S D' - 1)%nat with (S (D' - 1)) by lia. unfold mids. cbn [seq map app].
    rewrite <- seq_shift, map_map. f_equal; [now rewrite Nat.add_0_r|]. f_equal.
    apply map_ext. intros k. f_equal. f_equal.
    replace ((i + 1) mod n + 1 + k)%nat with ((i + 1) mod n + (1 + k))%nat by lia.
    rewrite Nat.add_mod_idemp_l by lia. f_equal; lia.
Qed.

(** A start point at the end of its segment is taken as the start of the next one. *)
Lemma slice_shift p i j a b c sp ep eps :
  0 < eps -> (i < vertex_count p)%nat -> (2 <= vertex_count p)%nat ->
  (is_closed p = false -> (i < j)%nat) ->
  let s := ((i + 1) mod vertex_count p)%nat in
  nth_error (vtx p) i = Some a -> nth_error (vtx p) s = Some b ->
  nth_error (vtx p) ((s + 1) mod vertex_count p)%nat = Some c ->
  seg_ok b c -> v2fuzzy_eq_eps (pos b) (pos c) eps = false -> sp = pos b ->
  view_from_slice_points p sp i ep j eps = view_from_slice_points p sp s ep j eps.
Proof.
  intros He Hi H2 HO s Ha Hb Hc SO NC ->. set (n := vertex_count p) in *.
  assert (Hs : (s < n)%nat) by (apply Nat.mod_upper_bound; lia).
  unfold view_from_slice_points at 1.
  assert (E1 : negb (is_closed p) && (j <=? i)%nat = false).
  { destruct (is_closed p); [reflexivity|]. destruct (Nat.leb_spec j i); [|reflexivity]. specialize (HO eq_refl). lia. }
  rewrite E1. cbv zeta. rewrite (next_wrapping_index_mod p i) by exact Hi. fold n. fold s.
  rewrite (at_ok p s b Hb). cbn [rbind]. rewrite fuzzy_refl by exact He. cbn [rbind].
  unfold view_from_slice_points. cbv zeta. rewrite (next_wrapping_index_mod p s) by exact Hs. fold n.
  rewrite (at_ok p _ c Hc). cbn [rbind].
  assert (NC2 : v2fuzzy_eq_eps (pos c) (pos b) eps = false).
  { destruct (v2fuzzy_eq_eps (pos c) (pos b) eps) eqn:F; [|reflexivity]. apply v2fuzzy_R in F.
    rewrite (Rabs_minus_sym (vx (pos c))), (Rabs_minus_sym (vy (pos c))) in F. apply v2fuzzy_R in F. congruence. }
  rewrite NC2.
  replace (if negb (is_closed p) && (j <=? s)%nat then Ret (s, false) else Ret (s, false))
    with (@Ret (nat * bool) (s, false)) by (destruct (negb (is_closed p) && (j <=? s)%nat); reflexivity).
  cbn [rbind]. destruct (fwd_wrapping_dist p s j) as [D|]; cbn [rbind]; [|reflexivity].
  match goal with |- rbind ?X _ = rbind ?X _ => destruct X as [k|]; cbn [rbind]; [|reflexivity] end.
  rewrite (at_ok p s b Hb). cbn [rbind]. rewrite !(next_wrapping_index_mod p s) by exact Hs. fold n.
  rewrite (at_ok p _ c Hc). cbn [rbind].
  assert (W : split_vertex (seg_split_at_point b c (pos b) eps) = b).
  { destruct (tail_piece b c 0 (pos b) eps He SO NC) as (T1 & _ & T3 & T4).
    - lra. - now apply seg_at_0. - now left.
    - destruct (Rle_lt_dec eps (Rabs (vx (pos c) - vx (pos b)))) as [L|L]; [right; now left|].
      destruct (Rle_lt_dec eps (Rabs (vy (pos c) - vy (pos b)))) as [L'|L']; [right; now right|].
      exfalso. assert (v2fuzzy_eq_eps (pos c) (pos b) eps = true) by (apply v2fuzzy_R; lra). congruence.
    - set (w := split_vertex (seg_split_at_point b c (pos b) eps)) in *.
      assert (EB : pbulge w = pbulge b).
      { unfold sweep in T3. rewrite <- (tan_atan (pbulge w)), <- (tan_atan (pbulge b)). f_equal. lra. }
      destruct w as [wx wy wb], b as [bx by_ bb]. cbn in *. unfold pos in T1. cbn in T1. congruence. }
  rewrite W. reflexivity.
Qed.

Lemma segs_at (p : pline R) i a b : nth_error (spec_segs (vtx p) (is_closed p)) i = Some (a, b) ->
  (i < vertex_count p)%nat /\ (2 <= vertex_count p)%nat /\ (is_closed p = false -> (S i < vertex_count p)%nat)
  /\ nth_error (vtx p) i = Some a /\ nth_error (vtx p) ((i + 1) mod vertex_count p)%nat = Some b.
Proof.
  intros H. assert (Hi : (i < length (spec_segs (vtx p) (is_closed p)))%nat) by (apply nth_error_Some; congruence).
  destruct (spec_segs_nth _ _ _ Hi) as (a' & b' & E & Ea & Eb). rewrite E in H. injection H as -> ->.
  rewrite spec_segs_length in Hi. fold (vertex_count p) in *.
  destruct (Nat.ltb_spec (vertex_count p) 2); [lia|].
  repeat split; auto; destruct (is_closed p); try lia; try discriminate.
Qed.

Lemma segs_at_intro (p : pline R) i : (2 <= vertex_count p)%nat -> (i < vertex_count p)%nat ->
  (is_closed p = false -> (S i < vertex_count p)%nat) ->
  exists a b, nth_error (spec_segs (vtx p) (is_closed p)) i = Some (a, b).
Proof.
  intros H2 Hi HO. assert (Hl : (i < length (spec_segs (vtx p) (is_closed p)))%nat).
  { rewrite spec_segs_length. fold (vertex_count p). destruct (Nat.ltb_spec (vertex_count p) 2); [lia|].
    destruct (is_closed p); [lia|]. specialize (HO eq_refl). lia. }
  destruct (spec_segs_nth _ _ _ Hl) as (a & b & E & _). eauto.
Qed.

Lemma clear_fuzzy eps a b : (eps <= Rabs (px a - px b) \/ eps <= Rabs (py a - py b)) ->
  v2fuzzy_eq_eps (pos a) (pos b) eps = false.
Proof.
  intros H. destruct (v2fuzzy_eq_eps (pos a) (pos b) eps) eqn:F; [|reflexivity].
  apply v2fuzzy_R in F. cbn [pos vx vy] in F. lra.
Qed.

Lemma slice_main p eps i t sp j u ep :
  0 < eps -> clear_pline eps p -> point_at p i t sp -> end_at p j u ep ->
  crisp_vertexes eps p sp -> crisp_vertexes eps p ep -> crisp eps sp ep ->
  (is_closed p = false -> (i < j)%nat \/ i = j /\ t <= u) ->
  (i = j -> t < u -> forall a, nth_error (vtx p) i = Some a -> rest_ok a t) ->
  (slice_empty p i t j u -> view_from_slice_points p sp i ep j eps = Ret None)
  /\ (~ slice_empty p i t j u -> exists d, view_from_slice_points p sp i ep j eps = Ret (Some d)
        /\ view_path p d sp ep (slice_pieces (vertex_count p) i t j u)).
Proof.
  intros He HC (a & b & Hab & Ht & Q) HE Csp Cep Cse HO HR.
  destruct (segs_at p i a b Hab) as (Hi & H2 & HiO & Ha & Hb).
  destruct (HC a b (nth_error_In _ _ Hab)) as (SO & CL). apply clear_fuzzy in CL.
  set (n := vertex_count p) in *. assert (Hn0 : n <> 0%nat) by lia.
  assert (NC := fuzzy_false_neq _ _ _ He CL).
  (* data of the end *)
  assert (HEnd : (j < n)%nat /\ 0 <= u <= 1 /\ exists c e, nth_error (vtx p) j = Some c
      /\ nth_error (vtx p) ((j + 1) mod n)%nat = Some e /\ (u = 0 -> ep = pos c)
      /\ (0 < u -> seg_ok c e /\ v2fuzzy_eq_eps (pos c) (pos e) eps = false /\ seg_at c e u ep)).
  { destruct HE as [(c & e & Hce & Hu & Q')|(OP & Hu & Hj & c & Hc & Hep)].
    - destruct (segs_at p j c e Hce) as (Hj & _ & _ & Hc & Hee). split; [exact Hj|]. split; [exact Hu|].
      destruct (HC c e (nth_error_In _ _ Hce)) as (SO' & CL'). apply clear_fuzzy in CL'.
      exists c, e. split; [exact Hc|]. split; [exact Hee|]. split; [apply (seg_at_0_inv c e u); auto|auto].
    - fold n in Hj. split; [lia|]. split; [lra|].
      destruct (nth_error_some (vtx p) ((j + 1) mod n)%nat) as [e Hee].
      { fold (vertex_count p). fold n. apply Nat.mod_upper_bound. exact Hn0. }
      exists c, e. split; [exact Hc|]. split; [exact Hee|]. split; [auto|lra]. }
  destruct HEnd as (Hj & Hu & c & e & Hc & Hee & HU0 & HU).
  assert (Ca := Csp a (nth_error_In _ _ Ha)). assert (Cb := Csp b (nth_error_In _ _ Hb)).
  assert (Cc := Cep c (nth_error_In _ _ Hc)). assert (Ce := Cep e (nth_error_In _ _ Hee)).
  destruct (Req_dec t 1) as [E1|E1].
  - subst t. assert (Esp : sp = pos b) by (apply (seg_at_unique a b 1); auto; now apply seg_at_1).
    destruct (Bool.bool_dec (is_closed p) false) as [OP|OP].
    + (* open *)
      destruct (HO OP) as [Hij|[Hij Hu1]].
      * set (s := ((i + 1) mod n)%nat) in *.
        assert (Es : s = (i + 1)%nat) by (unfold s; apply Nat.mod_small; lia).
        destruct (Nat.eq_dec (i + 1) (n - 1)) as [El|El].
        -- (* the next vertex is the last one *)
           assert (Ej : j = s) by lia.
           assert (u = 0).
           { destruct HE as [(c' & e' & Hce & _ & _)|(_ & Hu0 & _)]; [|exact Hu0].
             destruct (segs_at p j c' e' Hce) as (_ & _ & HjO & _). specialize (HjO OP). fold n in HjO. lia. }
           assert (ep = sp). { rewrite (HU0 H), Esp. rewrite Ej in Hc. congruence. }
           split; [intros _|intros HF; exfalso; apply HF; right; auto].
           subst ep. unfold view_from_slice_points.
           assert (B1 : negb (is_closed p) && (j <=? i)%nat = false).
           { rewrite OP. cbn [negb andb]. apply Nat.leb_gt. exact Hij. }
           rewrite B1. cbv zeta. rewrite (next_wrapping_index_mod p i) by exact Hi. fold n. fold s.
           rewrite (at_ok p s b Hb). cbn [rbind]. rewrite Esp. rewrite fuzzy_refl by exact He. cbn [rbind].
           rewrite Ej. rewrite wrap_dist_eq by (fold n; lia). cbn [rbind].
           destruct (Nat.leb_spec s s); [|lia]. rewrite Nat.sub_diag. rewrite OP. cbn [Nat.eqb andb rbind].
           rewrite (at_ok p s b Hb). cbn [rbind]. rewrite next_wrapping_index_mod by (fold n; lia). fold n.
           rewrite Ej in Hee. rewrite (at_ok p _ e Hee). cbn [rbind]. unfold create_on_single_segment.
           assert (PW : pos (updated_start (seg_split_at_point b e (pos b) eps)) = pos b).
           { unfold seg_split_at_point. destruct (bulge_is_zero b); [reflexivity|].
             rewrite (fuzzy_refl eps (pos b) He), orb_true_r. apply from_pos. }
           rewrite PW, fuzzy_refl by exact He. reflexivity.
        -- destruct (segs_at_intro p s) as (b' & c' & Hbc); [exact H2|fold n; lia|fold n; lia|].
           destruct (segs_at p s b' c' Hbc) as (Hs & _ & _ & Hb' & Hc'). fold n in Hs, Hc'.
           assert (b' = b) by congruence. subst b'.
           destruct (HC b c' (nth_error_In _ _ Hbc)) as (SO' & CL'). apply clear_fuzzy in CL'.
           assert (SH := slice_shift p i j a b c' sp ep eps He Hi H2 (fun _ => Hij) Ha Hb Hc' SO' CL' Esp).
           fold n s in SH. rewrite SH.
           assert (SN := slice_normal p s 0 j u b c' c e sp ep eps). fold n in SN.
           destruct SN as (S1 & S2); auto; try lra.
           { rewrite Esp. now apply seg_at_0. }
           { apply Csp. now apply nth_error_In in Hc'. }
           { intros _. destruct (Nat.eq_dec s j); [right; split; [assumption|lra]|left; lia]. }
           { intros _ _. destruct SO' as [[Z|[Z _]] _]; [now left|right].
             replace ((1 - 0) * atan (pbulge b)) with (atan (pbulge b)) by ring. now rewrite tan_atan. }
           split.
           ++ intros [(H & _)|(_ & H & H')]; [lia|]. apply S1. split; [now symmetry|now symmetry].
           ++ intros HF. destruct S2 as (d & D1 & D2).
              { intros [H H']. apply HF. right. repeat split; auto. }
              exists d. split; [exact D1|]. unfold s in D2.
              rewrite slice_pieces_shift; auto. intros [H H']. apply HF. right. auto.
      * (* same segment, both at its end *)
        subst j. assert (u = 1) by lra. subst u. assert (c = a) by congruence. assert (e = b) by congruence. subst c e.
        assert (ep = sp).
        { rewrite Esp. apply (seg_at_unique a b 1); auto; [apply HU; lra|now apply seg_at_1]. }
        subst ep.
        split; [intros _|intros HF; exfalso; apply HF; left; auto].
        unfold view_from_slice_points.
        assert (B1 : negb (is_closed p) && (i <=? i)%nat = true) by (rewrite OP; cbn [negb andb]; apply Nat.leb_refl).
        rewrite B1. cbn [rbind]. rewrite wrap_dist_eq by exact Hi. cbn [rbind].
        destruct (Nat.leb_spec i i); [|lia]. rewrite Nat.sub_diag, OP. cbn [Nat.eqb andb rbind].
        rewrite (at_ok p _ a Ha). cbn [rbind]. rewrite next_wrapping_index_mod by exact Hi. fold n.
        rewrite (at_ok p _ b Hb). cbn [rbind]. unfold create_on_single_segment.
        set (w := split_vertex (seg_split_at_point a b sp eps)).
        assert (PW : pos (updated_start (seg_split_at_point w b sp eps)) = sp).
        { assert (W1 : pos w = sp).
          { unfold w. destruct (Req_dec (pbulge a) 0) as [Z|Z].
            - rewrite seg_split_line by exact Z. apply from_pos.
            - destruct (split_ends a b sp eps (proj1 SO)) as (_ & _ & H3).
              destruct H3 as (_ & H3 & _); [exact Z| | | | |now rewrite H3].
              + rewrite Esp. cbn [pos vx]. rewrite Rminus_diag_eq, Rabs_R0 by reflexivity. exact He.
              + rewrite Esp. cbn [pos vy]. rewrite Rminus_diag_eq, Rabs_R0 by reflexivity. exact He.
              + rewrite Esp. intros F. apply (v2fuzzy_R (pos a) (pos b) eps) in F. congruence.
              + intros F. apply (v2fuzzy_R (pos a) (pos b) eps) in F. congruence. }
          unfold seg_split_at_point. destruct (bulge_is_zero w); [exact W1|].
          rewrite W1. rewrite (fuzzy_refl eps sp He), orb_true_r. apply from_pos. }
        rewrite PW, fuzzy_refl by exact He. reflexivity.
    + (* closed *)
      assert (CLO : is_closed p = true) by (destruct (is_closed p); congruence).
      set (s := ((i + 1) mod n)%nat) in *.
      assert (Hs : (s < n)%nat) by (apply Nat.mod_upper_bound; exact Hn0).
      destruct (segs_at_intro p s) as (b' & c' & Hbc); [exact H2|exact Hs|congruence|].
      destruct (segs_at p s b' c' Hbc) as (_ & _ & _ & Hb' & Hc'). fold n in Hc'.
      assert (b' = b) by congruence. subst b'.
      destruct (HC b c' (nth_error_In _ _ Hbc)) as (SO' & CL'). apply clear_fuzzy in CL'.
      assert (SH := slice_shift p i j a b c' sp ep eps He Hi H2 ltac:(congruence) Ha Hb Hc' SO' CL' Esp).
      fold n s in SH. rewrite SH.
      assert (SN := slice_normal p s 0 j u b c' c e sp ep eps). fold n in SN.
      destruct SN as (S1 & S2); auto; try lra.
      { rewrite Esp. now apply seg_at_0. }
      { apply Csp. now apply nth_error_In in Hc'. }
      { congruence. }
      { intros _ _. destruct SO' as [[Z|[Z _]] _]; [now left|right].
        replace ((1 - 0) * atan (pbulge b)) with (atan (pbulge b)) by ring. now rewrite tan_atan. }
      split.
      * intros [(_ & _ & [H|H])|(_ & H & H')]; [lra|congruence|]. apply S1. split; [now symmetry|now symmetry].
      * intros HF. destruct S2 as (d & D1 & D2).
        { intros [H H']. apply HF. right. repeat split; auto. }
        exists d. split; [exact D1|]. unfold s in D2.
        rewrite slice_pieces_shift; auto. intros [H H']. apply HF. right. auto.
  - assert (SN := slice_normal p i t j u a b c e sp ep eps). fold n in SN.
    destruct SN as (S1 & S2); auto; try lra.
    split.
    + intros [(H & H' & _)|(H & _)]; [|contradiction]. now apply S1.
    + intros HF. apply S2. intros [H H']. apply HF. left. split; [exact H|]. split; [exact H'|]. left. lra.
Qed.

Lemma new_start_normal p s t a b sp eps :
  0 < eps -> is_closed p = true -> (2 <= vertex_count p)%nat -> (s < vertex_count p)%nat ->
  nth_error (vtx p) s = Some a -> nth_error (vtx p) ((s + 1) mod vertex_count p)%nat = Some b ->
  seg_ok a b -> v2fuzzy_eq_eps (pos a) (pos b) eps = false -> 0 <= t < 1 -> seg_at a b t sp ->
  crisp eps (pos a) sp -> crisp eps (pos b) sp ->
  exists d, view_from_new_start p sp s eps = Ret (Some d)
    /\ view_path p d sp sp (slice_pieces (vertex_count p) s t s t).
Proof.
  intros He CL H2 Hs Ha Hb SO NC Ht Q C1 C2. set (n := vertex_count p) in *.
  pose proof (fuzzy_false_neq _ _ _ He NC) as NC'.
  assert (N1 : pos b <> sp).
  { intros E. subst sp. assert (t = 1); [|lra]. apply (seg_at_inj a b t 1 (pos b)); auto; try lra. now apply seg_at_1. }
  destruct (tail_piece a b t sp eps He SO NC Ht Q C1 C2) as (T1 & T2 & _ & _).
  destruct (view_create_spec p s s n t t (split_vertex (seg_split_at_point a b sp eps)) a b a b sp eps)
    as (d & D1 & D2); auto; try (fold n; lia); try lra.
  { fold n. replace (s + n)%nat with (s + 1 * n)%nat by lia. rewrite Nat.mod_add by lia. apply Nat.mod_small. lia. }
  { intros ->. apply (seg_at_unique a b 0); auto. now apply seg_at_0. }
  exists d. split.
  - rewrite <- (f_equal (rmap Some) D1) || idtac. unfold view_from_new_start. rewrite CL. cbn [negb].
    fold n. destruct (Nat.ltb_spec n 2); [lia|].
    rewrite (next_wrapping_index_mod p s) by exact Hs. fold n. rewrite (at_ok p _ b Hb). cbn [rbind].
    rewrite (crisp_false eps (pos b) sp C2 N1). rewrite (at_ok p s a Ha). cbn [rbind].
    rewrite (next_wrapping_index_mod p s) by exact Hs. fold n. rewrite (at_ok p _ b Hb). cbn [rbind]. cbv zeta.
    unfold view_create in D1. destruct (Nat.eqb_spec n 0); [lia|]. rewrite (at_ok p s a Ha) in D1. cbn [rbind] in D1.
    assert (FS : v2fuzzy_eq_eps sp (pos a) eps = v2fuzzy_eq_eps (pos a) sp eps).
    { destruct (v2fuzzy_eq_eps (pos a) sp eps) eqn:F.
      - apply crisp_true in F; auto. subst sp. now apply fuzzy_refl.
      - destruct (v2fuzzy_eq_eps sp (pos a) eps) eqn:F'; [|reflexivity].
        apply crisp_true in F'; auto; [|now apply crisp_sym]. subst sp. rewrite fuzzy_refl in F by exact He. discriminate. }
    rewrite FS in D1. destruct (v2fuzzy_eq_eps (pos a) sp eps).
    + destruct (Nat.eqb_spec (n - 1) 0); [lia|]. cbn [negb] in D1.
      destruct (prev_wrapping_index p s) as [pi|]; cbn [rbind] in *; [|discriminate].
      destruct (at_ p pi) as [pv|]; cbn [rbind] in *; [|discriminate]. injection D1 as <-. reflexivity.
    + rewrite (next_wrapping_index_mod p s) in D1 by exact Hs. fold n in D1. rewrite (at_ok p _ b Hb) in D1.
      cbn [rbind] in *. injection D1 as <-. reflexivity.
  - rewrite T1 in D2. fold n in D2. unfold slice_pieces. rewrite Nat.eqb_refl.
    destruct (Rlt_dec t t); [lra|]. destruct (Rlt_dec t 1); [|lra].
    replace ((s + n - (s + 1)) mod n)%nat with (n - 1)%nat; [exact D2|].
    replace (s + n - (s + 1))%nat with (n - 1)%nat by lia. symmetry. apply Nat.mod_small. lia.
Qed.

Lemma new_start_closed p eps i t sp :
  0 < eps -> is_closed p = true -> clear_pline eps p -> point_at p i t sp -> crisp_vertexes eps p sp ->
  exists d, view_from_new_start p sp i eps = Ret (Some d)
    /\ view_path p d sp sp (slice_pieces (vertex_count p) i t i t).
Proof.
  intros He CL HC (a & b & Hab & Ht & Q) Csp.
  destruct (segs_at p i a b Hab) as (Hi & H2 & _ & Ha & Hb).
  destruct (HC a b (nth_error_In _ _ Hab)) as (SO & NC). apply clear_fuzzy in NC.
  set (n := vertex_count p) in *.
  destruct (Req_dec t 1) as [E1|E1].
  - subst t. assert (Esp : sp = pos b) by (apply (seg_at_unique a b 1); auto; now apply seg_at_1).
    set (s := ((i + 1) mod n)%nat) in *.
    assert (Hs : (s < n)%nat) by (apply Nat.mod_upper_bound; lia).
    destruct (segs_at_intro p s) as (b' & c' & Hbc); [exact H2|exact Hs|congruence|].
    destruct (segs_at p s b' c' Hbc) as (_ & _ & _ & Hb' & Hc'). fold n in Hc'.
    assert (b' = b) by congruence. subst b'.
    destruct (HC b c' (nth_error_In _ _ Hbc)) as (SO' & NC'). apply clear_fuzzy in NC'.
    destruct (new_start_normal p s 0 b c' sp eps) as (d & D1 & D2); auto; try lra.
    { rewrite Esp. now apply seg_at_0. }
    { apply Csp. now apply nth_error_In in Hb. }
    { apply Csp. now apply nth_error_In in Hc'. }
    exists d. split.
    + rewrite <- D1. unfold view_from_new_start. rewrite CL. cbn [negb]. fold n.
      destruct (Nat.ltb_spec n 2); [lia|].
      rewrite (next_wrapping_index_mod p i) by exact Hi. fold n. fold s. rewrite (at_ok p s b Hb). cbn [rbind].
      rewrite (next_wrapping_index_mod p s) by exact Hs. fold n. rewrite (at_ok p _ c' Hc'). cbn [rbind].
      assert (N2 : pos c' <> sp).
      { rewrite Esp. intros E. apply (fuzzy_false_neq _ _ _ He NC'). now symmetry. }
      rewrite (crisp_false eps (pos c') sp (Csp c' (nth_error_In _ _ Hc')) N2).
      rewrite Esp. rewrite fuzzy_refl by exact He. reflexivity.
    + fold n in D2. unfold slice_pieces in *. rewrite Nat.eqb_refl in *.
      destruct (Rlt_dec 0 0); [lra|]. destruct (Rlt_dec 1 1); [lra|]. destruct (Rlt_dec 0 1); [|lra].
      replace ((i + n - (i + 1)) mod n)%nat with (n - 1)%nat
        by (replace (i + n - (i + 1))%nat with (n - 1)%nat by lia; symmetry; apply Nat.mod_small; lia).
      replace ((s + n - (s + 1)) mod n)%nat with (n - 1)%nat in D2
        by (replace (s + n - (s + 1))%nat with (n - 1)%nat by lia; symmetry; apply Nat.mod_small; lia).
      cbn [app] in *. rewrite app_nil_r in D2.
      match type of D2 with view_path _ _ _ _ ?X => match goal with |- view_path _ _ _ _ ?Y => replace Y with X; [exact D2|] end end.
      replace (n - 1)%nat with (S (n - 2)) by lia. rewrite (seq_S (n - 2) 0) at 1. rewrite map_app. cbn [seq map app].
      rewrite <- seq_shift, map_map, Nat.add_0_r. fold s. f_equal. f_equal.
      * apply map_ext. intros k. f_equal. f_equal. unfold s.
        replace ((i + 1) mod n + 1 + k)%nat with ((i + 1) mod n + (1 + k))%nat by lia.
        rewrite Nat.add_mod_idemp_l by lia. f_equal; lia.
      * f_equal. f_equal. f_equal. unfold s. simpl Nat.add.
        replace ((i + 1) mod n + 1 + (n - 2))%nat with ((i + 1) mod n + (n - 1))%nat by lia.
        rewrite Nat.add_mod_idemp_l by lia. replace (i + 1 + (n - 1))%nat with (i + 1 * n)%nat by lia.
        rewrite Nat.mod_add by lia. apply Nat.mod_small. exact Hi.
  - apply (new_start_normal p i t a b sp eps); auto; try lra; apply Csp; eapply nth_error_In; eassumption.
Qed.

Lemma new_start_open p eps i t sp l :
  0 < eps -> is_closed p = false -> clear_pline eps p -> point_at p i t sp -> crisp_vertexes eps p sp ->
  (forall v, In v (vtx p) -> crisp eps (pos v) (pos l)) ->
  nth_error (vtx p) (vertex_count p - 1) = Some l ->
  (sp = pos l /\ (i + 2)%nat = vertex_count p -> view_from_new_start p sp i eps = Ret None)
  /\ (~ (sp = pos l /\ (i + 2)%nat = vertex_count p) -> exists d, view_from_new_start p sp i eps = Ret (Some d)
        /\ view_path p d sp (pos l) (slice_pieces (vertex_count p) i t (vertex_count p - 1) 0)).
Proof.
  intros He OP HC HP Csp Cl Hl. destruct HP as (a & b & Hab & Ht & Q).
  destruct (segs_at p i a b Hab) as (Hi & H2 & HiO & Ha & Hb). specialize (HiO OP).
  set (n := vertex_count p) in *.
  assert (EQ : view_from_new_start p sp i eps = view_from_slice_points p sp i (pos l) (n - 1) eps).
  { unfold view_from_new_start. rewrite OP. cbn [negb]. unfold last_. rewrite usub_ok by (fold n; lia). cbn [rbind].
    unfold get. fold n. rewrite Hl. reflexivity. }
  rewrite EQ.
  assert (SM := slice_main p eps i t sp (n - 1) 0 (pos l)). fold n in SM.
  destruct SM as (S1 & S2); auto.
  { exists a, b. auto. }
  { right. split; [exact OP|]. split; [reflexivity|]. split; [fold n; lia|]. exists l. auto. }
  { apply crisp_sym, Csp. now apply nth_error_In in Hl. }
  { intros _. left. lia. }
  { intros E. lia. }
  destruct (HC a b (nth_error_In _ _ Hab)) as (SO & NC). apply clear_fuzzy in NC.
  assert (NC' := fuzzy_false_neq _ _ _ He NC).
  assert (EV : slice_empty p i t (n - 1) 0 <-> sp = pos l /\ (i + 2)%nat = n).
  { unfold slice_empty. fold n. split.
    - intros [(E & _)|(E & E' & _)]; [lia|]. rewrite Nat.mod_small in E' by lia.
      split; [|lia]. rewrite Nat.mod_small in Hb by lia. assert (b = l) by congruence. subst b t.
      apply (seg_at_unique a l 1); auto. now apply seg_at_1.
    - intros [E E']. right. rewrite Nat.mod_small by lia. rewrite Nat.mod_small in Hb by lia.
      assert (b = l). { replace (i + 1)%nat with (n - 1)%nat in Hb by lia. congruence. }
      subst b sp. split; [|split; [lia|reflexivity]].
      apply (seg_at_inj a l t 1 (pos l)); auto; try lra. now apply seg_at_1. }
  rewrite <- EV. auto.
Qed.
