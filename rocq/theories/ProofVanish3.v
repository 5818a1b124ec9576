(** The offset of a convex polygon to its inner side when sides vanish (C76). *)
From Coq Require Import Reals ZArith Bool List Arith Lra Lia Psatz Classical Permutation.
From Verif Require Import Num RNum Res ModelMath ModelSeg ModelPline ModelView ModelIndex ModelIntr ModelSegIntr ModelIntersects ModelBoolean ModelOffset.
From Verif Require Import Spec SpecPline SpecGeom SpecBox SpecIntr SpecView SpecPruneR SpecPrune SpecBoolean SpecIndex SpecIntersects SpecCuts SpecChain SpecRegion SpecOffset SpecOffsetJoin SpecPolyOff SpecPolyBool SpecConvex SpecJordan SpecVanish.
From Verif Require Import ProofR ProofBase ProofIter ProofArc ProofIntr ProofFind ProofFindR ProofSegIntr2 ProofWinding2 ProofWinding6 ProofWinding7 ProofArea ProofPolyOff ProofPolyOff2 ProofPolyBool ProofConvex ProofConvexOff ProofOverlap ProofRegion ProofCuts3 ProofTarget4 ProofTarget6 ProofTarget8 ProofVanish ProofVanish2.
Import ListNotations.
Local Open Scope R_scope.

Section Double.
Variables (eps join : R) (qs : list (vec2 R)).
Hypothesis He : 0 < eps.
Hypothesis Cp : crossing_polygon eps join qs.
Local Notation n := (length qs).
Local Notation segs := (spec_segs qs true).
Local Notation raw := (polygon qs).

Lemma raw_point k t q : point_at raw k t q -> exists a b, nth_error segs k = Some (a, b) /\ 0 <= t <= 1 /\ q = line_pt a b t.
Proof.
  intros (v & w & E & Ht & At). change (is_closed raw) with true in E. rewrite polygon_segs in E. destruct (nth_error segs k) as [[a b]|]; [|discriminate]. injection E as <- <-.
  apply seg_at_line in At; [|reflexivity]. cbn [fst snd] in At. rewrite !lv_pos in At. exists a, b. auto.
Qed.

Lemma qs_next i a b : nth_error segs i = Some (a, b) -> forall c e, nth_error segs ((i + 1) mod n) = Some (c, e) -> c = b.
Proof. intros E1 c e E2. apply segs_nth in E1 as (_ & E1). apply segs_nth in E2 as (E2 & _). congruence. Qed.

Lemma next_never i j t u q : ((i + 1) mod n)%nat = j -> t < 1 -> point_at raw i t q -> point_at raw j u q -> False.
Proof.
  intros <- Ht P1 P2. apply raw_point in P1 as (a & b & E1 & H1 & Q1). apply raw_point in P2 as (b' & c & E2 & H2 & Q2).
  pose proof (qs_next i a b E1 b' c E2) as ->. pose proof (vn_flat eps join qs Cp i a b c E1 E2) as F.
  destruct (line_line_nonparallel a b b c eps He F) as (s0 & t0 & _ & U & _). destruct (U 1 0) as (S1 & _). { destruct (line_pt_ends a b) as (_ & ->). destruct (line_pt_ends b c) as (-> & _). reflexivity. }
  destruct (U t u) as (T & _); [congruence|]. lra.
Qed.

Lemma vn_other k j t u q : t < 1 -> u < 1 -> point_at raw k t q -> point_at raw j u q -> k <> j -> sides_cross eps qs k j q.
Proof.
  intros Ht Hu P1 P2 N. assert (NN : no_neighbours n k j).
  { split; [exact N|]. split; intros E; [exact (next_never j k u t q (eq_sym E) Hu P2 P1)|exact (next_never k j t u q E Ht P1 P2)]. }
  split; [exact NN|]. apply raw_point in P1 as (a & b & E1 & H1 & Q1). apply raw_point in P2 as (c & e & E2 & H2 & Q2).
  exists a, b, c, e. split; [exact E1|]. split; [exact E2|]. pose proof Cp as (_ & _ & SD & _). specialize (SD k j a b c e E1 E2 NN). rewrite <- or_assoc in SD. destruct SD as [B|(x & C)].
  - exfalso. apply (beside_no_common eps (lv a) (lv b) (lv c) (lv e) q); [exact He|reflexivity|reflexivity|rewrite !lv_pos; exact B| |]; (apply line_point; [reflexivity|]); rewrite !lv_pos; eauto.
  - assert (q = x); [|subst x; exact C]. destruct C as (C & s & v & _ & _ & X1 & X2). destruct (line_line_nonparallel a b c e eps He C) as (s0 & t0 & _ & U & _).
    destruct (U t u) as (<- & <-); [congruence|]. destruct (U s v) as (-> & ->); congruence.
Qed.

Lemma vn_double pairs k t q : pairs_ok raw eps (boxes_of raw) pairs -> t < 1 -> point_at raw k t q -> ~ lone_at raw q -> In (k, q) (self_cuts raw eps pairs).
Proof.
  intros PO Ht P NL. apply (vn_in eps join qs pairs He Cp PO). apply NNPP. intros NE. apply NL. intros i j u v P1 P2 Hu Hv.
  destruct (Nat.eq_dec k i) as [<-|N1].
  - destruct (Nat.eq_dec k j) as [<-|N2]; [reflexivity|]. exfalso. apply NE. exists j. exact (vn_other k j t v q Ht Hv P P2 N2).
  - exfalso. apply NE. exists i. exact (vn_other k i t u q Ht Hu P P1 N1).
Qed.
End Double.

(** ** Points near a point, off a polygon and at other heights *)
Lemma off_near qs (hs : list R) x r : 0 < r -> exists y, dist x y < r /\ ~ on_path (polygon qs) y /\ (forall q, In q qs -> vy q <> vy y) /\ ~ In (vy y) hs.
Proof.
  intros Hr. destruct (generic_near (map vy qs ++ hs) (vy x) (r / 2)) as (h & Hh & Nh); [lra|].
  destruct (generic_near (map (fun ab => vx (fst ab) + (h - vy (fst ab)) / (vy (snd ab) - vy (fst ab)) * (vx (snd ab) - vx (fst ab))) (spec_segs qs true)) (vx x) (r / 2)) as (u & Hu & Nu); [lra|].
  exists (V2 u h). assert (NV : forall q, In q qs -> vy q <> h). { intros q I E. apply Nh. apply in_or_app. left. rewrite <- E. now apply in_map. }
  split; [|split; [|split; [exact NV|intros I; apply Nh; apply in_or_app; now right]]].
  - unfold dist. cbn [vx vy]. apply Rle_lt_trans with (sqrt ((Rabs (vx x - u) + Rabs (vy x - h)) * (Rabs (vx x - u) + Rabs (vy x - h)))).
    + apply sqrt_le_1_alt. unfold Rsqr. assert (A1 : (vx x - u) * (vx x - u) = Rabs (vx x - u) * Rabs (vx x - u)) by (unfold Rabs; destruct (Rcase_abs _); ring).
      assert (A2 : (vy x - h) * (vy x - h) = Rabs (vy x - h) * Rabs (vy x - h)) by (unfold Rabs; destruct (Rcase_abs (vy x - h)); ring).
      rewrite ?A1, ?A2. pose proof (Rabs_pos (vx x - u)). pose proof (Rabs_pos (vy x - h)). assert (0 <= Rabs (vx x - u) * Rabs (vy x - h)) by (apply Rmult_le_pos; lra). lra.
    + pose proof (Rabs_pos (vx x - u)). pose proof (Rabs_pos (vy x - h)). rewrite sqrt_square by lra. assert (Rabs (vx x - u) < r / 2) by (apply Rabs_def1; lra). assert (Rabs (vy x - h) < r / 2) by (apply Rabs_def1; lra). lra.
  - intros O. apply polygon_path in O as (a & b & t & I & Ht & E). apply Nu. apply in_map_iff. exists (a, b). split; [|exact I]. cbn [fst snd].
    pose proof (f_equal vx E) as Ex. pose proof (f_equal vy E) as Ey. unfold line_pt in Ex, Ey. cbn [vx vy] in Ex, Ey. destruct (spec_segs_In_both _ _ _ _ I) as (Ia & Ib).
    assert (D : vy b - vy a <> 0). { intros Z. rewrite Z in Ey. apply (NV a Ia). lra. } rewrite Ex, Ey. field. exact D.
Qed.

Lemma loops_stay rs x : (forall r, In r rs -> pline_ok r /\ ~ on_path r x) -> exists e, 0 < e /\ forall y, dist x y < e -> map (fun r => wn r y) rs = map (fun r => wn r x) rs.
Proof.
  induction rs as [|r rs IH]; intros A; [exists 1; split; [lra|reflexivity]|]. destruct IH as (e & He & H); [intros; apply A; now right|].
  destruct (A r (or_introl eq_refl)) as (Ok & O). destruct (wn_local r x Ok O) as (e' & He' & H'). exists (Rmin e e'). split; [now apply Rmin_pos|]. intros y Hy. cbn [map].
  f_equal; [apply H'|apply H]; pose proof (Rmin_l e e'); pose proof (Rmin_r e e'); lra.
Qed.

Lemma wind_wn rs x : wind_together rs x (fold_right Z.add 0%Z (map (fun r => wn r x) rs)).
Proof. exists (map (fun r => wn r x) rs). split; [|reflexivity]. induction rs as [|r rs IH]; constructor; [apply winding_wn|exact IH]. Qed.

Section Main.
Variables (mk : list (aabb R) -> sindex R) (s e : R) (ps qs : list (vec2 R)) (o : offset_options R) (idx : sindex R).
Local Notation eps := (oo_pos_equal_eps o).
Local Notation join := (oo_slice_join_eps o).
Local Notation p := (polygon ps).
Local Notation raw := (polygon qs).
Hypothesis MK : makes_index mk.
Hypothesis Hs : s = 1 \/ s = -1.
Hypothesis epos : 0 < eps.
Hypothesis jpos : 0 < join.
Hypothesis Hd : 0 < oo_offset_dist_eps o < e.
Hypothesis HS : oo_handle_self_intersects o = false.
Hypothesis Le : eps <= e.
Hypothesis Ls : forall a b, In (a, b) (spec_segs ps true) -> eps <= e * dist a b.
Hypothesis Cv : convex s ps.
Hypothesis Po : passes_once p.
Hypothesis IDX : pline_index p idx.
Hypothesis Ic : inner_corners p (s * e) eps qs.
Hypothesis Cp : crossing_polygon eps join qs.
Hypothesis Ck : clearly_kept s e eps (oo_offset_dist_eps o) ps qs.

Lemma He : 0 < e. Proof. lra. Qed.
Lemma N3 : (3 <= length qs)%nat. Proof. apply Cp. Qed.
Local Notation F := (far s e ps).
Local Notation TG := (target s e ps).

Lemma raw_side k v w : nth_error (spec_segs (vtx raw) (is_closed raw)) k = Some (v, w) -> exists a b, nth_error (spec_segs qs true) k = Some (a, b) /\ v = lv a /\ w = lv b.
Proof.
  intros E. change (is_closed raw) with true in E. rewrite polygon_segs in E. destruct (nth_error (spec_segs qs true) k) as [[a b]|]; [|discriminate]. injection E as <- <-. exists a, b. auto.
Qed.

Lemma raw_clear : clear_pline eps raw.
Proof.
  intros v w I. apply In_nth_error in I as (k & E). apply raw_side in E as (a & b & E & -> & ->). split; [now apply line_ok|].
  destruct Ic as (_ & NP & _). pose proof (proj1 (Forall_forall _ _) NP) as NF. destruct (segs_nth qs k a b E) as (Q1 & Q2).
  destruct (with_previous_next _ _ _ Q1) as (z & Ez). destruct (with_previous_this _ _ _ Q2) as (y & Ey). rewrite Ez in Ey. injection Ey as _ ->.
  specialize (NF _ (nth_error_In _ _ Ez)). cbn [fst snd] in NF. unfold lv, vertex_at. cbn [px py].
  destruct (Rle_dec eps (Rabs (vx a - vx b))) as [|L1]; [now left|]. destruct (Rle_dec eps (Rabs (vy a - vy b))) as [|L2]; [now right|].
  exfalso. apply NF. split; rewrite Rabs_minus_sym; lra.
Qed.

Lemma far_within x : within_by s e ps x -> F x = true.
Proof. intros W. apply far_iff. intros [a b] I. specialize (W a b I). unfold hgt. cbn [fst snd]. lra. Qed.

Lemma mid_decided pairs k q a b q' : pairs_ok raw eps (boxes_of raw) pairs -> In (k, q) (self_cuts raw eps pairs) -> nth_error (spec_segs (vtx raw) (is_closed raw)) k = Some (a, b) ->
  q' = pos b \/ In (k, q') (self_cuts raw eps pairs) -> q <> q' -> F (line_pt q q' (1 / 2)) = false -> ~ clear_point p (s * e) o (line_pt q q' (1 / 2)).
Proof.
  intros PO I E Q N NF. apply raw_side in E as (c & d & E & -> & ->). rewrite lv_pos in Q.
  pose proof (vn_in eps join qs pairs epos Cp PO) as VI. apply VI in I as (j & SC).
  assert (Q' : q' = d \/ exists j', sides_cross eps qs k j' q') by (destruct Q as [Q|Q]; [now left|right; now apply VI]).
  destruct (Ck k j q c d q' SC E Q' N) as [W|(x & (v1 & v2 & Iv & On) & M)].
  - apply far_within in W. unfold middle in W. congruence.
  - pose proof (va_abs s e eps ps qs Hs He Cv Ic) as AB. apply (unclear_near p (s * e) o _ v1 v2 x); [apply va_polygon|exact epos|exact Iv|exact On|rewrite AB; lra|rewrite AB; exact M].
Qed.

Theorem vanish_loops : exists rs, parallel_offset mk p idx (s * e) o = Ret rs
  /\ Forall (fun r => is_closed r = true /\ (2 <= vertex_count r)%nat /\ forall pr, In pr (spec_segs (vtx r) true) -> part_of raw pr) rs
  /\ exists hs : list R, forall x, (forall q, In q qs -> vy q <> vy x) -> ~ In (vy x) hs -> ~ on_path raw x ->
       zsum (map (fun r => zsum (map (nw x) (spec_segs (vtx r) true))) rs) = TG x.
Proof.
  pose proof He as He'. pose proof N3 as N3'. assert (PC : (2 <= vertex_count p)%nat).
  { destruct (va_vl s e eps ps qs Ic N3') as (V & _). exact V. }
  assert (RW : create_raw_offset_polyline p (s * e) eps = Ret raw) by (apply inner_raw; [exact epos|apply va_polygon|exact PC|exact Ic]).
  destruct (offset_cut mk p idx (s * e) o MK IDX PC) as (raw' & ER & H). rewrite RW in ER. injection ER as <-.
  destruct H as [(Z & _)|(VC & slices & last & chains & Ks & SL & EQ & AC & PM)]; [exfalso; unfold vertex_count, polygon in Z; cbn [vtx] in Z; rewrite map_length in Z; lia|].
  unfold offset_slices in SL. rewrite HS in SL. change (is_closed p) with true in SL, EQ. cbn [negb andb] in SL. destruct SL as (pairs & PO & CS).
  set (cuts := self_cuts raw eps pairs) in *.
  assert (CN : cuts <> []) by (pose proof (vn_many eps join qs pairs epos Cp PO) as M; fold cuts in M; destruct cuts; [cbn in M; lia|discriminate]).
  assert (ZL : forall v, In v (vtx raw) -> pbulge v = 0) by (intros v I; unfold polygon in I; cbn [vtx] in I; apply in_map_iff in I as (q & <- & _); reflexivity).
  pose proof (self_loops p raw (s * e) o cuts TG F epos jpos VC eq_refl raw_clear ZL (vn_clean eps join qs pairs epos Cp PO) (vn_nodup eps join qs pairs epos Cp PO)
    (vn_many eps join qs pairs epos Cp PO) (vn_wide eps join qs pairs epos Cp PO) (fun k t q => vn_double eps join qs epos Cp pairs k t q PO)) as SLP.
  destruct SLP with (slices := slices) (choice := nearest_ahead slices last eps) (chains := chains) (Ks := Ks) as (A & B); clear SLP.
  - intros k v w s0 s1 E H0 H1 H2 Lo. apply raw_side in E as (a & b & E & -> & ->). rewrite !lv_pos in *. eapply (va_status s e eps ps qs); eauto.
  - intros x x'. eapply (va_local s e eps ps qs); eauto.
  - intros k v w t q E. eapply (va_near s e eps ps qs); eauto.
  - intros h. eapply (va_far s e eps ps qs); eauto.
  - intros a b _. apply va_ends.
  - intros q Fq. eapply (va_clear s e eps ps qs); eauto. lra.
  - intros w1 w2 Z FA. destruct (line_pt_ends (pos w1) (pos w2)) as (X0 & X1). eapply (va_clear_seg s e eps ps qs); eauto; [rewrite <- X0|rewrite <- X1]; apply FA; lra.
  - intros k q a b q' I E Q N NF. exact (mid_decided pairs k q a b q' PO I E Q N NF).
  - exact CN.
  - exact CS.
  - intros first cur avail b (I & _). exact I.
  - exact AC.
  - exact PM.
  - eexists. split; [exact EQ|]. split; [exact A|]. exists (map (fun y => vy (snd y)) cuts). intros x Hq Hh O. apply B; [| |exact O].
    + intros v I. unfold polygon in I. cbn [vtx] in I. apply in_map_iff in I as (q & <- & I). exact (Hq q I).
    + intros y I Ey. apply Hh. rewrite <- Ey. apply (in_map (fun y => vy (snd y))). exact I.
Qed.

Theorem vanish_region : exists rs, parallel_offset mk p idx (s * e) o = Ret rs
  /\ Forall (fun r => is_polygon r /\ (2 <= vertex_count r)%nat /\ forall q, on_path r q -> on_path raw q) rs
  /\ forall x, (forall r, In r rs -> ~ on_path r x) ->
     (inside p x = true -> (forall q, on_path p q -> e < dist x q) -> forall w, IZR w = s -> wind_together rs x w)
     /\ (inside p x = false /\ ~ on_path p x \/ (exists q, on_path p q /\ dist x q < e) -> wind_together rs x 0).
Proof.
  pose proof He as He'. pose proof N3 as N3'. destruct vanish_loops as (rs & EQ & A & hs & B). exists rs. split; [exact EQ|]. pose proof (proj1 (Forall_forall _ _) A) as AF.
  assert (OK : forall r, In r rs -> is_polygon r /\ (2 <= vertex_count r)%nat /\ pline_ok r /\ forall q, on_path r q -> on_path raw q).
  { intros r I. destruct (AF r I) as (CL & C2 & PT). assert (IP : is_polygon r).
    { split; [exact CL|]. intros v Iv. apply In_nth_error in Iv as (i & Ei). assert (Li : (i < vertex_count r)%nat) by (apply nth_error_Some; congruence).
      destruct (nth_error (spec_segs (vtx r) true) i) as [[a b]|] eqn:Es.
      - destruct (segs_nth _ _ _ _ Es) as (X & _). rewrite Ei in X. injection X as <-. apply (PT (v, b)). eapply nth_error_In. exact Es.
      - exfalso. apply nth_error_None in Es. rewrite spec_segs_length in Es. unfold vertex_count in *. destruct (Nat.ltb_spec (length (vtx r)) 2); lia. }
    split; [exact IP|]. split; [exact C2|]. split.
    - intros v1 v2 J. apply line_ok. apply (proj2 IP). apply (spec_segs_In_both _ _ _ _ J).
    - intros q (v1 & v2 & J & On). rewrite CL in J. apply (PT (v1, v2) J). exact On. }
  split; [apply Forall_forall; intros r I; destruct (OK r I) as (X1 & X2 & _ & X3); auto|].
  intros x Ox. assert (Go : forall w, (exists r, 0 < r /\ forall y, dist x y < r -> TG y = w) -> wind_together rs x w).
  { intros w (r1 & Hr1 & T). destruct (loops_stay rs x) as (r2 & Hr2 & St); [intros r I; destruct (OK r I) as (_ & _ & X & _); auto|].
    destruct (off_near qs hs x (Rmin r1 r2)) as (y & Hy & Oy & Ny & Nh); [now apply Rmin_pos|].
    assert (Y1 : dist x y < r1) by (pose proof (Rmin_l r1 r2); lra). assert (Y2 : dist x y < r2) by (pose proof (Rmin_r r1 r2); lra).
    rewrite <- (T y Y1), <- (B y Ny Nh Oy). replace (zsum _) with (fold_right Z.add 0%Z (map (fun r => wn r x) rs)); [apply wind_wn|].
    rewrite <- (St y Y2). unfold zsum at 1. f_equal. apply map_ext_in. intros r I. destruct (OK r I) as ((CL & _) & C2 & Kr & Sub). unfold wn.
    rewrite (winding_nw r y Kr CL C2); [now rewrite CL|]. intros O. apply Oy. now apply Sub. }
  split.
  - intros I D w Hw. apply Go. assert (Off : ~ on_path p x). { intros O. specialize (D x O). assert (X : dist x x = 0); [|lra]. unfold dist. rewrite !Rminus_diag_eq by reflexivity. replace (_ + _) with 0 by (unfold Rsqr; ring). apply sqrt_0. }
    assert (DX : deep s e ps x = true) by (apply (deep_inside s e eps ps qs); auto).
    destruct (hgt_signs s e eps ps qs Hs Cv Ic (spec_segs ps true) x) as (r & Hr & S). exists r. split; [exact Hr|]. intros y Hy. unfold target.
    assert (DY : deep s e ps y = true). { apply deep_iff. intros ab J. apply (S y ab Hy J). now apply (proj1 (deep_iff s e ps x)). }
    rewrite DY. destruct (zs_cases s Hs) as [(Es & ->)|(Es & ->)]; apply eq_IZR; lra.
  - intros Out. apply Go. assert (FX : F x = false).
    { destruct (F x) eqn:FX; [|reflexivity]. exfalso. destruct Out as [(I & O)|(q & Q & D)].
      - pose proof (proj1 (far_iff s e ps x) FX) as P. assert (inside p x = true); [|congruence]. apply (convex_inside s ps Hs Cv (va_vl s e eps ps qs Ic N3') Po x O).
        intros a b J. specialize (P _ J). unfold hgt in P. cbn [fst snd] in P. pose proof (ProofConvex.dist_pos a b (sides_apart ps Po a b J)). assert (0 < e * dist a b) by (apply Rmult_lt_0_compat; lra). lra.
      - pose proof (far_dist s e eps ps qs Hs Cv Po Ic x q FX Q). lra. }
    destruct (far_not s e ps x FX) as (ab & J & Neg). destruct (hgt_signs s e eps ps qs Hs Cv Ic (spec_segs ps true) x) as (r & Hr & S). exists r. split; [exact Hr|]. intros y Hy.
    unfold target. destruct (deep s e ps y) eqn:DY; [|reflexivity]. exfalso. pose proof (proj1 (deep_iff s e ps y) DY ab J). pose proof (proj2 (S y ab Hy J) Neg). lra.
Qed.
End Main.
