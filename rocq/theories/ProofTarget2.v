(** Segments that are kept where a region begins go around it (C76). *)
From Coq Require Import Reals ZArith Bool List Arith Lra Lia Psatz.
From Verif Require Import Num RNum Res ModelMath ModelSeg ModelPline Spec SpecGeom SpecBox SpecWinding.
From Verif Require Import ProofR ProofIntr ProofArc ProofSlice ProofWinding ProofWinding2 ProofWinding6 ProofWinding7 ProofRegion ProofRegion2 ProofTarget.
Import ListNotations.
Local Open Scope R_scope.

Lemma level_dist h z w : dist (level h z) (level h w) = Rabs (w - z).
Proof.
  unfold dist, level. cbn [vx vy]. replace ((z - w) * (z - w) + (h - h) * (h - h)) with (Rsqr (w - z)) by (unfold Rsqr; ring). apply sqrt_Rsqr_abs.
Qed.

Lemma upright_dist u h y : dist (V2 u h) (V2 u y) = Rabs (y - h).
Proof.
  unfold dist. cbn [vx vy]. replace ((u - u) * (u - u) + (h - y) * (h - y)) with (Rsqr (y - h)) by (unfold Rsqr; ring). apply sqrt_Rsqr_abs.
Qed.

Lemma jump_none u h d (e : marked) l : ok_all l -> ends_x u l -> 0 < d ->
  (forall e, In e l -> forall v, v = fst (fst e) \/ v = snd (fst e) -> py v = h \/ py v < h - d \/ h + d < py v) ->
  In e l -> (forall y, h - d <= y <= h + d -> on (fst e) (V2 u y) -> y = h) -> ~ on (fst e) (V2 u h) -> jump u h d (fst e) = 0%Z.
Proof.
  intros Ok Nx Hd Hv I H1 H2. unfold jump. destruct (Nx e I) as (N1 & N2).
  rewrite (nw_upright (fst e) u h d (Ok e I) Hd N1 N2 (Hv e I)); [lia|].
  intros y Hy Hon. pose proof (H1 y Hy Hon) as ->. contradiction.
Qed.

Lemma kept_ends_minus f g (l : list marked) : kept_ends (fun q => (f q - g q)%Z) l = (kept_ends f l - kept_ends g l)%Z.
Proof.
  unfold kept_ends. induction l as [|e l IH]; [reflexivity|]. cbn [map zsum fold_right].
  repeat match goal with |- context [fold_right Z.add 0%Z ?m] => change (fold_right Z.add 0%Z m) with (zsum m) end.
  rewrite IH. destruct (snd e); lia.
Qed.

Section Target.
Variables (L : list marked) (D : vec2 R -> Z) (side : seg -> vec2 R -> Z).
Hypothesis okL : ok_all L.
(** What [side] is for: near a segment the contribution of it changes as [side] does. *)
Hypothesis side_level : forall e q h, In e L -> on (fst e) q -> vy q = h -> py (fst (fst e)) <> h -> py (snd (fst e)) <> h ->
  exists r, 0 < r /\ forall u u', Rabs (u - vx q) < r -> Rabs (u' - vx q) < r -> ~ on (fst e) (level h u) -> ~ on (fst e) (level h u') ->
    (nw (level h u') (fst e) - nw (level h u) (fst e) = side (fst e) (level h u') - side (fst e) (level h u))%Z.
Hypothesis side_jump : forall e u h, In e L -> on (fst e) (V2 u h) -> px (fst (fst e)) <> u -> px (snd (fst e)) <> u ->
  exists r, 0 < r /\ forall d, 0 < d < r -> ~ on (fst e) (V2 u (h + d)) -> ~ on (fst e) (V2 u (h - d)) ->
    (forall v, v = fst (fst e) \/ v = snd (fst e) -> py v = h \/ py v < h - d \/ h + d < py v) ->
    jump u h d (fst e) = (side (fst e) (V2 u (h + d)%R) - side (fst e) (V2 u (h - d)%R))%Z.
Hypothesis Dlocal : forall x x', (forall t, 0 <= t <= 1 -> off L (line_pt x x' t)) -> D x = D x'.
(** Away from its ends only one segment is at a place, and [D] changes there as its mark says. *)
Hypothesis Dcross : forall L1 e L2 q, L = L1 ++ e :: L2 -> on (fst e) q -> q <> pos (fst (fst e)) -> q <> pos (snd (fst e)) ->
  off (L1 ++ L2) q /\ exists r, 0 < r /\ forall x x', dist q x < r -> dist q x' < r -> off L x -> off L x' ->
    (D x' - D x = if snd e then side (fst e) x' - side (fst e) x else 0)%Z.
Hypothesis Dfar : forall h, exists M, forall u, M <= u -> D (level h u) = 0%Z.

Lemma kept_app l l' x : kept (l ++ l') x = (kept l x + kept l' x)%Z.
Proof. unfold kept. now rewrite map_app, zsum_app. Qed.
Lemma kept_cons e l x : kept (e :: l) x = ((if snd e then nw x (fst e) else 0) + kept l x)%Z.
Proof. reflexivity. Qed.
Lemma off_app l l' x : off (l ++ l') x <-> off l x /\ off l' x.
Proof.
  unfold off. split; [intros H; split; intros e I; apply H, in_or_app; auto|]. intros (H1 & H2) e I. apply in_app_or in I as [I|I]; auto.
Qed.

Section Level.
Variable h : R.
Hypothesis ends : ends_off h L.
Definition gap (u : R) : Z := (kept L (level h u) - D (level h u))%Z.
Definition fr (u : R) : Prop := off L (level h u).

Lemma gap_stay u u' : u <= u' -> (forall w, u <= w <= u' -> fr w) -> gap u = gap u'.
Proof.
  intros Hu F. unfold gap. destruct (total_stay h L u u' ends Hu F) as (_ & E). rewrite E. f_equal. apply Dlocal.
  intros t Ht. rewrite line_level. apply F. now apply level_between.
Qed.

Lemma gap_cross u z u' : u < z < u' -> (forall w, u <= w <= u' -> w <> z -> fr w) -> gap u = gap u'.
Proof.
  intros Hz F. destruct (off_dec L (level h z)) as [Of|(e & I & On)].
  - apply gap_stay; [lra|]. intros w Hw. destruct (Req_dec w z) as [-> |N]; [exact Of|now apply F].
  - apply in_split in I as (L1 & L2 & EL).
    assert (Ie : In e L) by (rewrite EL; apply in_or_app; right; now left). destruct (ends e Ie) as (Oke & N1 & N2).
    destruct (Dcross L1 e L2 (level h z) EL On) as (Oth & r & Hr & HD).
    { intros Q. apply N1. apply (f_equal vy) in Q. cbn in Q. symmetry. exact Q. }
    { intros Q. apply N2. apply (f_equal vy) in Q. cbn in Q. symmetry. exact Q. }
    destruct (side_level e (level h z) h Ie On eq_refl N1 N2) as (r' & Hr' & HS). cbn [level vx] in HS.
    set (d := Rmin (Rmin (z - u) (u' - z)) (Rmin r r') / 2).
    assert (P0 : 0 < Rmin (Rmin (z - u) (u' - z)) (Rmin r r')) by (repeat apply Rmin_pos; lra).
    assert (P1 : Rmin (Rmin (z - u) (u' - z)) (Rmin r r') <= z - u) by (eapply Rle_trans; [apply Rmin_l|apply Rmin_l]).
    assert (P2 : Rmin (Rmin (z - u) (u' - z)) (Rmin r r') <= u' - z) by (eapply Rle_trans; [apply Rmin_l|apply Rmin_r]).
    assert (P3 : Rmin (Rmin (z - u) (u' - z)) (Rmin r r') <= r) by (eapply Rle_trans; [apply Rmin_r|apply Rmin_l]).
    assert (P4 : Rmin (Rmin (z - u) (u' - z)) (Rmin r r') <= r') by (eapply Rle_trans; [apply Rmin_r|apply Rmin_r]).
    assert (Q0 : 0 < d) by (unfold d; lra). assert (Q1 : d < z - u) by (unfold d; lra). assert (Q2 : d < u' - z) by (unfold d; lra).
    assert (Q3 : d < r) by (unfold d; lra). assert (Q4 : d < r') by (unfold d; lra). clearbody d. clear P0 P1 P2 P3 P4.
    assert (A1 : Rabs (z - d - z) < r /\ Rabs (z - d - z) < r').
    { replace (z - d - z) with (- d) by ring. rewrite Rabs_Ropp, Rabs_pos_eq by lra. lra. }
    assert (A2 : Rabs (z + d - z) < r /\ Rabs (z + d - z) < r').
    { replace (z + d - z) with d by ring. rewrite Rabs_pos_eq by lra. lra. }
    transitivity (gap (z - d)); [apply gap_stay; [lra|]; intros w Hw; apply F; lra|].
    transitivity (gap (z + d)); [|apply gap_stay; [lra|]; intros w Hw; apply F; lra].
    assert (F1 : off L (level h (z - d))) by (apply F; lra). assert (F2 : off L (level h (z + d))) by (apply F; lra).
    assert (HD' := HD (level h (z - d)) (level h (z + d))). rewrite !level_dist in HD'. specialize (HD' (proj1 A1) (proj1 A2) F1 F2).
    assert (HS' := HS (z - d) (z + d) (proj2 A1) (proj2 A2) (F1 e Ie) (F2 e Ie)).
    assert (St : forall l, incl l L -> off l (level h z) -> kept l (level h (z - d)) = kept l (level h (z + d))).
    { intros l Il Ol. apply (total_stay h l (z - d) (z + d)); [|lra|].
      - intros e' I'. apply ends. now apply Il.
      - intros w Hw. destruct (Req_dec w z) as [-> |N]; [exact Ol|]. intros e' I'. apply F; [lra|exact N|now apply Il]. }
    apply off_app in Oth as (O1 & O2).
    assert (S1 : kept L1 (level h (z - d)) = kept L1 (level h (z + d))) by (apply St; [intros e' I'; rewrite EL; apply in_or_app; now left|exact O1]).
    assert (S2 : kept L2 (level h (z - d)) = kept L2 (level h (z + d))) by (apply St; [intros e' I'; rewrite EL; apply in_or_app; right; now right|exact O2]).
    unfold gap. rewrite EL, !kept_app, !kept_cons, S1, S2. destruct (snd e); lia.
Qed.

Lemma level_target u : fr u -> kept L (level h u) = D (level h u).
Proof.
  intros F. destruct (crossings_list h L ends) as (xs & K). destruct (far_right h L ends) as (M & FM). destruct (Dfar h) as (M' & FD).
  set (u' := Rmax u (Rmax M M')).
  assert (L1 : M <= u') by (unfold u'; eapply Rle_trans; [apply Rmax_l|apply Rmax_r]).
  assert (L2 : M' <= u') by (unfold u'; eapply Rle_trans; [apply Rmax_r|apply Rmax_r]).
  assert (L3 : u <= u') by (unfold u'; apply Rmax_l).
  destruct (FM u' L1) as (O & _ & S).
  assert (G : gap u = gap u') by (apply (walk gap fr gap_stay gap_cross xs); assumption).
  unfold gap in G. rewrite S, (FD u' L2) in G. lia.
Qed.
End Level.

Lemma target_at x : ends_off (vy x) L -> off L x -> kept L x = D x.
Proof. intros H O. destruct x as [u h]. exact (level_target h H u O). Qed.

Lemma ray_target u h : ends_x u L -> kept_ends (ray u h) L = 0%Z.
Proof.
  intros N. destruct (heights_room L h) as (d1 & P1 & K1). destruct (upright_room L u h okL N) as (d2 & P2 & K2).
  assert (NE : forall e, In e L -> V2 u h <> pos (fst (fst e)) /\ V2 u h <> pos (snd (fst e))).
  { intros e I. destruct (N e I) as (Q1 & Q2). split; intros Q; [apply Q1|apply Q2]; apply (f_equal vx) in Q; cbn in Q; lra. }
  assert (X : exists d3, 0 < d3 /\ forall d, 0 < d < d3 -> 0 < d < d1 -> 0 < d < d2 ->
    (zsum (map (fun e : marked => if snd e then jump u h d (fst e) else 0) L) = D (V2 u (h + d)%R) - D (V2 u (h - d)%R))%Z).
  { destruct (off_dec L (V2 u h)) as [Of|(e & I & On)].
    - exists 1. split; [lra|]. intros d _ Hd1 Hd2. rewrite zsum_zero.
      + assert (E : D (V2 u (h - d)%R) = D (V2 u (h + d)%R)); [|lia]. apply Dlocal. intros t Ht.
        destruct (line_upright u h d t Ht ltac:(lra)) as (y & -> & By). intros e I O. pose proof (K2 d Hd2 e y I By O) as ->. exact (Of e I O).
      + intros e I. destruct (snd e); [|reflexivity]. apply (jump_none u h d e L okL N ltac:(lra)); [intros e' I'; exact (K1 d e' Hd1 I')|exact I| |exact (Of e I)].
        intros y Hy O. exact (K2 d Hd2 e y I Hy O).
    - pose proof (in_split _ _ I) as (L1 & L2 & EL). destruct (NE e I) as (NE1 & NE2). destruct (N e I) as (X1 & X2).
      destruct (Dcross L1 e L2 (V2 u h) EL On NE1 NE2) as (Oth & r & Hr & HD). apply off_app in Oth as (O1 & O2).
      destruct (side_jump e u h I On X1 X2) as (r' & Hr' & HS).
      exists (Rmin r r'). split; [now apply Rmin_pos|]. intros d Hd Hd1 Hd2.
      pose proof (Rmin_l r r'). pose proof (Rmin_r r r').
      assert (FO : forall y, y = h + d \/ y = h - d -> off L (V2 u y)).
      { intros y Hy e' I' O. pose proof (K2 d Hd2 e' y I' ltac:(destruct Hy; lra) O). destruct Hy; lra. }
      assert (F1 := FO (h + d) (or_introl eq_refl)). assert (F2 := FO (h - d) (or_intror eq_refl)).
      assert (J := HS d ltac:(lra) (F1 e I) (F2 e I) (fun v Hv => K1 d e Hd1 I v Hv)).
      assert (DD := HD (V2 u (h - d)%R) (V2 u (h + d)%R)). rewrite !upright_dist in DD.
      replace (h - d - h) with (- d) in DD by ring. replace (h + d - h) with d in DD by ring. rewrite Rabs_Ropp, Rabs_pos_eq in DD by lra.
      specialize (DD ltac:(lra) ltac:(lra) F2 F1).
      assert (Z : forall l, incl l L -> off l (V2 u h) -> zsum (map (fun e : marked => if snd e then jump u h d (fst e) else 0%Z) l) = 0%Z).
      { intros l Il Ol. apply zsum_zero. intros e' I'. destruct (snd e'); [|reflexivity].
        apply (jump_none u h d e' L okL N ltac:(lra)); [intros e2 I2; exact (K1 d e2 Hd1 I2)|now apply Il| |exact (Ol e' I')].
        intros y Hy O. exact (K2 d Hd2 e' y (Il _ I') Hy O). }
      rewrite DD, EL, map_app, zsum_app. cbn [map zsum fold_right]. fold (zsum (map (fun e : marked => if snd e then jump u h d (fst e) else 0%Z) L2)).
      rewrite (Z L1), (Z L2); [|intros e' I'; rewrite EL; apply in_or_app; right; now right|exact O2|intros e' I'; rewrite EL; apply in_or_app; now left|exact O1].
      destruct (snd e); [rewrite J|]; lia. }
  destruct X as (d3 & P3 & HX).
  set (d := Rmin d1 (Rmin d2 d3) / 2).
  assert (D0 : 0 < Rmin d1 (Rmin d2 d3)) by (repeat apply Rmin_pos; assumption).
  assert (D1 : Rmin d1 (Rmin d2 d3) <= d1) by apply Rmin_l.
  assert (D2 : Rmin d1 (Rmin d2 d3) <= d2) by (eapply Rle_trans; [apply Rmin_r|apply Rmin_l]).
  assert (D3 : Rmin d1 (Rmin d2 d3) <= d3) by (eapply Rle_trans; [apply Rmin_r|apply Rmin_r]).
  assert (Hd1 : 0 < d < d1) by (unfold d; lra). assert (Hd2 : 0 < d < d2) by (unfold d; lra). assert (Hd3 : 0 < d < d3) by (unfold d; lra).
  clearbody d. specialize (HX d Hd3 Hd1 Hd2).
  destruct (jump_sum u h d L) as (_ & SJ). rewrite HX in SJ.
  assert (G : forall y, y = h - d \/ y = h + d -> kept L (V2 u y) = D (V2 u y)).
  { intros y Hy. apply target_at.
    - intros e I. split; [now apply okL|]. cbn [vy]. split.
      + destruct (K1 d e Hd1 I _ (or_introl eq_refl)) as [Q|[Q|Q]], Hy; lra.
      + destruct (K1 d e Hd1 I _ (or_intror eq_refl)) as [Q|[Q|Q]], Hy; lra.
    - intros e I O. pose proof (K2 d Hd2 e y I ltac:(destruct Hy; lra) O). destruct Hy; lra. }
  rewrite (G (h + d) (or_intror eq_refl)), (G (h - d) (or_introl eq_refl)) in SJ. lia.
Qed.

(** As many kept segments begin at a point as end there. *)
Lemma point_target c : kept_ends (here c) L = 0%Z.
Proof.
  set (xs := flat_map (fun e : marked => [px (fst (fst e)); px (snd (fst e))]) L).
  destruct (list_room xs (vx c)) as (e0 & He & K).
  assert (I1 : forall e, In e L -> In (px (fst (fst e))) xs /\ In (px (snd (fst e))) xs).
  { intros e I. split; apply in_flat_map; exists e; (split; [exact I|]); [now left|right; now left]. }
  set (u := vx c - e0 / 2). set (u' := vx c + e0 / 2).
  assert (Nu : forall w, (w = u \/ w = u') -> ends_x w L).
  { intros w Hw e I. destruct (I1 e I) as (X1 & X2).
    assert (N : forall y, In y xs -> y <> w).
    { intros y Iy ->. assert (Q : w <> vx c) by (unfold u, u' in Hw; destruct Hw; lra). specialize (K w Iy Q). revert K.
      unfold u, u' in Hw. unfold Rabs. destruct (Rcase_abs _), Hw; lra. }
    split; now apply N. }
  pose proof (ray_target u (vy c) (Nu u (or_introl eq_refl))) as R1.
  pose proof (ray_target u' (vy c) (Nu u' (or_intror eq_refl))) as R2.
  assert (E : forall q, In (vx q) xs -> here c q = (ray u (vy c) q - ray u' (vy c) q)%Z).
  { intros q Iq. unfold here, ray. destruct (Req_EM_T (vy q) (vy c)) as [Ey|Ey]; [|destruct (Req_EM_T (vx q) (vx c)); reflexivity].
    destruct (Req_EM_T (vx q) (vx c)) as [Ex|Ex].
    - destruct (Rlt_dec u (vx q)) as [Lt|Lt]; [|unfold u in Lt; lra]. destruct (Rlt_dec u' (vx q)) as [L'|L']; [unfold u' in L'; lra|reflexivity].
    - specialize (K _ Iq Ex). unfold u, u'. revert K. unfold Rabs.
      destruct (Rcase_abs _), (Rlt_dec (vx c - e0 / 2) (vx q)), (Rlt_dec (vx c + e0 / 2) (vx q)); intros K; try reflexivity; lra. }
  assert (F : kept_ends (here c) L = (kept_ends (ray u (vy c)) L - kept_ends (ray u' (vy c)) L)%Z).
  { rewrite <- kept_ends_minus. apply kept_ends_ext. intros e I. destruct (I1 e I). split; apply E; assumption. }
  rewrite F. lia.
Qed.
End Target.
