(** Where two loops cross, one of the two parts of each loop is kept: what passes through a point (C77). *)
From Coq Require Import Reals ZArith Bool List Arith Lra Lia Psatz Classical Permutation.
From Verif Require Import Num RNum Res ModelMath ModelSeg ModelPline ModelView ModelIntersects ModelBoolean.
From Verif Require Import Spec SpecPline SpecGeom SpecBox SpecWinding SpecView SpecPruneR SpecStitch SpecPrune SpecRegion SpecBoolean SpecJordan.
From Verif Require Import ProofR ProofBase ProofIter ProofView ProofArc ProofIntr ProofSlice ProofPruneR ProofWinding4 ProofWinding6 ProofWinding7 ProofRegion ProofRegion2 ProofRegion3 ProofRegion4 ProofRegion5 ProofHalf ProofRegion6 ProofRegion7 ProofRegion8 ProofRegion9 ProofRegion10 ProofNest ProofJordan ProofJordan2 ProofConn ProofConvex ProofOverlap ProofOverlap2.
Import ListNotations.
Local Open Scope R_scope.

(** ** The side changes where loops cross *)
Lemma switches p1 p2 s1 s2 t1 t2 q b e : pline_ok p1 -> pline_ok p2 -> valid_loop p1 -> valid_loop p2 -> passes_once p1 -> passes_once p2 ->
  In s1 (spec_segs (vtx p1) (is_closed p1)) -> In s2 (spec_segs (vtx p2) (is_closed p2)) -> pos (fst s2) <> pos (snd s2) ->
  0 < t1 < 1 -> 0 < t2 < 1 -> seg_at (fst s1) (snd s1) t1 q -> seg_at (fst s2) (snd s2) t2 q -> crosswise s1 s2 q ->
  0 < e -> ~ (forall x, dist q x < e -> on_path p1 x -> x <> q -> ~ on_path p2 x -> inside p2 x = b).
Proof.
  intros ok1 ok2 vl1 vl2 po1 po2 I1 I2 Df T1 T2 S1 S2 CW He H.
  destruct (inside_by_side p1 s1 t1 q ok1 vl1 po1 I1 T1 S1) as (g1 & r1 & G1 & R1 & K1).
  destruct (inside_by_side p2 s2 t2 q ok2 vl2 po2 I2 T2 S2) as (g2 & r2 & G2 & R2 & K2).
  assert (O2 : okseg s2) by (destruct s2; now apply ok2).
  assert (Z0 : sideof s2 q = 0) by (apply on_side; [exact O2|]; exists t2; split; [lra|exact S2]).
  destruct (same_side s2 q (Rmin r2 e) O2 Df Z0) as (e0 & He0 & SS); [now apply Rmin_pos|].
  pose proof (Rmin_l r2 e). pose proof (Rmin_r r2 e).
  set (g := if b then - g2 else g2). assert (Hg : g = 1 \/ g = -1) by (unfold g; destruct b; lra).
  assert (He1 : 0 < Rmin e0 r1) by (apply Rmin_pos; lra). pose proof (Rmin_l e0 r1). pose proof (Rmin_r e0 r1).
  destruct (CW (Rmin e0 r1) g1 g He1 G1 Hg) as (y & Dy & Y1 & Y2). destruct (CW (Rmin e0 r1) (- g1) g He1 ltac:(lra) Hg) as (z & Dz & Z1 & Z2).
  destruct (SS g y z Hg ltac:(lra) ltac:(lra) Y2 Z2) as (u & w & L1 & L2 & L3).
  assert (NB : forall x, dist q x < Rmin r2 e -> sideof s2 x <> 0 -> ~ on_path p2 x /\ x <> q).
  { intros x D N. split; [apply K2; [lra|exact N]|]. intros ->. contradiction. }
  assert (Iy : inside p2 y = negb b).
  { assert (N : sideof s2 y <> 0) by (intros Z; rewrite Z, Rmult_0_r in Y2; lra). destruct (K2 y ltac:(lra) N) as (_ & J).
    unfold g in Y2. destruct b; cbn [negb]; [destruct (inside p2 y); [pose proof (proj1 J eq_refl); lra|reflexivity]|now apply J]. }
  assert (LEG : forall a c, (forall t, 0 <= t <= 1 -> dist q (line_pt a c t) < Rmin r2 e /\ sideof s2 (line_pt a c t) <> 0) -> inside p2 a = negb b ->
    inside p1 a = inside p1 c /\ inside p2 c = negb b).
  { intros a c L Ia.
    assert (OF : forall t, 0 <= t <= 1 -> ~ on_path p2 (line_pt a c t)) by (intros t Ht; destruct (L t Ht); now apply NB).
    assert (LP : forall t, 0 <= t <= 1 -> inside p2 (line_pt a c t) = negb b).
    { intros t Ht. rewrite <- Ia, !inside_wn. rewrite (wn_until p2 a c t ok2 ltac:(lra)); [reflexivity|]. intros s Hs. apply OF. lra. }
    assert (OF1 : forall t, 0 <= t <= 1 -> ~ on_path p1 (line_pt a c t)).
    { intros t Ht N. destruct (L t Ht) as (D & NZ). destruct (NB _ D NZ) as (NO & NQ). pose proof (H (line_pt a c t) ltac:(lra) N NQ NO) as E. rewrite (LP t Ht) in E. destruct b; discriminate. }
    destruct (line_pt_ends a c) as (_ & E1). split; [|rewrite <- (LP 1 ltac:(lra)), E1; reflexivity]. rewrite !inside_wn. now rewrite (wn_straight p1 a c ok1 OF1). }
  destruct (LEG y u L1 Iy) as (A1 & A2). destruct (LEG u w L2 A2) as (B1 & B2). destruct (LEG w z L3 B2) as (C1 & C2).
  assert (N1 : sideof s1 y <> 0) by (intros Z; rewrite Z, Rmult_0_r in Y1; lra). assert (N2 : sideof s1 z <> 0) by (intros Z; rewrite Z, Rmult_0_r in Z1; lra).
  destruct (K1 y ltac:(lra) N1) as (_ & J1). destruct (K1 z ltac:(lra) N2) as (_ & J2).
  pose proof (proj2 J1 Y1) as E. rewrite A1, B1, C1 in E. pose proof (proj1 J2 E). lra.
Qed.

(** ** Counters *)
Definition directed (b : bool) (s w : seg) : Prop := SpecPline.seg_data s = if b then SpecPline.seg_reverse (SpecPline.seg_data w) else SpecPline.seg_data w.

Lemma directed_half b first s w q : directed b s w -> (half first s q <-> half (if b then negb first else first) w q).
Proof.
  assert (G : forall b first s w, directed b s w -> half first s q -> half (if b then negb first else first) w q).
  { clear. intros b first s w D (t & Ht & Hf & Hq). unfold directed in D. destruct b.
    - apply reverse_facts in D as (E1 & E2 & E3). exists (1 - t). split; [lra|]. split; [destruct first; cbn; lra|].
      apply (seg_at_reverse (fst s) (snd s) (fst w) (snd w) t q); auto. lra.
    - destruct s as [a b], w as [c d]. unfold SpecPline.seg_data in D. cbn in D. injection D as E1 E2 E3 E4 E5. exists t. split; [exact Ht|]. split; [exact Hf|]. cbn [fst snd] in *.
      eapply seg_at_ext; [| | |exact Hq]; unfold pos; congruence. }
  intros D. split; [now apply G|]. intros H. assert (D' : directed b w s).
  { unfold directed in *. destruct b; [|now symmetry]. rewrite D. destruct (SpecPline.seg_data w) as [[a b] c]. unfold SpecPline.seg_reverse. f_equal. cbn. ring. }
  apply (G b _ _ _ D') in H. destruct b; [now rewrite negb_involutive in H|exact H].
Qed.

Lemma half_counter (l0 : list seg) first q : exists g : seg -> Z, (forall s, (0 <= g s)%Z) /\ (forall s s', SpecPline.seg_data s = SpecPline.seg_data s' -> g s = g s')
  /\ forall b s w, In w l0 -> directed b s w -> (half first s q -> g s = 1%Z) /\ (~ half first s q -> g s = 0%Z).
Proof.
  set (l1 := flat_map (fun w : seg => [SpecPline.seg_data w; SpecPline.seg_reverse (SpecPline.seg_data w)]) l0).
  destruct (filter_classic (fun d => exists s, SpecPline.seg_data s = d /\ half first s q) l1) as (D & HD).
  exists (fun s => if in_dec data_dec (SpecPline.seg_data s) D then 1%Z else 0%Z). split; [|split].
  - intros s. destruct (in_dec _ _ _); lia.
  - intros s s' E. now rewrite E.
  - intros b s w Iw Ds. split; intros H; destruct (in_dec data_dec (SpecPline.seg_data s) D) as [I|I]; try reflexivity; exfalso.
    + apply I. apply HD. split; [|exists s; auto]. apply in_flat_map. exists w. split; [exact Iw|]. rewrite Ds. destruct b; cbn; auto.
    + apply HD in I as (_ & s' & E & Hs). apply H. apply (directed_half false first s s' q); [exact (eq_sym E)|exact Hs].
Qed.

Lemma here_true q : here q q = 1%Z.
Proof. unfold here. destruct (Req_EM_T (vx q) (vx q)); [|contradiction]. destruct (Req_EM_T (vy q) (vy q)); [reflexivity|contradiction]. Qed.
Lemma here_false q x : x <> q -> here q x = 0%Z.
Proof. intros N. unfold here. destruct (Req_EM_T (vx x) (vx q)) as [E|]; [|reflexivity]. destruct (Req_EM_T (vy x) (vy q)) as [E'|]; [|reflexivity]. exfalso. apply N. now apply vec2_eq. Qed.

Lemma half_ends (w : seg) q (gi go : Z) : okseg w -> pos (fst w) <> pos (snd w) ->
  (half true w q -> gi = 1%Z) /\ (~ half true w q -> gi = 0%Z) -> (half false w q -> go = 1%Z) /\ (~ half false w q -> go = 0%Z) ->
  (gi - go = here q (pos (fst w)) - here q (pos (snd w)))%Z.
Proof.
  intros Ok Nd (I1 & I0) (O1 & O0). destruct (classic (on w q)) as [(t & Ht & Hq)|N].
  - assert (U : forall u, 0 <= u <= 1 -> seg_at (fst w) (snd w) u q -> u = t) by (intros u Hu Hu'; apply (seg_at_inj (fst w) (snd w) u t q); auto).
    assert (NF : t <> 0 -> pos (fst w) <> q) by (intros NT E; apply NT; symmetry; apply U; [lra|]; rewrite <- E; now apply seg_at_0).
    assert (NS : t <> 1 -> pos (snd w) <> q) by (intros NT E; apply NT; symmetry; apply U; [lra|]; rewrite <- E; now apply seg_at_1).
    destruct (Req_dec t 0) as [->|T0]; [|destruct (Req_dec t 1) as [->|T1]].
    + assert (E : q = pos (fst w)) by (apply (seg_at_unique (fst w) (snd w) 0); auto; now apply seg_at_0). rewrite I1, O0.
      * rewrite <- E, here_true, here_false by (apply NS; lra). reflexivity.
      * intros (u & Hu & Hf & Hu'). specialize (U u Hu Hu'). lra.
      * exists 0. split; [lra|]. split; [lra|exact Hq].
    + assert (E : q = pos (snd w)) by (apply (seg_at_unique (fst w) (snd w) 1); auto; now apply seg_at_1). rewrite I0, O1.
      * rewrite <- E, here_true, here_false by (apply NF; lra). reflexivity.
      * exists 1. split; [lra|]. split; [lra|exact Hq].
      * intros (u & Hu & Hf & Hu'). specialize (U u Hu Hu'). lra.
    + rewrite I1, O1; [rewrite !here_false by auto; reflexivity| |]; exists t; (split; [lra|]); (split; [lra|exact Hq]).
  - rewrite I0, O0 by (intros H; apply N; eapply half_on; exact H). rewrite !here_false; [reflexivity| |]; intros E; apply N; rewrite <- E; now apply on_ends.
Qed.

(** ** Of the parts of a loop next to a crossing one is kept *)
Lemma near_slices (l : list seg) q : (forall w, In w l -> okseg w) -> exists e, 0 < e /\ forall w x, In w l -> dist q x < e -> on w x -> x <> q ->
  on w q /\ x <> pos (fst w) /\ x <> pos (snd w).
Proof.
  induction l as [|w l IH]; intros Ok; [exists 1; split; [lra|]; intros w x []|].
  destruct IH as (e & He & K); [intros; apply Ok; now right|].
  assert (X : exists d, 0 < d /\ forall x, dist q x < d -> on w x -> x <> q -> on w q /\ x <> pos (fst w) /\ x <> pos (snd w)).
  { assert (AW : forall z, exists d, 0 < d /\ forall x, dist q x < d -> x <> q -> x <> z).
    { intros z. destruct (classic (z = q)) as [->|N]; [exists 1; split; [lra|auto]|]. exists (dist q z). split; [apply ProofConvex.dist_pos; congruence|]. intros x D _ ->. lra. }
    destruct (classic (on w q)) as [O|O].
    - destruct (AW (pos (fst w))) as (d1 & H1 & A1). destruct (AW (pos (snd w))) as (d2 & H2 & A2). exists (Rmin d1 d2). split; [now apply Rmin_pos|].
      intros x D _ NQ. pose proof (Rmin_l d1 d2). pose proof (Rmin_r d1 d2). split; [exact O|]. split; [apply A1|apply A2]; auto; lra.
    - destruct (offs_room [w] q) as (d & Hd & A); [intros s [<-|[]]; apply Ok; now left|intros s [<-|[]]; exact O|]. exists d. split; [exact Hd|].
      intros x D On. specialize (A w x (or_introl eq_refl) On). lra. }
  destruct X as (d & Hd & A). exists (Rmin e d). split; [now apply Rmin_pos|]. pose proof (Rmin_l e d). pose proof (Rmin_r e d).
  intros v x [<-|I] D; [apply A; lra|apply K; auto; lra].
Qed.

Lemma filter_split {X} (f : X -> Z) (k : X -> bool) l : (zsum (map f (filter k l)) + zsum (map f (filter (fun x => negb (k x)) l)) = zsum (map f l))%Z.
Proof. induction l as [|a l IH]; unfold zsum in *; cbn [map filter fold_right]; [lia|]. destruct (k a); cbn [negb map fold_right]; lia. Qed.

Lemma kept_one p1 p2 (second : bool) eps bs cs (want : bool) q (gi go : seg -> Z) : cut_up p1 p2 second eps bs cs ->
  let p := if second then p2 else p1 in let p' := if second then p1 else p2 in let all := flat_map (fun c => vsegs p (bs_view (fst c))) cs in
  passes_once p -> on_path p' q ->
  (forall b e, 0 < e -> ~ (forall x, dist q x < e -> on_path p x -> x <> q -> ~ on_path p' x -> inside p' x = b)) ->
  (forall s, (0 <= gi s)%Z) -> (forall s, (0 <= go s)%Z) ->
  (forall w, In w all \/ In w (spec_segs (vtx p) (is_closed p)) -> (half true w q -> gi w = 1%Z) /\ (~ half true w q -> gi w = 0%Z)) ->
  (forall w, In w all \/ In w (spec_segs (vtx p) (is_closed p)) -> (half false w q -> go w = 1%Z) /\ (~ half false w q -> go w = 0%Z)) ->
  let F := filter (fun c => Bool.eqb (inside p' (snd c)) want) cs in
  (zsum (map (fun c => zsum (map gi (vsegs p (bs_view (fst c))))) F) + zsum (map (fun c => zsum (map go (vsegs p (bs_view (fst c))))) F) <= 1)%Z.
Proof.
  intros C p p' all PO Oq SW Gi0 Go0 Gi Go F.
  pose proof (cu_half _ _ _ _ _ _ C gi q true PO Gi) as Si. pose proof (cu_half _ _ _ _ _ _ C go q false PO Go) as So.
  cbv zeta in Si, So. fold p in Si, So. rewrite zsum_flat in Si, So.
  set (hi := fun c : boolean_slice R * vec2 R => zsum (map gi (vsegs p (bs_view (fst c))))) in *. set (ho := fun c : boolean_slice R * vec2 R => zsum (map go (vsegs p (bs_view (fst c))))) in *.
  set (k := fun c : boolean_slice R * vec2 R => Bool.eqb (inside p' (snd c)) want) in *.
  pose proof (filter_split hi k cs) as Ei. pose proof (filter_split ho k cs) as Eo. fold F in Ei, Eo.
  assert (Hi0 : forall c, (0 <= hi c)%Z) by (intros c; apply zsum_nonneg; intros; apply Gi0).
  assert (Ho0 : forall c, (0 <= ho c)%Z) by (intros c; apply zsum_nonneg; intros; apply Go0).
  pose proof (zsum_nonneg hi (filter (fun x => negb (k x)) cs) (fun c _ => Hi0 c)) as Ni.
  pose proof (zsum_nonneg ho (filter (fun x => negb (k x)) cs) (fun c _ => Ho0 c)) as No.
  destruct (Z_le_gt_dec (zsum (map hi F) + zsum (map ho F)) 1) as [L|L]; [exact L|]. exfalso.
  assert (IA : forall c w, In c cs -> In w (vsegs p (bs_view (fst c))) -> In w all) by (intros c w Ic Iw; apply in_flat_map; eauto).
  assert (KF : forall c w, In c cs -> In w (vsegs p (bs_view (fst c))) -> on w q -> inside p' (snd c) = want).
  { intros c w Ic Iw (t & Ht & Hq). destruct (k c) eqn:Ek; [now apply eqb_prop|]. exfalso.
    assert (IF : In c (filter (fun x => negb (k x)) cs)) by (apply filter_In; split; [exact Ic|]; now rewrite Ek).
    pose proof (zsum_In hi _ c (fun c _ => Hi0 c) IF) as Li. pose proof (zsum_In ho _ c (fun c _ => Ho0 c) IF) as Lo.
    pose proof (zsum_In gi _ w (fun s _ => Gi0 s) Iw) as Li'. pose proof (zsum_In go _ w (fun s _ => Go0 s) Iw) as Lo'. fold (hi c) in Li'. fold (ho c) in Lo'.
    destruct (Rlt_dec t 1) as [T|T].
    - rewrite (proj1 (Gi w (or_introl (IA c w Ic Iw)))) in Li' by (exists t; auto). lia.
    - rewrite (proj1 (Go w (or_introl (IA c w Ic Iw)))) in Lo' by (exists t; split; [exact Ht|]; split; [lra|exact Hq]). lia. }
  destruct (near_slices all q) as (e & He & NS).
  { intros w I. apply in_flat_map in I as (c & Ic & Iw). exact (proj1 (cu_seg _ _ _ _ _ _ C c w q Ic Iw)). }
  apply (SW want e He). intros x D Ox Nx NOx. destruct (cu_cover _ _ _ _ _ _ C x Ox) as (c & w & Ic & Iw & On). fold p in Iw.
  destruct (NS w x (IA c w Ic Iw) D On Nx) as (Oq' & N1 & N2).
  destruct (cu_side _ _ _ _ _ _ C c w x Ic Iw On N1 N2) as (_ & W). fold p' in W. rewrite inside_wn, W, <- inside_wn. exact (KF c w Ic Iw Oq').
Qed.
