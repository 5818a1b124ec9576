(** The slices kept by a boolean operation are balanced: as many begin as end at every point (C51). *)
From Coq Require Import Reals ZArith Bool List Arith Lra Lia Psatz.
From Verif Require Import Num RNum Res ModelMath ModelSeg ModelPline Spec SpecGeom SpecBox SpecWinding.
From Verif Require Import ProofR ProofIntr ProofArc ProofArc2 ProofWinding ProofWinding2 ProofWinding6 ProofWinding7 ProofRegion.
Import ListNotations.
Local Open Scope R_scope.

(** To the right of the point [(u, h)]. *)
Definition ray (u h : R) (q : vec2 R) : Z := if Req_EM_T (vy q) h then if Rlt_dec u (vx q) then 1%Z else 0%Z else 0%Z.

Lemma br_right x q : vx x < vx q -> q <> x -> br x q < PI / 2 \/ 3 * (PI / 2) < br x q.
Proof.
  intros L N. pose proof PI_pos. destruct (br_spec x q N) as (r & Hr & E & B). apply (f_equal vx) in E. cbn in E.
  assert (C : 0 < cos (br x q)) by nra.
  destruct (Rlt_dec (br x q) (PI / 2)) as [L1|L1]; [now left|right]. apply Rnot_le_lt. intros L2.
  assert (cos (br x q) <= 0) by (apply cos_le_0; lra). lra.
Qed.

Lemma br_left x q : vx q < vx x -> q <> x -> PI / 2 < br x q < 3 * (PI / 2).
Proof.
  intros L N. pose proof PI_pos. destruct (br_spec x q N) as (r & Hr & E & B). apply (f_equal vx) in E. cbn in E.
  assert (C : cos (br x q) < 0) by nra. split; apply Rnot_le_lt; intros L2.
  - assert (0 <= cos (br x q)) by (apply cos_ge_0; lra). lra.
  - assert (0 <= cos (br x q - 2 * PI)) by (apply cos_ge_0; lra).
    rewrite (congr_cos _ (br x q)) in H0; [lra|]. exists (-1)%Z. ring.
Qed.

Lemma shift_ray u h d q : 0 < d -> vx q <> u -> (vy q = h \/ vy q < h - d \/ h + d < vy q) ->
  shift (V2 u (h - d)%R) (V2 u (h + d)%R) q = br (V2 u (h + d)%R) q - br (V2 u (h - d)%R) q - IZR (ray u h q) * (2 * PI).
Proof.
  intros Hd Nu H. pose proof PI_pos. set (x := V2 u (h - d)%R). set (x' := V2 u (h + d)%R).
  assert (N : q <> x) by (intros ->; apply Nu; reflexivity). assert (N' : q <> x') by (intros ->; apply Nu; reflexivity).
  assert (K : (- PI < br x' q - br x q < PI /\ ray u h q = 0%Z) \/ (PI < br x' q - br x q /\ ray u h q = 1%Z)).
  { unfold ray. destruct H as [H|[H|H]].
    - destruct (Req_EM_T (vy q) h) as [_|?]; [|contradiction].
      pose proof (br_above x q N ltac:(cbn; lra)). pose proof (br_below x' q N' ltac:(cbn; lra)).
      destruct (Rlt_dec u (vx q)) as [L|L].
      + right. split; [|reflexivity]. destruct (br_right x q L N), (br_right x' q L N'); lra.
      + left. split; [|reflexivity]. pose proof (br_left x q ltac:(cbn; lra) N). pose proof (br_left x' q ltac:(cbn; lra) N'). lra.
    - left. destruct (Req_EM_T (vy q) h); [lra|]. split; [|reflexivity].
      pose proof (br_below x q N ltac:(cbn; lra)) as B1. pose proof (br_below x' q N' ltac:(cbn; lra)) as B2.
      destruct (Rlt_dec u (vx q)) as [L|L].
      + destruct (br_right x q L N), (br_right x' q L N'); lra.
      + pose proof (br_left x q ltac:(cbn; lra) N). pose proof (br_left x' q ltac:(cbn; lra) N'). lra.
    - left. destruct (Req_EM_T (vy q) h); [lra|]. split; [|reflexivity].
      pose proof (br_above x q N ltac:(cbn; lra)). pose proof (br_above x' q N' ltac:(cbn; lra)). lra. }
  destruct (br_spec x q N) as (_ & _ & _ & B1). destruct (br_spec x' q N') as (_ & _ & _ & B2).
  unfold shift. destruct K as [(B & ->)|(B & ->)]; destruct (Rlt_dec PI _); try destruct (Rlt_dec _ (- PI)); lra.
Qed.

(** Crossing the ray upwards without meeting the segment. *)
Lemma nw_upright s u h d : okseg s -> 0 < d -> px (fst s) <> u -> px (snd s) <> u ->
  (forall v, v = fst s \/ v = snd s -> py v = h \/ py v < h - d \/ h + d < py v) ->
  (forall y, h - d <= y <= h + d -> ~ on s (V2 u y)) ->
  (nw (V2 u (h + d)%R) s - nw (V2 u (h - d)%R) s = ray u h (pos (fst s)) - ray u h (pos (snd s)))%Z.
Proof.
  intros Hok Hd N1 N2 Hv Hoff. set (x := V2 u (h - d)%R). set (x' := V2 u (h + d)%R).
  assert (Hl : forall t, 0 <= t <= 1 -> ~ on s (line_pt x x' t)).
  { intros t Ht. replace (line_pt x x' t) with (V2 u (h - d + t * (2 * d))) by (unfold line_pt, x, x'; apply vec2_eq; cbn; ring).
    apply Hoff. assert (0 <= t * (2 * d)) by (apply Rmult_le_pos; lra). assert (t * (2 * d) <= 1 * (2 * d)) by (apply Rmult_le_compat_r; lra). lra. }
  assert (O : ~ on s x) by (apply Hoff; lra). assert (O' : ~ on s x') by (apply Hoff; lra).
  pose proof (turn_shift (fst s) (snd s) x x' _ _ Hok Hl (nw_turn s x Hok O) (nw_turn s x' Hok O')) as G.
  unfold x, x' in G. rewrite (shift_ray u h d (pos (snd s)) Hd N2 (Hv _ (or_intror eq_refl))) in G.
  rewrite (shift_ray u h d (pos (fst s)) Hd N1 (Hv _ (or_introl eq_refl))) in G. fold x x' in G.
  pose proof PI_pos. apply eq_IZR. rewrite !minus_IZR. nra.
Qed.

Lemma seg_crossings_x s u : okseg s -> px (fst s) <> u -> exists l, forall q, on s q -> vx q = u -> In (vy q) l.
Proof.
  intros Hok N. destruct s as [v1 v2]. cbn [fst snd] in *. destruct (Req_dec (pbulge v1) 0) as [E|E].
  - exists [py v1 + (u - px v1) / (px v2 - px v1) * (py v2 - py v1)]. intros q (t & Ht & Hat) Hy. apply seg_at_line in Hat; [|exact E].
    cbn [fst snd] in Hat. left. subst q. cbn in Hy |- *. assert (px v2 - px v1 <> 0) by (intros Q; rewrite Q in Hy; lra).
    replace ((u - px v1) / (px v2 - px v1)) with t; [reflexivity|]. rewrite <- Hy. field. exact H.
  - set (c := centre_of (pos v1) (pos v2) (pbulge v1)). set (r := radius_of (pos v1) (pos v2) (pbulge v1)).
    set (k := sqrt (r * r - (u - vx c) * (u - vx c))).
    exists [vy c + k; vy c - k]. intros q (t & Ht & Hat) Hy. apply seg_at_arc in Hat; [|apply (proj2 Hok E)|exact E].
    cbn [fst snd] in Hat. fold c r in Hat. set (g := _ + t * _) in Hat. clearbody c r g. subst q. cbn [circle_pt vx vy] in Hy |- *.
    assert (EK : k = Rabs (r * sin g)).
    { unfold k. rewrite <- sqrt_Rsqr_abs. f_equal. unfold Rsqr. rewrite <- (norm_cs r g). replace (r * cos g) with (u - vx c) by lra. ring. }
    rewrite EK. unfold Rabs. destruct (Rcase_abs _); [right; left|left]; lra.
Qed.

(** The ends of the segments counted by [f]. *)
Definition all_ends (f : vec2 R -> Z) (l : list marked) : Z := zsum (map (fun e : marked => f (pos (snd (fst e))) - f (pos (fst (fst e))))%Z l).
Definition kept_ends (f : vec2 R -> Z) (l : list marked) : Z :=
  zsum (map (fun e : marked => if snd e then (f (pos (snd (fst e))) - f (pos (fst (fst e))))%Z else 0%Z) l).

Definition ends_x (u : R) (l : list marked) : Prop := forall e, In e l -> px (fst (fst e)) <> u /\ px (snd (fst e)) <> u.
Definition ok_all (l : list marked) : Prop := forall e, In e l -> okseg (fst e).

Lemma heights_room (l : list marked) h : exists e0, 0 < e0 /\ forall d e, 0 < d < e0 -> In e l ->
  forall v, v = fst (fst e) \/ v = snd (fst e) -> py v = h \/ py v < h - d \/ h + d < py v.
Proof.
  destruct (list_room (flat_map (fun e : marked => [py (fst (fst e)); py (snd (fst e))]) l) h) as (e0 & He & K).
  exists e0. split; [exact He|]. intros d e Hd I v Hv. destruct (Req_dec (py v) h) as [->|N]; [now left|right].
  assert (Iv : In (py v) (flat_map (fun e : marked => [py (fst (fst e)); py (snd (fst e))]) l)).
  { apply in_flat_map. exists e. split; [exact I|]. destruct Hv as [-> | ->]; [now left|right; now left]. }
  specialize (K _ Iv N). revert K. unfold Rabs. destruct (Rcase_abs _); lra.
Qed.

Lemma upright_room l u h : ok_all l -> ends_x u l -> exists e0, 0 < e0 /\ forall d, 0 < d < e0 ->
  forall e y, In e l -> h - d <= y <= h + d -> on (fst e) (V2 u y) -> y = h.
Proof.
  intros Ok Nx.
  assert (X : exists ys, forall e y, In e l -> on (fst e) (V2 u y) -> In y ys).
  { induction l as [|e l IH]; [exists []; intros e y []|].
    destruct IH as (ys & K); [intros e' I; apply Ok; now right|intros e' I; apply Nx; now right|].
    destruct (seg_crossings_x (fst e) u (Ok e (or_introl eq_refl)) (proj1 (Nx e (or_introl eq_refl)))) as (zs & K').
    exists (zs ++ ys). intros e' y [<-|I] Hon; apply in_or_app; [left; exact (K' _ Hon eq_refl)|right; eapply K; eassumption]. }
  destruct X as (ys & K). destruct (list_room ys h) as (e0 & He & K0). exists e0. split; [exact He|].
  intros d Hd e y I Hy Hon. destruct (Req_dec y h) as [Q|N]; [exact Q|]. exfalso.
  specialize (K0 y (K e y I Hon) N). revert K0. unfold Rabs. destruct (Rcase_abs _); lra.
Qed.

Definition jump (u h d : R) (s : seg) : Z :=
  (nw (V2 u (h + d)%R) s - nw (V2 u (h - d)%R) s + ray u h (pos (snd s)) - ray u h (pos (fst s)))%Z.

Lemma jump_sum u h d l : (total l (V2 u (h + d)%R) - total l (V2 u (h - d)%R) + all_ends (ray u h) l = zsum (map (fun e : marked => jump u h d (fst e)) l))%Z
  /\ (kept l (V2 u (h + d)%R) - kept l (V2 u (h - d)%R) + kept_ends (ray u h) l = zsum (map (fun e : marked => if snd e then jump u h d (fst e) else 0%Z) l))%Z.
Proof.
  unfold total, kept, all_ends, kept_ends. induction l as [|e l (IH1 & IH2)]; [split; reflexivity|].
  cbn [map zsum fold_right].
  repeat match goal with |- context [fold_right Z.add 0%Z ?m] => change (fold_right Z.add 0%Z m) with (zsum m) end.
  rewrite <- IH1, <- IH2. destruct (snd e); split; unfold jump; lia.
Qed.

Section Balance.
Variables (A B : list marked) (k1 k2 : Z -> bool) (T : Z -> Z -> Z) (sg e1 e2 : Z).
Hypothesis okA : ok_all A.
Hypothesis okB : ok_all B.
Hypothesis keepA : forall e q, In e A -> on (fst e) q -> q <> pos (fst (fst e)) -> q <> pos (snd (fst e)) -> off B q /\ snd e = k1 (total B q).
Hypothesis keepB : forall e q, In e B -> on (fst e) q -> q <> pos (fst (fst e)) -> q <> pos (snd (fst e)) -> off A q /\ snd e = k2 (total A q).
Hypothesis valsA : forall x, off A x -> total A x = 0%Z \/ total A x = e1.
Hypothesis valsB : forall x, off B x -> total B x = 0%Z \/ total B x = e2.
Hypothesis localA : forall x x', (forall t, 0 <= t <= 1 -> off A (line_pt x x' t)) -> total A x = total A x'.
Hypothesis localB : forall x x', (forall t, 0 <= t <= 1 -> off B (line_pt x x' t)) -> total B x = total B x'.
Hypothesis closedA : forall f, all_ends f A = 0%Z.
Hypothesis closedB : forall f, all_ends f B = 0%Z.
Hypothesis T0 : T 0 0 = 0%Z.
Hypothesis T1 : forall a a' b : Z, (a = 0 \/ a = e1)%Z -> (a' = 0 \/ a' = e1)%Z -> (b = 0 \/ b = e2)%Z ->
  (T a' b - T a b = sg * (if k1 b then a' - a else 0))%Z.
Hypothesis T2 : forall a b b' : Z, (a = 0 \/ a = e1)%Z -> (b = 0 \/ b = e2)%Z -> (b' = 0 \/ b' = e2)%Z ->
  (T a b' - T a b = if k2 a then b' - b else 0)%Z.

Lemma region_at x : ends_off (vy x) A -> ends_off (vy x) B -> off A x -> off B x ->
  (sg * kept A x + kept B x = T (total A x) (total B x))%Z.
Proof.
  intros HA HB OA OB.
  assert (E : x = level (vy x) (vx x)) by (destruct x; reflexivity).
  rewrite E. apply (kept_region A B k1 k2 T sg e1 e2 (vy x)); auto.
  - intros e q I Hq Hy. destruct (HA e I) as (_ & N1 & N2). apply (keepA e q I Hq); intros ->; [apply N1|apply N2]; exact Hy.
  - intros e q I Hq Hy. destruct (HB e I) as (_ & N1 & N2). apply (keepB e q I Hq); intros ->; [apply N1|apply N2]; exact Hy.
  - split; rewrite <- E; assumption.
Qed.

Lemma jump_zero u h d e l : ok_all l -> ends_x u l -> 0 < d ->
  (forall e, In e l -> forall v, v = fst (fst e) \/ v = snd (fst e) -> py v = h \/ py v < h - d \/ h + d < py v) ->
  In e l -> (forall y, h - d <= y <= h + d -> on (fst e) (V2 u y) -> y = h) -> ~ on (fst e) (V2 u h) -> jump u h d (fst e) = 0%Z.
Proof.
  intros Ok Nx Hd Hv I H1 H2. unfold jump. destruct (Nx e I) as (N1 & N2).
  rewrite (nw_upright (fst e) u h d (Ok e I) Hd N1 N2 (Hv e I)); [lia|].
  intros y Hy Hon. pose proof (H1 y Hy Hon) as ->. contradiction.
Qed.

Lemma zsum_zero {X} (f : X -> Z) l : (forall e, In e l -> f e = 0%Z) -> zsum (map f l) = 0%Z.
Proof.
  induction l as [|e l IH]; intros H; [reflexivity|]. cbn [map zsum fold_right]. rewrite (H e (or_introl eq_refl)).
  fold (zsum (map f l)). rewrite IH; [reflexivity|]. intros e' I'. apply H. now right.
Qed.

Lemma line_upright u h d t : 0 <= t <= 1 -> 0 < d -> exists y, line_pt (V2 u (h - d)%R) (V2 u (h + d)%R) t = V2 u y /\ h - d <= y <= h + d.
Proof.
  intros Ht Hd. exists (h - d + t * (2 * d)). split; [unfold line_pt; apply vec2_eq; cbn; ring|].
  assert (0 <= t * (2 * d)) by (apply Rmult_le_pos; lra). assert (t * (2 * d) <= 1 * (2 * d)) by (apply Rmult_le_compat_r; lra). lra.
Qed.

Lemma ray_balance u h : ends_x u A -> ends_x u B -> (sg * kept_ends (ray u h) A + kept_ends (ray u h) B = 0)%Z.
Proof.
  intros NA NB.
  destruct (heights_room A h) as (d1 & P1 & K1). destruct (heights_room B h) as (d2 & P2 & K2).
  destruct (upright_room A u h okA NA) as (d3 & P3 & K3). destruct (upright_room B u h okB NB) as (d4 & P4 & K4).
  set (d := Rmin (Rmin d1 d2) (Rmin d3 d4) / 2).
  assert (D0 : 0 < Rmin (Rmin d1 d2) (Rmin d3 d4)) by (repeat apply Rmin_pos; assumption).
  assert (D1 : Rmin (Rmin d1 d2) (Rmin d3 d4) <= d1) by (eapply Rle_trans; [apply Rmin_l|apply Rmin_l]).
  assert (D2 : Rmin (Rmin d1 d2) (Rmin d3 d4) <= d2) by (eapply Rle_trans; [apply Rmin_l|apply Rmin_r]).
  assert (D3 : Rmin (Rmin d1 d2) (Rmin d3 d4) <= d3) by (eapply Rle_trans; [apply Rmin_r|apply Rmin_l]).
  assert (D4 : Rmin (Rmin d1 d2) (Rmin d3 d4) <= d4) by (eapply Rle_trans; [apply Rmin_r|apply Rmin_r]).
  assert (Hd : 0 < d) by (unfold d; lra).
  specialize (K1 d). specialize (K2 d). specialize (K3 d ltac:(unfold d in *; lra)). specialize (K4 d ltac:(unfold d in *; lra)).
  assert (K1' := fun e => K1 e ltac:(unfold d in *; lra)). assert (K2' := fun e => K2 e ltac:(unfold d in *; lra)). clear K1 K2.
  clearbody d. clear D1 D2 D3 D4 D0 P1 P2 P3 P4 d1 d2 d3 d4.
  assert (GA : forall y, y = h - d \/ y = h + d -> ends_off y A).
  { intros y Hy e I. split; [now apply okA|]. split.
    - destruct (K1' e I _ (or_introl eq_refl)) as [Q|[Q|Q]], Hy; lra.
    - destruct (K1' e I _ (or_intror eq_refl)) as [Q|[Q|Q]], Hy; lra. }
  assert (GB : forall y, y = h - d \/ y = h + d -> ends_off y B).
  { intros y Hy e I. split; [now apply okB|]. split.
    - destruct (K2' e I _ (or_introl eq_refl)) as [Q|[Q|Q]], Hy; lra.
    - destruct (K2' e I _ (or_intror eq_refl)) as [Q|[Q|Q]], Hy; lra. }
  assert (OA : forall y, y = h - d \/ y = h + d -> off A (V2 u y)).
  { intros y Hy e I N. pose proof (K3 e y I ltac:(destruct Hy; lra) N). destruct Hy; lra. }
  assert (OB : forall y, y = h - d \/ y = h + d -> off B (V2 u y)).
  { intros y Hy e I N. pose proof (K4 e y I ltac:(destruct Hy; lra) N). destruct Hy; lra. }
  pose proof (region_at (V2 u (h - d)%R) (GA _ (or_introl eq_refl)) (GB _ (or_introl eq_refl)) (OA _ (or_introl eq_refl)) (OB _ (or_introl eq_refl))) as R1.
  pose proof (region_at (V2 u (h + d)%R) (GA _ (or_intror eq_refl)) (GB _ (or_intror eq_refl)) (OA _ (or_intror eq_refl)) (OB _ (or_intror eq_refl))) as R2.
  destruct (jump_sum u h d A) as (JA & SA). destruct (jump_sum u h d B) as (JB & SB). rewrite closedA in JA. rewrite closedB in JB.
  assert (ZA : forall e, In e A -> ~ on (fst e) (V2 u h) -> jump u h d (fst e) = 0%Z).
  { intros e I N. apply (jump_zero u h d e A okA NA Hd K1' I); [|exact N]. intros y Hy Hon. exact (K3 e y I Hy Hon). }
  assert (ZB : forall e, In e B -> ~ on (fst e) (V2 u h) -> jump u h d (fst e) = 0%Z).
  { intros e I N. apply (jump_zero u h d e B okB NB Hd K2' I); [|exact N]. intros y Hy Hon. exact (K4 e y I Hy Hon). }
  assert (NE : forall e l, ends_x u l -> In e l -> V2 u h <> pos (fst (fst e)) /\ V2 u h <> pos (snd (fst e))).
  { intros e l Nl I. destruct (Nl e I) as (Q1 & Q2). split; intros Q; [apply Q1|apply Q2]; apply (f_equal vx) in Q; cbn in Q; lra. }
  assert (Mark : forall (l : list marked) k, (forall e, In e l -> ~ on (fst e) (V2 u h) -> jump u h d (fst e) = 0%Z) ->
    (forall e, In e l -> on (fst e) (V2 u h) -> snd e = k) ->
    zsum (map (fun e : marked => if snd e then jump u h d (fst e) else 0%Z) l) = (if k then zsum (map (fun e : marked => jump u h d (fst e)) l) else 0)%Z).
  { clear. intros l k Z M. induction l as [|e l IH]; [destruct k; reflexivity|].
    cbn [map zsum fold_right].
    repeat match goal with |- context [fold_right Z.add 0%Z ?m] => change (fold_right Z.add 0%Z m) with (zsum m) end.
    rewrite IH; [|intros e' I'; apply Z; now right|intros e' I'; apply M; now right].
    destruct (Classical_Prop.classic (on (fst e) (V2 u h))) as [O|O].
    - rewrite (M e (or_introl eq_refl) O). destruct k; lia.
    - rewrite (Z e (or_introl eq_refl) O). destruct (snd e), k; lia. }
  destruct (off_dec A (V2 u h)) as [FA|(ea & Ia & Na)].
  - assert (EA : total A (V2 u (h - d)%R) = total A (V2 u (h + d)%R) /\ total A (V2 u (h - d)%R) = total A (V2 u h)).
    { assert (F : forall y, h - d <= y <= h + d -> off A (V2 u y)) by (intros y Hy e I N; pose proof (K3 e y I Hy N) as ->; exact (FA e I N)).
      split; apply localA; intros t Ht.
      - destruct (line_upright u h d t Ht Hd) as (y & -> & By). now apply F.
      - replace (line_pt (V2 u (h - d)%R) (V2 u h) t) with (V2 u (h - d + t * d)) by (unfold line_pt; apply vec2_eq; cbn; ring).
        apply F. assert (0 <= t * d) by (apply Rmult_le_pos; lra). assert (t * d <= 1 * d) by (apply Rmult_le_compat_r; lra). lra. }
    destruct EA as (EA & EA').
    rewrite zsum_zero in SA by (intros e I; destruct (snd e); [apply ZA; auto|reflexivity]).
    pose proof (Mark B (k2 (total A (V2 u h))) ZB (fun e I O => proj2 (keepB e _ I O (proj1 (NE e B NB I)) (proj2 (NE e B NB I))))) as M.
    pose proof (T2 (total A (V2 u (h - d)%R)) (total B (V2 u (h - d)%R)) (total B (V2 u (h + d)%R)) (valsA _ (OA _ (or_introl eq_refl))) (valsB _ (OB _ (or_introl eq_refl))) (valsB _ (OB _ (or_intror eq_refl)))) as J.
    rewrite <- EA in R2. rewrite <- EA' in M. destruct (k2 (total A (V2 u (h - d)%R))); nia.
  - destruct (keepA ea _ Ia Na (proj1 (NE ea A NA Ia)) (proj2 (NE ea A NA Ia))) as (FB & _).
    assert (EB : total B (V2 u (h - d)%R) = total B (V2 u (h + d)%R) /\ total B (V2 u (h - d)%R) = total B (V2 u h)).
    { assert (F : forall y, h - d <= y <= h + d -> off B (V2 u y)) by (intros y Hy e I N; pose proof (K4 e y I Hy N) as ->; exact (FB e I N)).
      split; apply localB; intros t Ht.
      - destruct (line_upright u h d t Ht Hd) as (y & -> & By). now apply F.
      - replace (line_pt (V2 u (h - d)%R) (V2 u h) t) with (V2 u (h - d + t * d)) by (unfold line_pt; apply vec2_eq; cbn; ring).
        apply F. assert (0 <= t * d) by (apply Rmult_le_pos; lra). assert (t * d <= 1 * d) by (apply Rmult_le_compat_r; lra). lra. }
    destruct EB as (EB & EB').
    rewrite zsum_zero in SB by (intros e I; destruct (snd e); [apply ZB; auto|reflexivity]).
    pose proof (Mark A (k1 (total B (V2 u h))) ZA (fun e I O => proj2 (keepA e _ I O (proj1 (NE e A NA I)) (proj2 (NE e A NA I))))) as M.
    pose proof (T1 (total A (V2 u (h - d)%R)) (total A (V2 u (h + d)%R)) (total B (V2 u (h - d)%R)) (valsA _ (OA _ (or_introl eq_refl))) (valsA _ (OA _ (or_intror eq_refl))) (valsB _ (OB _ (or_introl eq_refl)))) as J.
    rewrite <- EB in R2. rewrite <- EB' in M. destruct (k1 (total B (V2 u (h - d)%R))); nia.
Qed.

(** At the point [c]. *)
Definition here (c q : vec2 R) : Z := if Req_EM_T (vx q) (vx c) then if Req_EM_T (vy q) (vy c) then 1%Z else 0%Z else 0%Z.

Lemma kept_ends_sub f g (l : list marked) : kept_ends (fun q => (f q - g q)%Z) l = (kept_ends f l - kept_ends g l)%Z.
Proof.
  unfold kept_ends. induction l as [|e l IH]; [reflexivity|]. cbn [map zsum fold_right].
  repeat match goal with |- context [fold_right Z.add 0%Z ?m] => change (fold_right Z.add 0%Z m) with (zsum m) end.
  rewrite IH. destruct (snd e); lia.
Qed.

Lemma kept_ends_ext f g (l : list marked) : (forall e : marked, In e l -> f (pos (fst (fst e))) = g (pos (fst (fst e))) /\ f (pos (snd (fst e))) = g (pos (snd (fst e)))) ->
  kept_ends f l = kept_ends g l.
Proof.
  intros H. unfold kept_ends. f_equal. apply map_ext_in. intros e I. destruct (H e I) as (Q1 & Q2). rewrite Q1, Q2. reflexivity.
Qed.

Lemma point_balance c : (sg * kept_ends (here c) A + kept_ends (here c) B = 0)%Z.
Proof.
  set (xs := flat_map (fun e : marked => [px (fst (fst e)); px (snd (fst e))]) (A ++ B)).
  destruct (list_room xs (vx c)) as (e0 & He & K).
  assert (I1 : forall l e, incl l (A ++ B) -> In e l -> In (px (fst (fst e))) xs /\ In (px (snd (fst e))) xs).
  { intros l e Hl I. split; apply in_flat_map; exists e; (split; [now apply Hl|]); [now left|right; now left]. }
  set (u := vx c - e0 / 2). set (u' := vx c + e0 / 2).
  assert (Nu : forall w, (w = u \/ w = u') -> forall l, incl l (A ++ B) -> ends_x w l).
  { intros w Hw l Hl e I. destruct (I1 l e Hl I) as (X1 & X2).
    assert (N : forall y, In y xs -> y <> w).
    { intros y Iy ->. assert (Q : w <> vx c) by (unfold u, u' in Hw; destruct Hw; lra). specialize (K w Iy Q). revert K.
      unfold u, u' in Hw. unfold Rabs. destruct (Rcase_abs _), Hw; lra. }
    split; now apply N. }
  pose proof (ray_balance u (vy c) (Nu u (or_introl eq_refl) A (incl_appl B (incl_refl A))) (Nu u (or_introl eq_refl) B (incl_appr A (incl_refl B)))) as R1.
  pose proof (ray_balance u' (vy c) (Nu u' (or_intror eq_refl) A (incl_appl B (incl_refl A))) (Nu u' (or_intror eq_refl) B (incl_appr A (incl_refl B)))) as R2.
  assert (E : forall q, In (vx q) xs -> here c q = (ray u (vy c) q - ray u' (vy c) q)%Z).
  { intros q Iq. unfold here, ray. destruct (Req_EM_T (vy q) (vy c)) as [Ey|Ey]; [|destruct (Req_EM_T (vx q) (vx c)); reflexivity].
    destruct (Req_EM_T (vx q) (vx c)) as [Ex|Ex].
    - destruct (Rlt_dec u (vx q)) as [L|L]; [|unfold u in L; lra]. destruct (Rlt_dec u' (vx q)) as [L'|L']; [unfold u' in L'; lra|reflexivity].
    - specialize (K _ Iq Ex). unfold u, u'. revert K. unfold Rabs.
      destruct (Rcase_abs _), (Rlt_dec (vx c - e0 / 2) (vx q)), (Rlt_dec (vx c + e0 / 2) (vx q)); intros K; try reflexivity; lra. }
  assert (F : forall l, incl l (A ++ B) -> kept_ends (here c) l = (kept_ends (ray u (vy c)) l - kept_ends (ray u' (vy c)) l)%Z).
  { intros l Hl. rewrite <- kept_ends_sub. apply kept_ends_ext. intros e I. destruct (I1 l e Hl I). split; apply E; assumption. }
  rewrite (F A (incl_appl B (incl_refl A))), (F B (incl_appr A (incl_refl B))). nia.
Qed.

(** Everywhere off the segments. *)
Lemma region_everywhere x : off A x -> off B x ->
  (exists e, 0 < e /\ forall x', dist x x' < e -> off A x' /\ off B x'
     /\ total A x' = total A x /\ total B x' = total B x /\ (sg * kept A x' + kept B x' = sg * kept A x + kept B x)%Z) ->
  (sg * kept A x + kept B x = T (total A x) (total B x))%Z.
Proof.
  intros OA OB (e & He & K).
  destruct (heights_room A (vy x)) as (d1 & P1 & K1). destruct (heights_room B (vy x)) as (d2 & P2 & K2).
  set (d := Rmin e (Rmin d1 d2) / 2).
  assert (D0 : 0 < Rmin e (Rmin d1 d2)) by (repeat apply Rmin_pos; assumption).
  assert (D1 : Rmin e (Rmin d1 d2) <= e) by apply Rmin_l.
  assert (D2 : Rmin e (Rmin d1 d2) <= d1) by (eapply Rle_trans; [apply Rmin_r|apply Rmin_l]).
  assert (D3 : Rmin e (Rmin d1 d2) <= d2) by (eapply Rle_trans; [apply Rmin_r|apply Rmin_r]).
  assert (Hd : 0 < d) by (unfold d; lra).
  assert (L1 : d < e) by (unfold d; lra). assert (L2 : d < d1) by (unfold d; lra). assert (L3 : d < d2) by (unfold d; lra). clearbody d.
  set (x' := V2 (vx x) (vy x + d)).
  assert (Dx : dist x x' < e).
  { unfold dist, x'. cbn [vx vy]. replace ((vx x - vx x) * (vx x - vx x) + (vy x - (vy x + d)) * (vy x - (vy x + d))) with (d * d) by ring.
    rewrite sqrt_square; lra. }
  destruct (K x' Dx) as (OA' & OB' & EA & EB & ES). rewrite <- ES, <- EA, <- EB. apply region_at; auto.
  - intros e' I. split; [now apply okA|]. cbn [vy x']. split.
    + destruct (K1 d e' (conj Hd L2) I _ (or_introl eq_refl)) as [Q|[Q|Q]]; unfold x'; cbn [vy]; lra.
    + destruct (K1 d e' (conj Hd L2) I _ (or_intror eq_refl)) as [Q|[Q|Q]]; unfold x'; cbn [vy]; lra.
  - intros e' I. split; [now apply okB|]. split.
    + destruct (K2 d e' (conj Hd L3) I _ (or_introl eq_refl)) as [Q|[Q|Q]]; unfold x'; cbn [vy]; lra.
    + destruct (K2 d e' (conj Hd L3) I _ (or_intror eq_refl)) as [Q|[Q|Q]]; unfold x'; cbn [vy]; lra.
Qed.
End Balance.
