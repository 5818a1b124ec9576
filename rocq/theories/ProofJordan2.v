(** The values of the winding number around the points of a segment (C64). *)
From Coq Require Import Reals ZArith Bool List Arith Lra Lia Psatz Classical.
From Verif Require Import Num RNum Res ModelMath ModelSeg ModelPline Spec SpecGeom SpecBox SpecWinding.
From Verif Require Import ProofR ProofBase ProofIter ProofArc ProofArc2 ProofSlice ProofMeasure ProofWalk ProofIntr ProofWinding ProofWinding2 ProofWinding3 ProofWinding4 ProofWinding6 ProofWinding7 ProofSegIntr5 ProofNest ProofJordan.
From Verif Require Export ProofCurve.
Import ListNotations.
Local Open Scope R_scope.

Definition tot (l : list seg) (x : vec2 R) : Z := zsum (map (nw x) l).
Definition offs (l : list seg) (x : vec2 R) : Prop := forall s, In s l -> ~ on s x.
Definition oks (l : list seg) : Prop := forall s, In s l -> okseg s.
(** As many segments end as begin at every point. *)
Definition looped (l : list seg) : Prop :=
  forall f : vec2 R -> R, rsum (map (fun s => f (pos (snd s)) - f (pos (fst s))) l) = 0.

Lemma tot_cons s l x : tot (s :: l) x = (nw x s + tot l x)%Z.
Proof. reflexivity. Qed.
Lemma tot_app l m x : tot (l ++ m) x = (tot l x + tot m x)%Z.
Proof. unfold tot. rewrite map_app. apply zsum_app. Qed.

Lemma tot_straight l x x' : oks l -> looped l -> (forall t, 0 <= t <= 1 -> offs l (line_pt x x' t)) -> tot l x = tot l x'.
Proof.
  intros Ok Lp Off. destruct (line_pt_ends x x') as (E0 & E1).
  set (f := fun Z => shift x x' Z - br x' Z + br x Z).
  assert (G : forall m, (forall s, In s m -> In s l) -> IZR (tot m x' - tot m x) * (2 * PI) = rsum (map (fun s => f (pos (snd s)) - f (pos (fst s))) m)).
  { induction m as [|s m IH]; intros Hm; [cbn; ring|]. cbn [map]. rewrite rsum_cons, <- IH by (intros u I; apply Hm; now right).
    rewrite !tot_cons. assert (I : In s l) by (apply Hm; now left). pose proof (Ok s I) as Os.
    assert (A : ~ on s x) by (rewrite <- E0; apply (Off 0); [lra|exact I]). assert (B : ~ on s x') by (rewrite <- E1; apply (Off 1); [lra|exact I]).
    pose proof (turn_shift (fst s) (snd s) x x' _ _ Os (fun t Ht => Off t Ht s I) (nw_turn s x Os A) (nw_turn s x' Os B)) as T.
    unfold f. rewrite !minus_IZR, !plus_IZR. lra. }
  specialize (G l (fun s I => I)). rewrite (Lp f) in G. pose proof PI_pos.
  assert (Q : IZR (tot l x' - tot l x) = 0) by nra. apply eq_IZR in Q. lia.
Qed.

Lemma offs_room l x : oks l -> offs l x -> exists e, 0 < e /\ forall s q, In s l -> on s q -> e <= dist x q.
Proof.
  intros Ok Off. destruct (segs_room l x) as (e & He & K).
  - intros v1 v2 I. split; [exact (Ok _ I)|exact (Off _ I)].
  - exists e. split; [exact He|]. intros [a b] q I O. exact (K a b q I O).
Qed.

Lemma tot_local l x : oks l -> looped l -> offs l x ->
  exists e, 0 < e /\ forall x', dist x x' < e -> offs l x' /\ tot l x' = tot l x.
Proof.
  intros Ok Lp Off. destruct (offs_room l x Ok Off) as (e & He & K). exists e. split; [exact He|]. intros x' Hx.
  split; [intros s I O; specialize (K s x' I O); lra|]. symmetry. apply tot_straight; auto.
  intros t Ht s I O. specialize (K s _ I O). pose proof (dist_line x x' t Ht). lra.
Qed.

(** ** Points beside a segment *)
Lemma on_side s x : okseg s -> on s x -> sideof s x = 0.
Proof.
  destruct s as [a b]. intros Ok (t & Ht & Hq). cbn [fst snd] in *. destruct (Req_dec (pbulge a) 0) as [E|E].
  - apply seg_at_line in Hq; [|exact E]. unfold sideof. cbn [fst snd]. rewrite E, Hq, perp_line. ring.
  - pose proof (proj2 Ok E) as Hne. apply seg_at_arc in Hq; auto. pose proof (inside_side a b x E) as IS.
    assert (Z : sideof (a, b) x = 2 * pbulge a * (sideof (a, b) x / (2 * pbulge a))) by (field; exact E). rewrite Z, <- IS, Hq. cbn [circle_pt vx vy].
    set (c := centre_of _ _ _). set (r := radius_of _ _ _). set (g := angle c (pos a) + t * sweep (pbulge a)).
    pose proof (sin2_cos2 g) as S. unfold Rsqr in S.
    replace (r * r - ((vx c - (vx c + r * cos g)) * (vx c - (vx c + r * cos g)) + (vy c - (vy c + r * sin g)) * (vy c - (vy c + r * sin g))))
      with (r * r - r * r * (sin g * sin g + cos g * cos g)) by ring. rewrite S. ring.
Qed.

(** Beside the curve of the segment there are points as near as wanted. *)
Lemma side_near s x e : ends_differ s -> 0 < e -> exists x', dist x x' < e /\ sideof s x' <> 0.
Proof.
  intros Hd He. destruct s as [a b]. unfold ends_differ in Hd. cbn [fst snd] in Hd.
  destruct (Req_dec (sideof (a, b) x) 0) as [Z|Z].
  2: { exists x. split; [|exact Z]. replace (dist x x) with 0; [exact He|]. unfold dist. rewrite !Rminus_diag_eq by reflexivity. rewrite Rmult_0_l, Rplus_0_l, sqrt_0. reflexivity. }
  destruct (Req_dec (pbulge a) 0) as [E|E].
  - set (dx := px b - px a). set (dy := py b - py a).
    assert (L2 : 0 < dx * dx + dy * dy).
    { pose proof (chord2_pos (pos a) (pos b) Hd) as C. unfold chord2, pos in C. cbn [vx vy] in C. exact C. }
    set (L := sqrt (dx * dx + dy * dy)). assert (HL : 0 < L) by (apply sqrt_lt_R0; exact L2).
    set (k := e / (2 * L)). assert (Hk : 0 < k) by (apply Rdiv_lt_0_compat; lra).
    exists (V2 (vx x + k * - dy) (vy x + k * dx)). split.
    + rewrite dist_offset. replace (k * - dy * (k * - dy) + k * dx * (k * dx)) with (k * k * (dx * dx + dy * dy)) by ring.
      rewrite sqrt_mult by nra. rewrite sqrt_square by lra. fold L. unfold k. replace (e / (2 * L) * L) with (e / 2) by (field; lra). lra.
    + replace (sideof (a, b) (V2 (vx x + k * - dy) (vy x + k * dx))) with (sideof (a, b) x + k * (dx * dx + dy * dy))
        by (unfold sideof, perp, dx, dy; cbn [fst snd vx vy]; rewrite E; ring).
      rewrite Z. nra.
  - set (k := e / 2). assert (Hk : 0 < k) by (unfold k; lra).
    assert (Q : sideof (a, b) (V2 (vx x + k) (vy x + 0)) + sideof (a, b) (V2 (vx x + - k) (vy x + 0)) = - 4 * pbulge a * (k * k) + 2 * sideof (a, b) x)
      by (unfold sideof, perp, dotp; cbn [fst snd vx vy]; ring).
    rewrite Z in Q. assert (- 4 * pbulge a * (k * k) <> 0) by (apply Rmult_integral_contrapositive_currified; [lra|nra]).
    assert (D : forall u, u * u = k * k -> dist x (V2 (vx x + u) (vy x + 0)) < e).
    { intros u Hu. rewrite dist_offset, Hu. replace (k * k + 0 * 0) with (k * k) by ring. rewrite sqrt_square by lra. unfold k. lra. }
    destruct (Req_dec (sideof (a, b) (V2 (vx x + k) (vy x + 0))) 0) as [Y|Y].
    + exists (V2 (vx x + - k) (vy x + 0)). split; [apply D; ring|]. intros N. rewrite Y, N in Q. lra.
    + exists (V2 (vx x + k) (vy x + 0)). split; [apply D; ring|exact Y].
Qed.

Lemma dist_triangle x y z : dist x z <= dist x y + dist y z.
Proof.
  unfold dist. set (a := vx x - vx y). set (b := vy x - vy y). set (c := vx y - vx z). set (d := vy y - vy z).
  replace (vx x - vx z) with (a + c) by (unfold a, c; ring). replace (vy x - vy z) with (b + d) by (unfold b, d; ring).
  pose proof (sqrt_pos (a * a + b * b)). pose proof (sqrt_pos (c * c + d * d)).
  assert (N1 : 0 <= a * a + b * b) by nra. assert (N2 : 0 <= c * c + d * d) by nra.
  rewrite <- (sqrt_square (sqrt (a * a + b * b) + sqrt (c * c + d * d))) by lra. apply sqrt_le_1_alt.
  pose proof (sqrt_sqrt _ N1). pose proof (sqrt_sqrt _ N2).
  assert (a * c + b * d <= sqrt (a * a + b * b) * sqrt (c * c + d * d)).
  { rewrite <- sqrt_mult by assumption. eapply Rle_trans; [apply Rle_abs|]. rewrite <- sqrt_Rsqr_abs. apply sqrt_le_1_alt. unfold Rsqr.
    assert (0 <= (a * d - b * c) * (a * d - b * c)) by apply Rle_0_sqr. nra. }
  nra.
Qed.
Lemma dist_sym x y : dist x y = dist y x.
Proof. unfold dist. f_equal. ring. Qed.

Section Values.
Variables (l1 l2 : list seg) (s : seg).
Let l := l1 ++ s :: l2.
Hypothesis Ok : oks l.
Hypothesis Lp : looped l.
Hypothesis Df : ends_differ s.

(** Near [z] the other segments are away, and the winding number is [c] on the right of [s] and [c + 1] on the left. *)
Definition near (z : vec2 R) (c : Z) : Prop :=
  exists r, 0 < r /\ forall x, dist z x < r -> offs (l1 ++ l2) x /\ (sideof s x <> 0 -> tot l x = (c + over (sideof s x))%Z).

Lemma in_l x : In x (l1 ++ l2) -> In x l.
Proof. unfold l. rewrite !in_app_iff. cbn [In]. tauto. Qed.

Lemma rsum_mid (f : seg -> R) u : rsum (map f (l1 ++ u :: l2)) = rsum (map f (l1 ++ l2)) + f u.
Proof. rewrite !map_app. cbn [map]. rewrite !rsum_app, rsum_cons. ring. Qed.

Lemma near_exists t z : 0 < t < 1 -> seg_at (fst s) (snd s) t z -> offs (l1 ++ l2) z -> exists c, near z c.
Proof.
  intros Ht Hz Oz. assert (Os : okseg s) by (apply Ok; unfold l; apply in_elt).
  destruct (side_jump s t z Os Df Ht Hz) as (s' & k & r & Ok' & E1 & E2 & Nz & Hr & J).
  set (m := l1 ++ s' :: l2).
  assert (Okm : oks m). { intros u I. unfold m in I. rewrite in_app_iff in I. cbn [In] in I. destruct I as [I|[<-|I]]; [|exact Ok'|]; apply Ok; unfold l; rewrite in_app_iff; cbn [In]; tauto. }
  assert (Lpm : looped m). { intros f. specialize (Lp f). unfold l in Lp. unfold m. rewrite rsum_mid in *. rewrite E1, E2. exact Lp. }
  assert (Offm : offs m z). { intros u I. unfold m in I. rewrite in_app_iff in I. cbn [In] in I. destruct I as [I|[<-|I]]; [|exact Nz|]; apply Oz; rewrite in_app_iff; tauto. }
  destruct (tot_local m z Okm Lpm Offm) as (e & He & K).
  exists (tot m z + k)%Z, (Rmin r e). split; [now apply Rmin_pos|]. intros x Hx.
  pose proof (Rmin_l r e). pose proof (Rmin_r r e). destruct (K x ltac:(lra)) as (Om & Em). split.
  - intros u I. apply Om. unfold m. rewrite in_app_iff in *. cbn [In]. tauto.
  - intros HS. assert (N : ~ on s x) by (intros N; apply HS, (on_side s x Os N)).
    rewrite <- Em. unfold l, m. rewrite !tot_app, !tot_cons. rewrite (J x ltac:(lra) N HS). lia.
Qed.

Lemma near_close z c z' c' r : 0 < r -> (forall x, dist z x < r -> offs (l1 ++ l2) x /\ (sideof s x <> 0 -> tot l x = (c + over (sideof s x))%Z)) ->
  dist z z' < r -> near z' c' -> c' = c.
Proof.
  intros Hr H D (r' & Hr' & H'). destruct (side_near s z' (Rmin r' (r - dist z z')) Df) as (x & Dx & Sx); [apply Rmin_pos; lra|].
  pose proof (Rmin_l r' (r - dist z z')). pose proof (Rmin_r r' (r - dist z z')). pose proof (dist_triangle z z' x).
  destruct (H x ltac:(lra)) as (_ & A). destruct (H' x ltac:(lra)) as (_ & B). specialize (A Sx). specialize (B Sx). lia.
Qed.

Lemma near_unique z c c' : near z c -> near z c' -> c = c'.
Proof.
  intros N N'. destruct N' as (r & Hr & H). apply (near_close z c' z c r Hr H); [|exact N].
  replace (dist z z) with 0; [exact Hr|]. unfold dist. rewrite !Rminus_diag_eq by reflexivity. rewrite Rmult_0_l, Rplus_0_l, sqrt_0. reflexivity.
Qed.

(** Off the path there are only these two values. *)
Lemma near_values z c : near z c -> exists r, 0 < r /\ forall x, dist z x < r -> offs l x -> tot l x = c \/ tot l x = (c + 1)%Z.
Proof.
  intros (r & Hr & H). exists r. split; [exact Hr|]. intros x Hx Ox.
  destruct (tot_local l x Ok Lp Ox) as (e & He & K).
  destruct (side_near s x (Rmin e (r - dist z x)) Df) as (x' & Dx & Sx); [apply Rmin_pos; lra|].
  pose proof (Rmin_l e (r - dist z x)). pose proof (Rmin_r e (r - dist z x)). pose proof (dist_triangle z x x').
  destruct (K x' ltac:(lra)) as (_ & <-). destruct (H x' ltac:(lra)) as (_ & ->); [|exact Sx].
  unfold over. destruct (Rlt_dec 0 (sideof s x')); [right|left]; lia.
Qed.

(** The values are the same along the segment. *)
Lemma near_along t t' z z' c : 0 < t < 1 -> 0 < t' < 1 -> seg_at (fst s) (snd s) t z -> seg_at (fst s) (snd s) t' z' ->
  (forall u q, 0 < u < 1 -> seg_at (fst s) (snd s) u q -> offs (l1 ++ l2) q) -> near z c -> near z' c.
Proof.
  intros Ht Ht' Hz Hz' Of Nz. assert (Os : okseg s) by (apply Ok; unfold l; apply in_elt).
  destruct (seg_curve (fst s) (snd s) Os) as (cx & cy & Cx & Cy & Hq).
  set (g := fun u => t + u * (t' - t)). set (P := fun u => V2 (cx (g u)) (cy (g u))).
  assert (Gr : forall u, 0 <= u <= 1 -> 0 < g u < 1). { intros u Hu. unfold g. assert (0 <= u * t') by (apply Rmult_le_pos; lra). assert (0 <= (1 - u) * t) by (apply Rmult_le_pos; lra). 
    split; [|assert (u * t' <= u * 1) by (apply Rmult_le_compat_l; lra); assert ((1 - u) * t <= (1 - u) * 1) by (apply Rmult_le_compat_l; lra)].
    - destruct (Rlt_dec u 1); [assert (0 < (1 - u) * t) by (apply Rmult_lt_0_compat; lra); lra|]. replace u with 1 in * by lra. lra.
    - destruct (Rlt_dec 0 u); [assert (u * t' < u * 1) by (apply Rmult_lt_compat_l; lra); lra|]. replace u with 0 in * by lra. lra. }
  assert (Sat : forall u, seg_at (fst s) (snd s) (g u) (P u)) by (intros u; apply Hq; reflexivity).
  assert (E0 : P 0 = z). { unfold P, g. replace (t + 0 * (t' - t)) with t by ring. symmetry. now apply Hq. }
  assert (E1 : P 1 = z'). { unfold P, g. replace (t + 1 * (t' - t)) with t' by ring. symmetry. now apply Hq. }
  (* the curve is continuous *)
  assert (CP : forall u e, 0 < e -> exists d, 0 < d /\ forall v, Rabs (v - u) < d -> dist (P u) (P v) < e).
  { intros u e He.
    assert (K1 : continuity_pt (fun u => cx (g u)) u) by (apply (continuity_pt_comp g cx); [apply continuity_affine|apply Cx]).
    assert (K2 : continuity_pt (fun u => cy (g u)) u) by (apply (continuity_pt_comp g cy); [apply continuity_affine|apply Cy]).
    destruct (K1 (e / 2) ltac:(lra)) as (d1 & Hd1 & D1). destruct (K2 (e / 2) ltac:(lra)) as (d2 & Hd2 & D2).
    exists (Rmin d1 d2). split; [now apply Rmin_pos|]. intros v Hv.
    destruct (Req_dec u v) as [->|NE].
    { replace (dist (P v) (P v)) with 0; [exact He|]. unfold dist. rewrite !Rminus_diag_eq by reflexivity. rewrite Rmult_0_l, Rplus_0_l, sqrt_0. reflexivity. }
    assert (A1 : Rabs (cx (g v) - cx (g u)) < e / 2) by (apply (D1 v); split; [split; [exact I|exact NE]|]; cbn; unfold R_dist; eapply Rlt_le_trans; [exact Hv|apply Rmin_l]).
    assert (A2 : Rabs (cy (g v) - cy (g u)) < e / 2) by (apply (D2 v); split; [split; [exact I|exact NE]|]; cbn; unfold R_dist; eapply Rlt_le_trans; [exact Hv|apply Rmin_r]).
    unfold dist, P. cbn [vx vy]. replace e with (sqrt (e * e)) by (apply sqrt_square; lra). apply sqrt_lt_1_alt.
    split; [apply Rplus_le_le_0_compat; apply Rle_0_sqr|]. apply Rabs_def2 in A1. apply Rabs_def2 in A2.
    assert ((cx (g u) - cx (g v)) * (cx (g u) - cx (g v)) <= e / 2 * (e / 2)) by (apply neg_pos_Rsqr_le; lra).
    assert ((cy (g u) - cy (g v)) * (cy (g u) - cy (g v)) <= e / 2 * (e / 2)) by (apply neg_pos_Rsqr_le; lra). nra. }
  (* every point has a value, and near points the same *)
  assert (Ex : forall u, 0 <= u <= 1 -> exists k, near (P u) k).
  { intros u Hu. apply (near_exists (g u)); auto. apply (Of (g u)); auto. }
  assert (Cl : forall u k, 0 <= u <= 1 -> near (P u) k -> exists d, 0 < d /\ forall v, 0 <= v <= 1 -> Rabs (v - u) < d -> near (P v) k).
  { intros u k Hu (r & Hr & H). destruct (CP u r Hr) as (d & Hd & D). exists d. split; [exact Hd|]. intros v Hv Hvu.
    destruct (Ex v Hv) as (k' & N'). rewrite <- (near_close (P u) k (P v) k' r Hr H (D v Hvu) N'). exact N'. }
  rewrite <- E1. rewrite <- E0 in Nz. apply NNPP. intros N1.
  destruct (ProofNest.first_hit (fun u => ~ near (P u) c)) as (u & Hu & Nu & Be).
  - intros u Hu H. apply NNPP in H. destruct (Cl u c Hu H) as (d & Hd & D). exists d. split; [exact Hd|]. intros v Hv Hvu NN. apply NN, D; auto.
  - exact N1.
  - destruct (Ex u Hu) as (k & Nk). destruct (Cl u k Hu Nk) as (d & Hd & D).
    assert (U0 : 0 < u). { apply Rnot_le_lt. intros L. replace u with 0 in Nu by lra. now apply Nu. }
    set (v := u - Rmin d u / 2). assert (M : 0 < Rmin d u) by (apply Rmin_pos; lra). pose proof (Rmin_l d u). pose proof (Rmin_r d u).
    assert (Hv : 0 <= v < u) by (unfold v; lra).
    specialize (D v ltac:(lra)). assert (Rabs (v - u) < d) by (unfold v; rewrite Rabs_left; lra). specialize (D H1).
    assert (Nv : near (P v) c) by (apply NNPP; apply Be; lra).
    rewrite (near_unique _ _ _ D Nv) in Nk. contradiction.
Qed.
End Values.
