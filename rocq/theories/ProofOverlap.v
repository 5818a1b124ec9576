(** The region of a boolean operation on two overlapping loops that pass no point twice (C68). *)
From Coq Require Import Reals ZArith Bool List Arith Lra Lia Psatz Classical.
From Verif Require Import Num RNum Res ModelMath ModelSeg ModelPline ModelIndex ModelIntersects ModelBoolean.
From Verif Require Import Spec SpecGeom SpecBox SpecWinding SpecIndex SpecBoolean SpecView SpecPruneR SpecPrune SpecRegion SpecJordan.
From Verif Require Import ProofR ProofBase ProofIter ProofArc ProofSlice ProofMeasure ProofWinding6 ProofWinding7 ProofRegion ProofRegion10 ProofRegion11 ProofNest ProofJordan ProofJordan2 ProofJordan5 ProofConn ProofConn2 ProofArea5.
Import ListNotations.
Local Open Scope R_scope.

Lemma wn_local p x : pline_ok p -> ~ on_path p x -> exists e, 0 < e /\ forall x', dist x x' < e -> ~ on_path p x' /\ wn p x' = wn p x.
Proof.
  intros Ok O. destruct (winding_local p x Ok O) as (e & He & K). exists e. split; [exact He|]. intros x' D. destruct (K x' D) as (K1 & K2).
  split; [exact K1|]. unfold wn. now rewrite K2.
Qed.

(** A loop that does not come to one side of another goes around the points of that side equally often. *)
Lemma even_side p L b : pline_ok p -> valid_loop p -> passes_once p -> pline_ok L ->
  (forall x, ~ on_path p x -> inside p x = b -> ~ on_path L x) ->
  forall x y, ~ on_path p x -> ~ on_path p y -> inside p x = b -> inside p y = b -> wn L x = wn L y.
Proof.
  intros ok vl po okL OL x y Ox Oy Ix Iy.
  assert (E : wn p x = wn p y).
  { destruct (winds_once p ok vl po) as (o & Ho & W). rewrite inside_wn in Ix, Iy. destruct (W x Ox) as [Ex|Ex], (W y Oy) as [Ey|Ey]; rewrite Ex, Ey in *; auto;
    exfalso; destruct Ho as [->| ->]; cbn in *; congruence. }
  pose proof (same_linked p ok vl po x y Ox Oy E) as LK.
  destruct (LK (fun z => inside p z = b /\ wn L z = wn L x)) as (H & _).
  - intros z Oz. assert (Nz : ~ on_path p z) by (intros (a & c & I & On); exact (Oz (a, c) I On)).
    destruct (wn_local p z ok Nz) as (e & He & K).
    assert (Same : forall z', dist z z' < e -> inside p z' = inside p z).
    { intros z' D. rewrite !inside_wn. now rewrite (proj2 (K z' D)). }
    destruct (bool_dec (inside p z) b) as [Bz|Bz].
    + destruct (wn_local L z okL (OL z Nz Bz)) as (e' & He' & K'). exists (Rmin e e'). split; [now apply Rmin_pos|]. intros z' D.
      pose proof (Rmin_l e e'). pose proof (Rmin_r e e'). rewrite (Same z') by lra. rewrite (proj2 (K' z' ltac:(lra))). tauto.
    + exists e. split; [exact He|]. intros z' D. rewrite (Same z' D). tauto.
  - symmetry. now apply H.
Qed.

(** ** Avoiding finitely many points *)
Lemma seg_avoid (s : seg) (F : list (vec2 R)) : okseg s -> pos (fst s) <> pos (snd s) -> exists q, on s q /\ ~ In q F.
Proof.
  intros Ok D.
  assert (H : exists a b, 0 <= a /\ a < b /\ b <= 1 /\ forall t q, a < t < b -> seg_at (fst s) (snd s) t q -> ~ In q F).
  { induction F as [|f F (a & b & A0 & AB & B1 & H)]; [exists 0, 1; repeat split; try lra; intros t q _ _ []|].
    destruct (classic (exists t0, a < t0 < b /\ seg_at (fst s) (snd s) t0 f)) as [(t0 & Ht0 & E0)|N].
    - exists a, t0. repeat split; try lra. intros t q Ht Hq [<-|I]; [|apply (H t q); auto; lra].
      assert (t = t0) by (apply (seg_at_inj (fst s) (snd s) t t0 f); auto; lra). lra.
    - exists a, b. repeat split; try lra. intros t q Ht Hq [<-|I]; [apply N; eauto|now apply (H t q)]. }
  destruct H as (a & b & A0 & AB & B1 & H). destruct (seg_at_exists (fst s) (snd s) ((a + b) / 2) Ok) as (q & Hq). exists q. split.
  - exists ((a + b) / 2). split; [lra|exact Hq].
  - apply (H ((a + b) / 2) q); auto. lra.
Qed.

Definition crossed (x y v : vec2 R) : R := (vx y - vx x) * (vy v - vy x) - (vy y - vy x) * (vx v - vx x).

Lemma crossed_line x y t : crossed x y (line_pt x y t) = 0.
Proof. unfold crossed, line_pt. cbn [vx vy]. ring. Qed.

Lemma dist_coord a b e : dist a b < e -> Rabs (vx b - vx a) < e /\ Rabs (vy b - vy a) < e.
Proof.
  intros D. assert (G : forall u v, sqrt (u * u + v * v) < e -> Rabs u < e).
  { intros u v H. eapply Rle_lt_trans; [|exact H]. rewrite <- sqrt_Rsqr_abs. apply sqrt_le_1_alt. unfold Rsqr. pose proof (Rle_0_sqr v). unfold Rsqr in *. lra. }
  unfold dist in D. split.
  - apply (G _ (vy b - vy a)). replace ((vx b - vx a) * (vx b - vx a) + (vy b - vy a) * (vy b - vy a)) with ((vx a - vx b) * (vx a - vx b) + (vy a - vy b) * (vy a - vy b)) by ring. exact D.
  - apply (G _ (vx b - vx a)). replace ((vy b - vy a) * (vy b - vy a) + (vx b - vx a) * (vx b - vx a)) with ((vx a - vx b) * (vx a - vx b) + (vy a - vy b) * (vy a - vy b)) by ring. exact D.
Qed.

(** Near any point there is room for the ends of lines from [x] that miss finitely many points. *)
Lemma line_avoid x (F : list (vec2 R)) : forall z r, 0 < r ->
  exists y r', 0 < r' /\ forall y', dist y y' < r' -> dist z y' < r /\ forall f, In f F -> f <> x -> crossed x y' f <> 0.
Proof.
  induction F as [|f F IH]; intros z r Hr; [exists z, r; split; [exact Hr|]; intros y' D; split; [exact D|intros f []]|].
  destruct (IH z r Hr) as (y & e & He & K).
  destruct (classic (f = x)) as [-> |N].
  { exists y, e. split; [exact He|]. intros y' D. destruct (K y' D) as (K1 & K2). split; [exact K1|]. intros g [<-|I] Ng; [contradiction|now apply K2]. }
  set (n2 := (vx f - vx x) * (vx f - vx x) + (vy f - vy x) * (vy f - vy x)).
  assert (N2 : 0 < n2).
  { unfold n2. destruct (Req_dec (vx f) (vx x)) as [E1|E1]; [destruct (Req_dec (vy f) (vy x)) as [E2|E2]|].
    - exfalso. apply N. now apply vec2_eq.
    - pose proof (Rle_0_sqr (vx f - vx x)). assert (0 < (vy f - vy x) * (vy f - vy x)) by (apply Rsqr_pos_lt; lra). unfold Rsqr in *. lra.
    - pose proof (Rle_0_sqr (vy f - vy x)). assert (0 < (vx f - vx x) * (vx f - vx x)) by (apply Rsqr_pos_lt; lra). unfold Rsqr in *. lra. }
  set (m := Rabs (vx f - vx x) + Rabs (vy f - vy x) + 1).
  assert (M1 : 1 <= m) by (unfold m; pose proof (Rabs_pos (vx f - vx x)); pose proof (Rabs_pos (vy f - vy x)); lra).
  (* a point near [y] off the line through [x] and [f] *)
  assert (Y : exists y1, dist y y1 < e / 2 /\ crossed x y1 f <> 0).
  { destruct (Req_dec (crossed x y f) 0) as [C|C].
    - set (k := e / (4 * m)). assert (Hk : 0 < k) by (unfold k; apply Rdiv_lt_0_compat; lra).
      exists (V2 (vx y + k * (vy f - vy x)) (vy y + - k * (vx f - vx x))). split.
      + rewrite dist_offset. apply Rle_lt_trans with (k * m).
        * rewrite <- (sqrt_Rsqr (k * m)) by (apply Rmult_le_pos; lra). apply sqrt_le_1_alt. unfold Rsqr.
          assert (A1 : Rabs (vx f - vx x) * Rabs (vx f - vx x) = (vx f - vx x) * (vx f - vx x)) by (rewrite <- Rabs_mult; apply Rabs_right; apply Rle_ge, Rle_0_sqr).
          assert (A2 : Rabs (vy f - vy x) * Rabs (vy f - vy x) = (vy f - vy x) * (vy f - vy x)) by (rewrite <- Rabs_mult; apply Rabs_right; apply Rle_ge, Rle_0_sqr).
          replace (k * (vy f - vy x) * (k * (vy f - vy x)) + - k * (vx f - vx x) * (- k * (vx f - vx x))) with (k * k * (Rabs (vx f - vx x) * Rabs (vx f - vx x) + Rabs (vy f - vy x) * Rabs (vy f - vy x))) by (rewrite A1, A2; ring).
          replace (k * m * (k * m)) with (k * k * (m * m)) by ring. apply Rmult_le_compat_l; [apply Rmult_le_pos; lra|].
          unfold m. pose proof (Rabs_pos (vx f - vx x)) as P1. pose proof (Rabs_pos (vy f - vy x)) as P2. pose proof (Rmult_le_pos _ _ P1 P2). nra.
        * unfold k. replace (e / (4 * m) * m) with (e / 4) by (field; lra). lra.
      + unfold crossed in *. cbn [vx vy]. replace (_ - _) with (((vx y - vx x) * (vy f - vy x) - (vy y - vy x) * (vx f - vx x)) + k * n2) by (unfold n2; ring).
        rewrite C. assert (0 < k * n2) by now apply Rmult_lt_0_compat. lra.
    - exists y. split; [rewrite dist_self; lra|exact C]. }
  destruct Y as (y1 & Dy & C1).
  set (c := Rabs (crossed x y1 f)). assert (Hc : 0 < c) by now apply Rabs_pos_lt.
  exists y1, (Rmin (e / 2) (c / (2 * m))). assert (Q : 0 < c / (2 * m)) by (apply Rdiv_lt_0_compat; lra).
  split; [apply Rmin_pos; lra|]. intros y' D. pose proof (Rmin_l (e / 2) (c / (2 * m))). pose proof (Rmin_r (e / 2) (c / (2 * m))).
  destruct (K y') as (K1 & K2); [pose proof (ProofJordan2.dist_triangle y y1 y'); lra|]. split; [exact K1|]. intros g [<-|I] Ng; [|now apply K2].
  destruct (dist_coord y1 y' (c / (2 * m))) as (X1 & X2); [lra|].
  assert (EQ : crossed x y' f = crossed x y1 f + ((vx y' - vx y1) * (vy f - vy x) - (vy y' - vy y1) * (vx f - vx x))) by (unfold crossed; ring).
  intros Z. rewrite Z in EQ.
  assert (EB : c <= Rabs (vx y' - vx y1) * Rabs (vy f - vy x) + Rabs (vy y' - vy y1) * Rabs (vx f - vx x)).
  { unfold c. replace (crossed x y1 f) with (- ((vx y' - vx y1) * (vy f - vy x) - (vy y' - vy y1) * (vx f - vx x))) by lra. rewrite Rabs_Ropp, <- !Rabs_mult.
    eapply Rle_trans; [apply Rabs_triang|]. rewrite Rabs_Ropp. lra. }
  assert (B1 : Rabs (vx y' - vx y1) * Rabs (vy f - vy x) <= c / (2 * m) * Rabs (vy f - vy x)) by (apply Rmult_le_compat_r; [apply Rabs_pos|lra]).
  assert (B2 : Rabs (vy y' - vy y1) * Rabs (vx f - vx x) <= c / (2 * m) * Rabs (vx f - vx x)) by (apply Rmult_le_compat_r; [apply Rabs_pos|lra]).
  assert (B3 : c / (2 * m) * m = c / 2) by (field; lra).
  assert (B4 : c / (2 * m) * (Rabs (vx f - vx x) + Rabs (vy f - vy x)) <= c / (2 * m) * m) by (apply Rmult_le_compat_l; [lra|unfold m; lra]).
  lra.
Qed.

Section Pair.
Variables p1 p2 : pline R.
Hypothesis ok1 : pline_ok p1.
Hypothesis ok2 : pline_ok p2.
Hypothesis vl1 : valid_loop p1.
Hypothesis vl2 : valid_loop p2.
Hypothesis po1 : passes_once p1.
Hypothesis po2 : passes_once p2.

Lemma off_near p x e : pline_ok p -> valid_loop p -> passes_once p -> 0 < e -> exists x', dist x x' < e /\ ~ on_path p x'.
Proof.
  intros ok vl po He. destruct (classic (on_path p x)) as [On|N]; [|exists x; split; [rewrite dist_self; exact He|exact N]].
  destruct (loop_sides p ok vl po) as (o & _ & _ & S). destruct (S x e On He) as ((y & Oy & Dy & _) & _). eauto.
Qed.

Lemma off_both x e : 0 < e -> exists x', dist x x' < e /\ ~ on_path p1 x' /\ ~ on_path p2 x'.
Proof.
  intros He. destruct (off_near p1 x (e / 2) ok1 vl1 po1 ltac:(lra)) as (y & Dy & Oy). destruct (wn_local p1 y ok1 Oy) as (e' & He' & K).
  destruct (off_near p2 y (Rmin (e / 2) e') ok2 vl2 po2) as (w & Dw & Ow); [apply Rmin_pos; lra|]. pose proof (Rmin_l (e / 2) e'). pose proof (Rmin_r (e / 2) e').
  exists w. split; [pose proof (ProofJordan2.dist_triangle x y w); lra|]. split; [apply K; lra|exact Ow].
Qed.

Lemma inside_near p x : pline_ok p -> ~ on_path p x -> exists e, 0 < e /\ forall x', dist x x' < e -> ~ on_path p x' /\ inside p x' = inside p x.
Proof.
  intros Ok O. destruct (wn_local p x Ok O) as (e & He & K). exists e. split; [exact He|]. intros x' D. destruct (K x' D) as (K1 & K2). split; [exact K1|]. now rewrite !inside_wn, K2.
Qed.

(** A loop along the wanted sides of the two. *)
Lemma edge_off1 w L x : (forall q, on_path L q -> edge p1 p2 w q) -> ~ on_path p1 x -> inside p1 x = negb (snd w) -> ~ on_path L x.
Proof. intros E O I On. destruct (E x On) as (_ & _ & [N|N]); [contradiction|]. rewrite N in I. destruct (snd w); discriminate. Qed.
Lemma edge_off2 w L x : (forall q, on_path L q -> edge p1 p2 w q) -> ~ on_path p2 x -> inside p2 x = negb (fst w) -> ~ on_path L x.
Proof. intros E O I On. destruct (E x On) as (_ & [N|N] & _); [contradiction|]. rewrite N in I. destruct (fst w); discriminate. Qed.

Lemma even1 w L : pline_ok L -> (forall q, on_path L q -> edge p1 p2 w q) ->
  forall x y, ~ on_path p1 x -> ~ on_path p1 y -> inside p1 x = negb (snd w) -> inside p1 y = negb (snd w) -> wn L x = wn L y.
Proof. intros Ok E. apply (even_side p1 L (negb (snd w))); auto. intros x. now apply edge_off1. Qed.
Lemma even2 w L : pline_ok L -> (forall q, on_path L q -> edge p1 p2 w q) ->
  forall x y, ~ on_path p2 x -> ~ on_path p2 y -> inside p2 x = negb (fst w) -> inside p2 y = negb (fst w) -> wn L x = wn L y.
Proof. intros Ok E. apply (even_side p2 L (negb (fst w))); auto. intros x. now apply edge_off2. Qed.

Lemma far_out w L : pline_ok L -> valid_loop L -> (forall q, on_path L q -> edge p1 p2 w q) ->
  exists z, ~ on_path p1 z /\ ~ on_path p2 z /\ inside p1 z = false /\ inside p2 z = false /\ wn L z = 0%Z.
Proof.
  intros Ok Vl E. destruct (path_right p1 ok1) as (M1 & B1). destruct (path_right p2 ok2) as (M2 & B2).
  set (z := V2 (Rmax M1 M2) 0). pose proof (Rmax_l M1 M2) as L1. pose proof (Rmax_r M1 M2) as L2.
  assert (R1 : forall q, on_path p1 q -> vx q < vx z) by (intros q On; specialize (B1 q On); cbn [z vx]; lra).
  assert (R2 : forall q, on_path p2 q -> vx q < vx z) by (intros q On; specialize (B2 q On); cbn [z vx]; lra).
  exists z. split; [intros On; specialize (R1 z On); lra|]. split; [intros On; specialize (R2 z On); lra|].
  split; [rewrite inside_wn, (wn_right p1 z ok1 vl1 R1); reflexivity|]. split; [rewrite inside_wn, (wn_right p2 z ok2 vl2 R2); reflexivity|].
  apply (wn_right L z Ok Vl). intros q On. destruct (E q On) as ([N|N] & _); auto.
Qed.

Lemma winds_within w op L x : overlap p1 p2 -> In w (wanted op) -> op <> BOr -> pline_ok L -> valid_loop L -> (forall q, on_path L q -> edge p1 p2 w q) ->
  ~ on_path p1 x -> ~ on_path p2 x -> wn L x <> 0%Z -> inside p2 x = fst w /\ inside p1 x = snd w.
Proof.
  intros (_ & (y1 & Y1 & Y2 & Y3 & Y4) & (z1 & Z1 & Z2 & Z3 & Z4)) Iw NO Ok Vl E O1 O2 W.
  destruct (far_out w L Ok Vl E) as (f & F1 & F2 & F3 & F4 & F5).
  pose proof (even1 w L Ok E) as E1. pose proof (even2 w L Ok E) as E2.
  assert (G : w = (true, true) \/ w = (false, true) \/ w = (true, false)).
  { destruct op; cbn in Iw; try contradiction; [destruct Iw as [<-|[]]|destruct Iw as [<-|[]]|destruct Iw as [<-|[<-|[]]]]; auto. }
  destruct G as [->|[->| ->]]; cbn [fst snd negb] in *.
  - split; apply not_false_is_true; intros N; apply W; rewrite <- F5; auto.
  - assert (W1 : wn L z1 = 0%Z) by (rewrite <- F5; auto). split.
    + destruct (inside p2 x) eqn:N; [|reflexivity]. exfalso. apply W. rewrite <- W1; auto.
    + apply not_false_is_true. intros N. apply W. rewrite <- F5. auto.
  - assert (W1 : wn L y1 = 0%Z) by (rewrite <- F5; auto). split.
    + apply not_false_is_true. intros N. apply W. rewrite <- F5. auto.
    + destruct (inside p1 x) eqn:N; [|reflexivity]. exfalso. apply W. rewrite <- W1; auto.
Qed.

(** ** The union *)
Section Union.
Variables (rs : list (boolean_result_pline R)) (s : Z) (F : list (vec2 R)) (z : vec2 R).
Hypothesis hs : s = 1%Z \/ s = (-1)%Z.
Hypothesis each : forall l, In l rs -> valid_loop (brp_pline l) /\ pline_ok (brp_pline l)
  /\ (forall v1 v2, In (v1, v2) (spec_segs (vtx (brp_pline l)) (is_closed (brp_pline l))) -> pos v1 <> pos v2)
  /\ forall q, on_path (brp_pline l) q -> edge p1 p2 (false, false) q.
Hypothesis sum : forall x, ~ on_path p1 x -> ~ on_path p2 x ->
  zsum (map (fun l => wn (brp_pline l) x) rs) = if inside p1 x || inside p2 x then s else 0%Z.
Hypothesis alone : forall q, ~ In q F -> ~ (on_path p1 q /\ on_path p2 q) /\ exists h : boolean_result_pline R -> Z,
  (forall l, In l rs -> (0 <= h l)%Z /\ (on_path (brp_pline l) q -> (1 <= h l)%Z)) /\ (zsum (map h rs) <= 1)%Z.
Hypothesis z1 : ~ on_path p1 z.
Hypothesis z2 : ~ on_path p2 z.
Hypothesis i1 : inside p1 z = true.
Hypothesis i2 : inside p2 z = true.

Lemma in_union l x : In l rs -> ~ on_path p1 x -> ~ on_path p2 x -> inside p1 x || inside p2 x = true -> wn (brp_pline l) x = wn (brp_pline l) z.
Proof.
  intros Il O1 O2 I. destruct (each l Il) as (_ & Ok & _ & E). apply orb_true_iff in I as [I|I].
  - apply (even1 (false, false) (brp_pline l) Ok E); auto.
  - apply (even2 (false, false) (brp_pline l) Ok E); auto.
Qed.

Lemma zsum_split {X} (f : X -> Z) l1 a l2 : zsum (map f (l1 ++ a :: l2)) = (f a + zsum (map f (l1 ++ l2)))%Z.
Proof. rewrite !map_app, !zsum_app. cbn [map]. unfold zsum at 2. cbn [fold_right]. fold (zsum (map f l2)). lia. Qed.

Lemma steady_sum M q : (forall l, In l M -> pline_ok (brp_pline l) /\ ~ on_path (brp_pline l) q) ->
  exists r K, 0 < r /\ forall x, dist q x < r -> zsum (map (fun l => wn (brp_pline l) x) M) = K.
Proof.
  induction M as [|l M IH]; intros H; [exists 1, 0%Z; split; [lra|reflexivity]|].
  destruct IH as (r & K & Hr & HK); [intros; apply H; now right|]. destruct (H l (or_introl eq_refl)) as (Ok & O).
  destruct (wn_local (brp_pline l) q Ok O) as (e & He & Ke). exists (Rmin r e), (wn (brp_pline l) q + K)%Z. split; [now apply Rmin_pos|].
  intros x D. pose proof (Rmin_l r e). pose proof (Rmin_r r e). unfold zsum in *. cbn [map fold_right]. rewrite (proj2 (Ke x ltac:(lra))), HK by lra. reflexivity.
Qed.

(** Near a point of one of the loops but finitely many. *)
Lemma jump l q : In l rs -> on_path (brp_pline l) q -> ~ In q F -> exists r, 0 < r
  /\ (forall x, dist q x < r -> ~ on_path p1 x -> ~ on_path p2 x -> wn (brp_pline l) x = if inside p1 x || inside p2 x then wn (brp_pline l) z else (wn (brp_pline l) z - s)%Z)
  /\ exists x, dist q x < r /\ ~ on_path p1 x /\ ~ on_path p2 x /\ inside p1 x || inside p2 x = false.
Proof.
  intros Il On NF. destruct (alone q NF) as (N12 & h & Hh & SM). destruct (each l Il) as (_ & _ & _ & E). destruct (E q On) as (P12 & S2 & S1). cbn [fst snd] in S1, S2.
  destruct (in_split l rs Il) as (l1 & l2 & ER).
  assert (IM : forall l', In l' (l1 ++ l2) -> In l' rs) by (intros l' I; rewrite ER; apply in_app_or in I; apply in_or_app; cbn; tauto).
  assert (OM : forall l', In l' (l1 ++ l2) -> pline_ok (brp_pline l') /\ ~ on_path (brp_pline l') q).
  { intros l' I. split; [apply (each l' (IM l' I))|]. intros On'. rewrite ER, zsum_split in SM.
    pose proof (proj2 (Hh l Il) On). pose proof (proj2 (Hh l' (IM l' I)) On').
    pose proof (zsum_In h (l1 ++ l2) l' (fun k Ik => proj1 (Hh k (IM k Ik))) I). lia. }
  destruct (steady_sum (l1 ++ l2) q OM) as (r & K & Hr & HK).
  (* near the point only one of the two loops is met, and the other does not go around it *)
  assert (X : exists e, 0 < e /\ forall d, 0 < d -> d <= e -> (exists x, dist q x < d /\ ~ on_path p1 x /\ ~ on_path p2 x /\ inside p1 x || inside p2 x = true)
    /\ exists x, dist q x < d /\ ~ on_path p1 x /\ ~ on_path p2 x /\ inside p1 x || inside p2 x = false).
  { assert (Y : forall p p', pline_ok p -> valid_loop p -> passes_once p -> pline_ok p' -> on_path p q -> ~ on_path p' q -> inside p' q = false ->
      exists e, 0 < e /\ forall d, 0 < d -> d <= e -> (exists x, dist q x < d /\ ~ on_path p x /\ ~ on_path p' x /\ inside p x || inside p' x = true)
        /\ exists x, dist q x < d /\ ~ on_path p x /\ ~ on_path p' x /\ inside p x || inside p' x = false).
    { intros p p' ok vl po ok' O N I. destruct (inside_near p' q ok' N) as (e & He & Ke). exists e. split; [exact He|]. intros d Hd Le.
      destruct (loop_sides p ok vl po) as (o & Ho & _ & S). destruct (S q d O Hd) as ((a & Oa & Da & Wa) & (b & Ob & Db & Wb)). split.
      - exists b. destruct (Ke b ltac:(lra)) as (K1 & K2). repeat split; auto. rewrite inside_wn, Wb. destruct Ho as [->| ->]; reflexivity.
      - exists a. destruct (Ke a ltac:(lra)) as (K1 & K2). repeat split; auto. rewrite K2, I, inside_wn, Wa. reflexivity. }
    destruct P12 as [O|O].
    - assert (N : ~ on_path p2 q) by tauto. apply (Y p1 p2); auto. tauto.
    - assert (N : ~ on_path p1 q) by tauto. destruct (Y p2 p1) as (e & He & K'); auto; [tauto|]. exists e. split; [exact He|]. intros d Hd Le.
      destruct (K' d Hd Le) as ((a & A1 & A2 & A3 & A4) & (b & B1 & B2 & B3 & B4)). rewrite orb_comm in A4, B4. split; eauto 10. }
  destruct X as (e & He & X). exists (Rmin r e). pose proof (Rmin_l r e) as R1. pose proof (Rmin_r r e) as R2. assert (R0 : 0 < Rmin r e) by now apply Rmin_pos.
  split; [exact R0|]. destruct (X (Rmin r e) R0 R2) as ((a & Da & A1 & A2 & A3) & Y). split; [|exact Y].
  assert (EK : K = (s - wn (brp_pline l) z)%Z).
  { pose proof (sum a A1 A2) as Sa. rewrite A3, ER, zsum_split, (HK a) in Sa by lra. rewrite (in_union l a Il A1 A2 A3) in Sa. lia. }
  intros x D O1 O2. pose proof (sum x O1 O2) as Sx. rewrite ER, zsum_split, (HK x) in Sx by lra. destruct (inside p1 x || inside p2 x) eqn:I; lia.
Qed.

Lemma some_point l : In l rs -> exists q, on_path (brp_pline l) q /\ ~ In q F.
Proof.
  intros Il. destruct (each l Il) as ((V & C) & Ok & D & _). set (p := brp_pline l) in *.
  assert (LN : length (spec_segs (vtx p) (is_closed p)) = vertex_count p) by now apply len.
  destruct (spec_segs (vtx p) (is_closed p)) as [|[a b] m] eqn:E; [cbn in LN; lia|].
  assert (I : In (a, b) (spec_segs (vtx p) (is_closed p))) by (rewrite E; now left).
  destruct (seg_avoid (a, b) F) as (q & On & NF); [apply Ok; exact I|apply (D a b); now left|]. exists q. split; [|exact NF]. exists a, b. auto.
Qed.

Lemma union_values l x : In l rs -> ~ on_path (brp_pline l) x -> wn (brp_pline l) x = wn (brp_pline l) z \/ wn (brp_pline l) x = (wn (brp_pline l) z - s)%Z.
Proof.
  intros Il Ox. destruct (each l Il) as (Vl & Ok & _ & _). set (p := brp_pline l) in *.
  destruct (some_point l Il) as (q0 & On0 & NF0). destruct (jump l q0 Il On0 NF0) as (r0 & Hr0 & J0 & _). fold p in J0, On0.
  destruct (line_avoid x F q0 r0 Hr0) as (y0 & r1 & Hr1 & AV). destruct (off_both y0 r1 Hr1) as (y & Dy & Y1 & Y2). destruct (AV y Dy) as (Dq & AVy).
  destruct (classic (exists t, 0 <= t <= 1 /\ on_path p (line_pt x y t))) as [(t0 & Ht0 & On)|N].
  - set (w := line_pt x y t0) in *. destruct (first_hit (fun t => on_path p (line_pt x w t))) as (t & Ht & Ont & Bef).
    + intros t Ht N. destruct (path_open p x w t Ok N) as (e & He & K). exists e. split; [exact He|]. intros u _ Hu. now apply K.
    + replace (line_pt x w 1) with w; [exact On|]. unfold line_pt. apply vec2_eq; cbn [vx vy]; ring.
    + set (q := line_pt x w t) in *.
      assert (EQ : q = line_pt x y (t * t0)) by (unfold q, w; apply line_part).
      assert (NF : ~ In q F).
      { intros I. apply (AVy q I); [intros E; apply Ox; now rewrite <- E|]. rewrite EQ. apply crossed_line. }
      destruct (jump l q Il Ont NF) as (r & Hr & J & _). fold p in J.
      assert (T0 : 0 < t).
      { destruct (Rle_lt_or_eq_dec 0 t ltac:(lra)) as [L|L]; [exact L|]. exfalso. apply Ox. replace x with q; [exact Ont|]. unfold q. rewrite <- L. unfold line_pt. apply vec2_eq; cbn [vx vy]; ring. }
      (* a little before *)
      set (d := r / 2 / (dist x w + 1)). assert (D0 : 0 <= dist x w) by apply sqrt_pos. assert (Hd : 0 < d) by (unfold d; apply Rdiv_lt_0_compat; lra).
      set (u := t - Rmin (t / 2) (d / 2)). pose proof (Rmin_l (t / 2) (d / 2)). pose proof (Rmin_r (t / 2) (d / 2)). assert (0 < Rmin (t / 2) (d / 2)) by (apply Rmin_pos; lra).
      assert (Hu : 0 <= u < t) by (unfold u; lra).
      assert (Du : dist q (line_pt x w u) < r / 2) by (apply line_near; [lra|]; fold d; unfold u; rewrite Rabs_left; lra).
      assert (Ou : ~ on_path p (line_pt x w u)) by (apply Bef; lra).
      assert (EW : wn p x = wn p (line_pt x w u)) by (apply wn_until; [exact Ok|lra|]; intros v Hv; apply Bef; lra).
      destruct (wn_local p (line_pt x w u) Ok Ou) as (e & He & K). destruct (off_both (line_pt x w u) (Rmin e (r / 2))) as (v & Dv & V1 & V2'); [apply Rmin_pos; lra|].
      pose proof (Rmin_l e (r / 2)). pose proof (Rmin_r e (r / 2)). destruct (K v ltac:(lra)) as (_ & Kv). rewrite EW, <- Kv.
      rewrite (J v); auto; [destruct (_ || _); auto|]. pose proof (ProofJordan2.dist_triangle q (line_pt x w u) v). lra.
  - rewrite (wn_straight p x y Ok); [|intros t Ht On; apply N; eauto]. rewrite (J0 y Dq Y1 Y2). destruct (_ || _); auto.
Qed.

Lemma union_level l : In l rs -> wn (brp_pline l) z = 0%Z \/ wn (brp_pline l) z = s.
Proof.
  intros Il. destruct (each l Il) as (Vl & Ok & _ & E). destruct (far_out (false, false) (brp_pline l) Ok Vl E) as (f & F1 & F2 & F3 & F4 & F5).
  destruct (union_values l f Il) as [H|H]; [intros On; destruct (E f On) as ([N|N] & _); contradiction| |]; lia.
Qed.

Lemma union_turn l : In l rs -> exists o, orientation (brp_pline l) = Ret o /\ o <> Open /\ once o = if Z.eqb (wn (brp_pline l) z) 0 then (- s)%Z else s.
Proof.
  intros Il. destruct (each l Il) as (Vl & Ok & _ & E). set (p := brp_pline l) in *. pose proof (union_level l Il) as UL. fold p in UL.
  set (k := if Z.eqb (wn p z) 0 then (- s)%Z else s).
  assert (V : forall x, ~ on_path p x -> wn p x = 0%Z \/ wn p x = k).
  { intros x O. pose proof (union_values l x Il O) as U. fold p in U. unfold k. destruct (Z.eqb_spec (wn p z) 0), UL, U; lia. }
  assert (A : exists x, ~ on_path p x /\ wn p x = k).
  { assert (OF : forall x, ~ on_path p1 x -> ~ on_path p2 x -> ~ on_path p x) by (intros x O1 O2 On; destruct (E x On) as ([N|N] & _); contradiction).
    unfold k. destruct (Z.eqb_spec (wn p z) 0) as [Q|Q].
    - destruct (some_point l Il) as (q & On & NF). destruct (jump l q Il On NF) as (r & Hr & J & (x & D & O1 & O2 & I)). exists x. split; [now apply OF|].
      fold p in J. rewrite (J x D O1 O2), I. lia.
    - exists z. split; [now apply OF|]. destruct UL; [contradiction|assumption]. }
  assert (Hk : k = 1%Z \/ k = (-1)%Z) by (unfold k; destruct (_ =? _)%Z, hs; subst; auto).
  destruct (area_is_integral p (proj2 Vl) Ok) as (I & _ & EA).
  destruct (loop_area_sign p k (I / 2) Ok Vl EA) as (_ & St).
  { intros x w O Q. rewrite winding_wn in Q. injection Q as <-. destruct (V x O) as [-> | ->]; destruct Hk as [-> | ->]; lia. }
  assert (Q : 0 < IZR k * (I / 2)).
  { apply St. destruct A as (x & O & W). exists x, (wn p x). split; [exact O|]. split; [apply winding_wn|]. rewrite W. destruct Hk as [->| ->]; lia. }
  assert (Or : orientation p = if rltb (I / 2) 0 then Ret Clockwise else Ret CounterClockwise).
  { unfold orientation. rewrite (proj2 Vl), EA. reflexivity. }
  destruct Hk as [Hk|Hk]; rewrite Hk in *.
  - exists CounterClockwise. rewrite Or, (proj2 (rltb_false _ _)) by lra. split; [reflexivity|split; [discriminate|reflexivity]].
  - exists Clockwise. rewrite Or, (proj2 (rltb_true _ _)) by lra. split; [reflexivity|split; [discriminate|reflexivity]].
Qed.
End Union.
End Pair.

Lemma together_sum (rs : list (boolean_result_pline R)) x w : wind_together (map brp_pline rs) x w -> zsum (map (fun l => wn (brp_pline l) x) rs) = w.
Proof.
  intros (ws & H & ->). revert ws H. induction rs as [|l rs IH]; intros ws H; inversion H as [|? w' ? ws' H1 H2]; subst; [reflexivity|].
  unfold zsum in *. cbn [map fold_right]. rewrite (IH ws' H2). rewrite winding_wn in H1. injection H1 as <-. reflexivity.
Qed.

Lemma sum_nonzero {X} (f : X -> Z) l : zsum (map f l) <> 0%Z -> exists x, In x l /\ f x <> 0%Z.
Proof.
  induction l as [|a l IH]; intros H; [exfalso; apply H; reflexivity|]. destruct (Z.eq_dec (f a) 0) as [E|E]; [|exists a; split; [now left|exact E]].
  destruct IH as (x & I & N); [|exists x; split; [now right|exact N]]. intros Q. apply H. unfold zsum in *. cbn [map fold_right]. rewrite E, Q. reflexivity.
Qed.

Lemma sum_signed {X} (k : Z) (f : X -> Z) l x : (forall x, In x l -> (0 <= k * f x)%Z) -> In x l -> (0 < k * f x)%Z -> zsum (map f l) <> 0%Z.
Proof.
  intros H I P Q. pose proof (zsum_In (fun x => k * f x)%Z l x H I) as L. rewrite zsum_scale, Q in L. lia.
Qed.

Lemma inside_iff p x : inside p x = true <-> wn p x <> 0%Z.
Proof. rewrite inside_wn, negb_true_iff. destruct (Z.eqb_spec (wn p x) 0); split; intros; congruence. Qed.

Lemma once_sign' o : once o = 1%Z \/ once o = (-1)%Z.
Proof. destruct o; cbn; auto. Qed.

Theorem overlap_region mk (p1 p2 : pline R) op idx eps boxes bs : makes_index mk ->
  index_of boxes idx -> length boxes = length (spec_segs (vtx p1) (is_closed p1)) ->
  valid_loop p1 -> valid_loop p2 -> 0 < eps -> clear_pline eps p1 -> clear_pline eps p2 -> passes_once p1 -> passes_once p2 ->
  find_intersects p1 p2 idx eps = Ret (bs, []) -> bs <> [] -> clean_crossing eps p1 p2 bs -> overlap p1 p2 ->
  exists r, polyline_boolean mk p1 p2 op idx eps = Ret r
  /\ forall x, ~ on_path p1 x -> ~ on_path p2 x -> (region (fun p y => inside p y = true) r x <-> operation op (inside p1 x = true) (inside p2 x = true)).
Proof.
  intros Mk Ix Lb V1 V2' He C1 C2 P1 P2 F Nb Cl Ov. pose proof (clear_ok _ _ C1) as ok1. pose proof (clear_ok _ _ C2) as ok2.
  destruct (loop_simple p1 ok1 V1 P1) as (o1 & S1 & _). destruct (loop_simple p2 ok2 V2' P2) as (o2 & S2 & No2 & _).
  destruct (region_edges mk p1 p2 op idx eps boxes bs o1 o2 Mk Ix Lb V1 V2' He C1 C2 S1 S2 F Nb Cl) as (r & E & (loops & Er) & L & Alone & W).
  exists r. split; [exact E|]. intros x X1 X2. pose proof (fun y O1 O2 => together_sum _ _ _ (W y O1 O2)) as Sm. clear W. set (rs := br_pos r ++ br_neg r) in *.
  assert (SG : once o2 <> 0%Z) by (destruct (once_sign' o2) as [->| ->]; lia).
  destruct (classic (op = BOr)) as [-> |NO].
  - destruct Ov as ((z & Z1 & Z2 & I1 & I2) & _). destruct (Alone eq_refl P1 P2) as (FF & HF).
    assert (EA : forall l, In l rs -> valid_loop (brp_pline l) /\ pline_ok (brp_pline l)
      /\ (forall v1 v2, In (v1, v2) (spec_segs (vtx (brp_pline l)) (is_closed (brp_pline l))) -> pos v1 <> pos v2)
      /\ forall q, on_path (brp_pline l) q -> edge p1 p2 (false, false) q).
    { intros l Il. destruct (L l Il) as (A1 & A2 & A3 & w & [<-|[]] & A4). auto. }
    assert (SM : forall y, ~ on_path p1 y -> ~ on_path p2 y -> zsum (map (fun l => wn (brp_pline l) y) rs) = if inside p1 y || inside p2 y then once o2 else 0%Z).
    { intros y O1 O2. rewrite (Sm y O1 O2). cbn [times_around]. destruct (inside p1 y), (inside p2 y); cbn [orb]; lia. }
    pose proof (once_sign' o2) as HS.
    pose proof (union_values p1 p2 ok1 ok2 V1 V2' P1 P2 rs (once o2) FF z HS EA SM HF Z1 Z2 I1 I2) as UV.
    pose proof (union_level p1 p2 ok1 ok2 V1 V2' P1 P2 rs (once o2) FF z HS EA SM HF Z1 Z2 I1 I2) as UL.
    pose proof (union_turn p1 p2 ok1 ok2 V1 V2' P1 P2 rs (once o2) FF z HS EA SM HF Z1 Z2 I1 I2) as UT.
    pose proof (in_union p1 p2 ok1 ok2 V1 V2' P1 P2 rs z EA Z1 Z2 I1 I2) as IU.
    assert (OX : forall l, In l rs -> ~ on_path (brp_pline l) x).
    { intros l Il On. destruct (EA l Il) as (_ & _ & _ & A4). destruct (A4 x On) as ([N|N] & _); contradiction. }
    assert (Pos : forall l, In l (br_pos r) -> wn (brp_pline l) z = once o2).
    { intros l Il. assert (Ir : In l rs) by (apply in_or_app; now left). destruct (UT l Ir) as (o & Eo & No & Ho). destruct (UL l Ir) as [Q|Q]; [|exact Q]. exfalso.
      rewrite Er in Il. cbn [br_pos sorted_out] in Il. apply filter_In in Il as (_ & Hl). rewrite Eo in Hl. rewrite Q in Ho. cbn in Ho.
      destruct o, o2; cbn in *; try discriminate; try congruence; lia. }
    assert (Neg : forall l, In l (br_neg r) -> wn (brp_pline l) z = 0%Z).
    { intros l Il. assert (Ir : In l rs) by (apply in_or_app; now right). destruct (UT l Ir) as (o & Eo & No & Ho). destruct (UL l Ir) as [Q|Q]; [exact Q|]. exfalso.
      rewrite Er in Il. cbn [br_neg sorted_out] in Il. apply filter_In in Il as (_ & Hl). rewrite Eo in Hl. rewrite Q in Ho.
      destruct (Z.eqb_spec (once o2) 0); [contradiction|]. destruct o, o2; cbn in *; try discriminate; try congruence; lia. }
    unfold region. cbn [operation]. split.
    + intros ((a & Ia & Na) & Nn). destruct (inside p1 x || inside p2 x) eqn:IX; [now apply orb_true_iff|]. exfalso. apply inside_iff in Na.
      pose proof (SM x X1 X2) as Sx. rewrite IX in Sx. unfold rs in Sx. rewrite map_app, zsum_app in Sx.
      assert (Zn : zsum (map (fun l => wn (brp_pline l) x) (br_neg r)) = 0%Z).
      { destruct (Z.eq_dec (zsum (map (fun l => wn (brp_pline l) x) (br_neg r))) 0) as [Q|Q]; [exact Q|]. exfalso. apply sum_nonzero in Q as (l & Il & Nl). apply Nn. exists l. split; [exact Il|]. now apply inside_iff. }
      rewrite Zn, Z.add_0_r in Sx. revert Sx. apply (sum_signed (once o2) (fun l => wn (brp_pline l) x) (br_pos r) a); auto.
      * intros l Il. destruct (UV l x ltac:(apply in_or_app; now left) (OX l ltac:(apply in_or_app; now left))) as [Q|Q]; rewrite Q, (Pos l Il); [destruct HS as [->| ->]; lia|rewrite Z.sub_diag; lia].
      * destruct (UV a x ltac:(apply in_or_app; now left) (OX a ltac:(apply in_or_app; now left))) as [Q|Q]; rewrite Q, (Pos a Ia) in *; [destruct HS as [->| ->]; lia|lia].
    + intros IX. apply orb_true_iff in IX. split.
      * pose proof (SM z Z1 Z2) as Sz. rewrite I1 in Sz. cbn [orb] in Sz. unfold rs in Sz. rewrite map_app, zsum_app in Sz.
        assert (Zn : zsum (map (fun l => wn (brp_pline l) z) (br_neg r)) = 0%Z).
        { destruct (Z.eq_dec (zsum (map (fun l => wn (brp_pline l) z) (br_neg r))) 0) as [Q|Q]; [exact Q|]. exfalso. apply sum_nonzero in Q as (l & Il & Nl). apply Nl. now apply Neg. }
        rewrite Zn, Z.add_0_r in Sz. destruct (sum_nonzero (fun l => wn (brp_pline l) z) (br_pos r)) as (a & Ia & Na); [rewrite Sz; exact SG|].
        exists a. split; [exact Ia|]. apply inside_iff. assert (Ir : In a rs) by (apply in_or_app; now left). rewrite (IU a x Ir X1 X2 IX). exact Na.
      * intros (l & Il & Nl). apply inside_iff in Nl. apply Nl. assert (Ir : In l rs) by (apply in_or_app; now right). rewrite (IU l x Ir X1 X2 IX). now apply Neg.
  - assert (BN : br_neg r = []).
    { rewrite Er. destruct op; try contradiction; cbn [br_neg sorted_out]; clear; induction loops as [|l m IH]; auto. }
    assert (RS : rs = br_pos r) by (unfold rs; now rewrite BN, app_nil_r).
    unfold region. rewrite BN. split.
    + intros ((a & Ia & Na) & _). rewrite <- RS in Ia. apply inside_iff in Na. destruct (L a Ia) as (A1 & A2 & _ & w & Iw & A4).
      destruct (winds_within p1 p2 ok1 ok2 V1 V2' P1 P2 w op (brp_pline a) x Ov Iw NO A2 A1 A4 X1 X2 Na) as (Q2 & Q1).
      rewrite Q1, Q2. destruct op; cbn in Iw |- *; try contradiction; [destruct Iw as [<-|[]]|destruct Iw as [<-|[]]|destruct Iw as [<-|[<-|[]]]]; cbn; intuition discriminate.
    + intros O. split; [|intros (l & [] & _)]. rewrite <- RS. destruct (sum_nonzero (fun l => wn (brp_pline l) x) rs) as (a & Ia & Na).
      * rewrite (Sm x X1 X2). assert (T : times_around op (inside p1 x) (inside p2 x) <> 0%Z); [|destruct (once_sign' o2) as [->| ->]; lia].
        destruct op; try contradiction; destruct (inside p1 x), (inside p2 x); cbn in O |- *; try discriminate; exfalso; intuition discriminate.
      * exists a. split; [exact Ia|]. now apply inside_iff.
Qed.
