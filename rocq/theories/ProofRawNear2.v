(** The path drawn by joining raw offset lines stays near (C48): one join. *)
From Coq Require Import Reals ZArith Bool List Arith Lra Lia Psatz.
From Verif Require Import Num RNum Res ModelMath ModelIntr ModelSeg ModelPline ModelOffset.
From Verif Require Import Spec SpecGeom SpecIntr SpecBox SpecOffset SpecOffsetJoin SpecRawNear.
From Verif Require Import ProofR ProofBase ProofArc ProofIntr ProofSegIntr2 ProofSegIntr5 ProofOffsetJoin ProofOffsetJoin2 ProofOffsetJoin3 ProofOffsetJoin4 ProofRawNear.
Import ListNotations.
Local Open Scope R_scope.

Lemma arc_exists p1 p2 b : b <> 0 -> exists c r a, is_arc p1 p2 b c r a.
Proof.
  intros Hb. destruct (Req_dec (vx p1) (vx p2)) as [Ex|Nx]; [destruct (Req_dec (vy p1) (vy p2)) as [Ey|Ny]|].
  - assert (E : p1 = p2) by (apply vec2_eq; assumption). subst p2. exists p1, 0, 0. split; [lra|].
    unfold circle_pt. split; apply vec2_eq; cbn [vx vy]; ring.
  - assert (N : p1 <> p2) by (intros ->; contradiction). do 3 eexists. exact (computed_is_arc p1 p2 b N Hb).
  - assert (N : p1 <> p2) by (intros ->; contradiction). do 3 eexists. exact (computed_is_arc p1 p2 b N Hb).
Qed.

Lemma line_moves p1 p2 p1' p2' s : 0 <= s <= 1 -> dist (line_pt p1' p2' s) (line_pt p1 p2 s) <= (1 - s) * dist p1' p1 + s * dist p2' p2.
Proof.
  intros Hs. apply Rle_trans with (dist (line_pt p1' p2' s) (line_pt p1 p2' s) + dist (line_pt p1 p2' s) (line_pt p1 p2 s)); [apply dist_triangle|].
  apply Rplus_le_compat; right.
  - apply dist_eq_sqr; [apply Rmult_le_pos; [lra|apply dist_pos]|].
    replace ((1 - s) * dist p1' p1 * ((1 - s) * dist p1' p1)) with ((1 - s) * (1 - s) * (dist p1' p1 * dist p1' p1)) by ring. rewrite dist_sqr.
    unfold line_pt. cbn [vx vy]. ring.
  - apply dist_eq_sqr; [apply Rmult_le_pos; [lra|apply dist_pos]|].
    replace (s * dist p2' p2 * (s * dist p2' p2)) with (s * s * (dist p2' p2 * dist p2' p2)) by ring. rewrite dist_sqr.
    unfold line_pt. cbn [vx vy]. ring.
Qed.

Lemma seg_moves_start v1 v1' v2 q' : pbulge v1' = pbulge v1 -> Rabs (pbulge v1) <= 1 -> on_seg v1' v2 q' ->
  exists q, on_seg v1 v2 q /\ dist q' q <= dist (pos v1') (pos v1).
Proof.
  intros EB H1 (s & Hs & [[Z ->]|(Z & c' & r' & a' & HA' & ->)]).
  - exists (line_pt (pos v1) (pos v2) s). split.
    + exists s. split; [exact Hs|]. left. split; [congruence|reflexivity].
    + eapply Rle_trans; [apply line_moves; exact Hs|]. rewrite dist_self. pose proof (dist_pos (pos v1') (pos v1)). nra.
  - rewrite EB in Z, HA' |- *. destruct (arc_exists (pos v1) (pos v2) (pbulge v1) Z) as (c & r & a & HA).
    exists (circle_pt c r (a + s * sweep (pbulge v1))). split.
    + exists s. split; [exact Hs|]. right. split; [exact Z|]. exists c, r, a. split; [exact HA|reflexivity].
    + apply (arc_moves' (pos v1') (pos v2) (pos v1) (pbulge v1)); assumption.
Qed.

Lemma seg_moves_end v1 v2 v2' q' : Rabs (pbulge v1) <= 1 -> on_seg v1 v2' q' ->
  exists q, on_seg v1 v2 q /\ dist q' q <= dist (pos v2') (pos v2).
Proof.
  intros H1 (s & Hs & [[Z ->]|(Z & c' & r' & a' & HA' & ->)]).
  - exists (line_pt (pos v1) (pos v2) s). split.
    + exists s. split; [exact Hs|]. left. split; [exact Z|reflexivity].
    + eapply Rle_trans; [apply line_moves; exact Hs|]. rewrite dist_self. pose proof (dist_pos (pos v2') (pos v2)). nra.
  - destruct (arc_exists (pos v1) (pos v2) (pbulge v1) Z) as (c & r & a & HA).
    exists (circle_pt c r (a + s * sweep (pbulge v1))). split.
    + exists s. split; [exact Hs|]. right. split; [exact Z|]. exists c, r, a. split; [exact HA|reflexivity].
    + apply (arc_moves (pos v1) (pos v2') (pos v2) (pbulge v1)); assumption.
Qed.

Lemma point_near a b eps : 0 < eps -> is_point a b eps -> dist a b <= 3 / 2 * eps.
Proof.
  intros He [Hx Hy]. apply Rsqr_incr_0_var; [|lra]. unfold Rsqr. rewrite dist_sqr.
  apply Rabs_def2 in Hx, Hy. nra.
Qed.

(** Neighbours in a list are related. *)
Fixpoint chain {A} (Q : A -> A -> Prop) (l : list A) : Prop :=
  match l with a :: ((b :: _) as t) => Q a b /\ chain Q t | _ => True end.

Lemma chain_snoc {A} (Q : A -> A -> Prop) l a b : chain Q (l ++ [a; b]) <-> chain Q (l ++ [a]) /\ Q a b.
Proof.
  induction l as [|x l IH]; [cbn; tauto|]. destruct l as [|y l]; [cbn; tauto|].
  change ((x :: y :: l) ++ [a; b]) with (x :: (y :: l) ++ [a; b]). change ((x :: y :: l) ++ [a]) with (x :: (y :: l) ++ [a]).
  change (chain Q (x :: (y :: l) ++ [a; b])) with (Q x y /\ chain Q ((y :: l) ++ [a; b])).
  change (chain Q (x :: (y :: l) ++ [a])) with (Q x y /\ chain Q ((y :: l) ++ [a])). tauto.
Qed.

Lemma chain_tail {A} (Q : A -> A -> Prop) a l : chain Q (a :: l) -> chain Q l.
Proof. destruct l; [trivial|intros [_ H]; exact H]. Qed.

Lemma chain_weaken {A} (Q Q' : A -> A -> Prop) l : (forall a b, Q a b -> Q' a b) -> chain Q l -> chain Q' l.
Proof. intros W. induction l as [|x [|y l] IH]; intros H; [exact I|exact I|]. destruct H as [H1 H2]. split; [now apply W|]. now apply IH. Qed.

Lemma chain_In {A} (Q : A -> A -> Prop) l a b : chain Q l -> In (a, b) (combine l (tl l)) -> Q a b.
Proof.
  induction l as [|x [|y l] IH]; intros H HI; [destruct HI|destruct HI|]. destruct H as [H1 H2].
  cbn [tl combine] in HI. destruct HI as [E|HI]; [injection E as <- <-; exact H1|]. apply IH; [exact H2|exact HI].
Qed.

Section Near.
Variables (P : pline R) (d eps : R).
Hypotheses (He : 0 < eps).

Definition sn (D : R) (a b : vertex R) : Prop := forall q, on_seg a b q -> near_path P D q.

Lemma near_le D D' q : D <= D' -> near_path P D q -> near_path P D' q.
Proof. intros L (y & Hy & Hd). exists y. split; [exact Hy|lra]. Qed.

Lemma near_move D q q' k : near_path P D q -> dist q' q <= k -> near_path P (D + k) q'.
Proof. intros (y & Hy & Hd) L. exists y. split; [exact Hy|]. pose proof (dist_triangle q' y q). lra. Qed.

Lemma sn_le D D' a b : D <= D' -> sn D a b -> sn D' a b.
Proof. intros L H q Hq. apply near_le with D; [exact L|now apply H]. Qed.

Lemma sn_start D a a' b k : pbulge a' = pbulge a -> Rabs (pbulge a) <= 1 -> dist (pos a') (pos a) <= k -> sn D a b -> sn (D + k) a' b.
Proof.
  intros EB H1 Hk H q' Hq'. destruct (seg_moves_start a a' b q' EB H1 Hq') as (q & Hq & L).
  apply near_move with q; [now apply H|lra].
Qed.

Lemma sn_end D a b b' k : Rabs (pbulge a) <= 1 -> dist (pos b') (pos b) <= k -> sn D a b -> sn (D + k) a b'.
Proof.
  intros H1 Hk H q' Hq'. destruct (seg_moves_end a b b' q' H1 Hq') as (q & Hq & L).
  apply near_move with q; [now apply H|lra].
Qed.

Lemma on_seg_pos a a' b b' q : pos a' = pos a -> pbulge a' = pbulge a -> pos b' = pos b -> on_seg a' b' q -> on_seg a b q.
Proof. intros E1 E2 E3 (s & Hs & H). exists s. split; [exact Hs|]. unfold seg_at in *. rewrite E1, E2, E3 in H. exact H. Qed.

Lemma sn_pos D a a' b b' : pos a' = pos a -> pbulge a' = pbulge a -> pos b' = pos b -> sn D a b -> sn D a' b'.
Proof. intros E1 E2 E3 H q Hq. apply H. eapply on_seg_pos; eassumption. Qed.

(** The offset of the segment from [p] to [q], extended a little at both ends. *)
Definition ext (p q n : vec2 R) (z : vec2 R) : Prop :=
  exists t, z = line_pt (moved p n d) (moved q n d) t /\ - eps <= t * dist p q <= dist p q + eps.

(** The segment from [p] to [q] is in the path. *)
Definition in_path (p q : vec2 R) : Prop := forall s, 0 <= s <= 1 -> on_path P (line_pt p q s).

Lemma ext_near p q n z : p <> q -> in_path p q -> left_normal p q n -> ext p q n z -> near_path P (Rabs d + eps) z.
Proof.
  intros Hpq HP (N1 & _) (t & -> & Ht).
  assert (DL : 0 < dist p q). { destruct (Rle_lt_or_eq_dec _ _ (dist_pos p q)) as [|E]; [assumption|]. exfalso. destruct (unit_of p q Hpq) as (e & L & HL & _ & _ & _ & EL & _). lra. }
  set (s := Rmax 0 (Rmin t 1)).
  assert (Hs : 0 <= s <= 1). { unfold s. split; [apply Rmax_l|]. apply Rmax_lub; [lra|apply Rmin_r]. }
  assert (HD : Rabs (t - s) * dist p q <= eps).
  { unfold s, Rmax, Rmin. destruct (Rle_dec t 1) as [L|L].
    - destruct (Rle_dec 0 t) as [L'|L'].
      + replace (t - t) with 0 by ring. rewrite Rabs_R0. lra.
      + rewrite Rminus_0_r, Rabs_left by lra. lra.
    - destruct (Rle_dec 0 1); [|lra]. rewrite Rabs_right by lra. nra. }
  exists (line_pt p q s). split; [now apply HP|].
  apply Rle_trans with (dist (line_pt (moved p n d) (moved q n d) t) (line_pt p q t) + dist (line_pt p q t) (line_pt p q s)); [eapply Rle_trans; [apply dist_triangle|apply Rle_refl]|].
  assert (E1 : dist (line_pt (moved p n d) (moved q n d) t) (line_pt p q t) = Rabs d).
  { apply dist_eq_sqr; [apply Rabs_pos|]. rewrite <- Rabs_mult, Rabs_pos_eq by nra. unfold line_pt, moved. cbn [vx vy].
    transitivity (d * d * (vx n * vx n + vy n * vy n)); [ring|rewrite N1; ring]. }
  assert (E2 : dist (line_pt p q t) (line_pt p q s) = Rabs (t - s) * dist p q).
  { apply dist_eq_sqr; [apply Rmult_le_pos; [apply Rabs_pos|apply dist_pos]|].
    replace (Rabs (t - s) * dist p q * (Rabs (t - s) * dist p q)) with (Rabs (t - s) * Rabs (t - s) * (dist p q * dist p q)) by ring.
    rewrite <- Rabs_mult, (Rabs_pos_eq ((t - s) * (t - s))) by exact (Rle_0_sqr (t - s)). rewrite dist_sqr. unfold line_pt. cbn [vx vy]. ring. }
  rewrite E1, E2. lra.
Qed.

Lemma ext_convex p q n y z s : ext p q n y -> ext p q n z -> 0 <= s <= 1 -> ext p q n (line_pt y z s).
Proof.
  intros (t & -> & Ht) (u & -> & Hu) Hs. exists (t + s * (u - t)). split.
  - unfold line_pt. cbn [vx vy]. apply vec2_eq; cbn [vx vy]; ring.
  - replace ((t + s * (u - t)) * dist p q) with ((1 - s) * (t * dist p q) + s * (u * dist p q)) by ring.
    split; nra.
Qed.

Lemma ext_ends p q n : ext p q n (moved p n d) /\ ext p q n (moved q n d).
Proof.
  pose proof (dist_pos p q). split; [exists 0|exists 1]; (split; [unfold line_pt; apply vec2_eq; cbn [vx vy]; ring|lra]).
Qed.

(** A line drawn from near the extended offset of a segment to near it. *)
Lemma ext_line p q n a b y z k : p <> q -> in_path p q -> left_normal p q n -> pbulge a = 0 -> ext p q n y -> ext p q n z ->
  dist (pos a) y <= k -> dist (pos b) z <= k -> sn (Rabs d + eps + k) a b.
Proof.
  intros Hpq HP HN Z Hy Hz Dy Dz x (s & Hs & [[_ ->]|[N _]]); [|contradiction].
  apply near_move with (line_pt y z s); [apply (ext_near p q n); auto; now apply ext_convex|].
  eapply Rle_trans; [apply line_moves; exact Hs|]. nra.
Qed.

(** What a join does: a vertex at a common point of the extended offsets, or the connection of the end of
    one to the start of the next by a curve within the offset of the corner. *)
Definition joins (p q n : vec2 R) (q' r n' : vec2 R) (vs vs' : list (vertex R)) : Prop :=
  (exists x, ext p q n x /\ ext q' r n' x /\ put eps vs (vertex_at x 0) vs')
  \/ (exists b, Rabs b <= 1 /\ sn (Rabs d) (vertex_at (moved q n d) b) (vertex_at (moved q' n' d) 0)
      /\ put2 eps vs (vertex_at (moved q n d) b) (vertex_at (moved q' n' d) 0) vs').

Lemma put_app pre vs v vs' : vs <> [] -> put eps vs v vs' -> put eps (pre ++ vs) v (pre ++ vs').
Proof.
  intros N [(l & w & -> & H & ->)|(H & ->)].
  - left. exists (pre ++ l), w. rewrite !app_assoc. auto.
  - right. split; [|now rewrite app_assoc]. intros l w E.
    destruct (exists_last N) as (l' & w' & ->). rewrite app_assoc in E. apply app_inj_tail in E as [_ <-]. now apply (H l').
Qed.

Lemma put_nonempty vs v vs' : put eps vs v vs' -> vs' <> [].
Proof. intros [(l & w & _ & _ & ->)|(_ & ->)] E; apply app_eq_nil in E as [_ E]; discriminate. Qed.

Lemma joins_app p q n q' r n' pre vs vs' : vs <> [] -> joins p q n q' r n' vs vs' -> joins p q n q' r n' (pre ++ vs) (pre ++ vs').
Proof.
  intros N [(x & H1 & H2 & H3)|(b & H1 & H2 & (m & H3 & H4))].
  - left. exists x. split; [exact H1|]. split; [exact H2|]. now apply put_app.
  - right. exists b. split; [exact H1|]. split; [exact H2|]. exists (pre ++ m). split; [now apply put_app|]. apply put_app; [now apply put_nonempty in H3|exact H4].
Qed.

(** [vs'] continues [vs]: all but the bulge of the last vertex is kept. *)
Definition grows (vs vs' : list (vertex R)) : Prop :=
  exists pre w w' t, vs = pre ++ [w] /\ vs' = pre ++ w' :: t /\ pos w' = pos w.

Lemma grows_refl vs : vs <> [] -> grows vs vs.
Proof. intros N. destruct (exists_last N) as (l & w & ->). exists l, w, w, []. auto. Qed.

Lemma grows_trans a b c : grows a b -> grows b c -> grows a c.
Proof.
  intros (p & w & w' & t & -> & -> & E) (p2 & x & x' & t2 & E2 & -> & E3).
  destruct t as [|y t] using rev_ind.
  - apply app_inj_tail in E2 as [-> <-]. exists p2, w, x', t2. split; [reflexivity|]. split; [reflexivity|congruence].
  - clear IHt. replace (p ++ w' :: t ++ [y]) with ((p ++ w' :: t) ++ [y]) in E2 by (rewrite <- app_assoc; reflexivity).
    apply app_inj_tail in E2 as [<- _]. exists p, w, w', (t ++ x' :: t2). split; [reflexivity|]. split; [|exact E].
    rewrite <- app_assoc. reflexivity.
Qed.

Lemma put_grows vs v vs' : vs <> [] -> put eps vs v vs' -> grows vs vs'.
Proof.
  intros N [(l & w & -> & _ & ->)|(_ & ->)].
  - exists l, w, (Vtx (px w) (py w) (pbulge v)), []. auto.
  - destruct (exists_last N) as (l & w & ->). exists l, w, w, [v]. rewrite <- app_assoc. auto.
Qed.

Lemma joins_grows p q n q' r n' vs vs' : vs <> [] -> joins p q n q' r n' vs vs' -> grows vs vs'.
Proof.
  intros N [(x & _ & _ & H)|(b & _ & _ & (m & H1 & H2))]; [now apply put_grows with (vertex_at x 0)|].
  apply grows_trans with m; [now apply put_grows in H1|]. apply put_grows in H2; [exact H2|now apply put_nonempty in H1].
Qed.

Definition D0 : R := Rabs d + 5 / 2 * eps.

(** The state before drawing the next segment, from [p] to [q]. *)
Definition ready (p q n : vec2 R) (vs : list (vertex R)) : Prop :=
  exists pre w z, vs = pre ++ [w] /\ pbulge w = 0 /\ ext p q n z /\ dist (pos w) z <= 3 / 2 * eps
  /\ chain (sn D0) vs /\ Forall (fun v => Rabs (pbulge v) <= 1) vs.

Lemma chain_last_bulge pre w b D : chain (sn D) (pre ++ [w]) -> chain (sn D) (pre ++ [Vtx (px w) (py w) b]).
Proof.
  destruct pre as [|a pre] using rev_ind; [trivial|]. clear IHpre. rewrite <- !app_assoc. cbn [app]. rewrite !chain_snoc. intros [H1 H2].
  split; [exact H1|]. eapply sn_pos; [| | |exact H2]; reflexivity.
Qed.

Lemma put_step p q n vs v vs' : p <> q -> in_path p q -> left_normal p q n -> ready p q n vs -> ext p q n (pos v) -> Rabs (pbulge v) <= 1 -> put eps vs v vs' ->
  exists pre w, vs' = pre ++ [w] /\ pbulge w = pbulge v /\ dist (pos w) (pos v) <= 3 / 2 * eps
  /\ chain (sn D0) vs' /\ Forall (fun v => Rabs (pbulge v) <= 1) vs'.
Proof.
  intros Hpq HP HN (pre & w & z & -> & Z & Hz & Dz & HC & HF) Hv Hb [(l & x & E & HI & ->)|(HI & ->)].
  - apply app_inj_tail in E as [<- <-]. exists pre, (Vtx (px w) (py w) (pbulge v)). split; [reflexivity|]. split; [reflexivity|].
    split; [exact (point_near (pos w) (pos v) eps He HI)|]. split; [now apply chain_last_bulge|].
    apply Forall_app in HF as [HF _]. apply Forall_app. split; [exact HF|]. constructor; [exact Hb|constructor].
  - exists (pre ++ [w]), v. split; [reflexivity|]. split; [reflexivity|]. split; [rewrite dist_self; lra|]. split.
    + rewrite <- app_assoc. cbn [app]. apply chain_snoc. split; [exact HC|]. unfold D0. replace (Rabs d + 5 / 2 * eps) with (Rabs d + eps + 3 / 2 * eps) by lra.
      apply (ext_line p q n w v z (pos v)); auto. rewrite dist_self. lra.
    + apply Forall_app. split; [exact HF|]. constructor; [exact Hb|constructor].
Qed.

Lemma joins_step p q n q' r n' vs vs' : p <> q -> in_path p q -> left_normal p q n -> ready p q n vs -> joins p q n q' r n' vs vs' -> ready q' r n' vs'.
Proof.
  intros Hpq HP HN HR [(x & H1 & H2 & H3)|(b & H1 & H2 & (m & H3 & H4))].
  - assert (EX : ext p q n (pos (vertex_at x 0))) by now rewrite pos_vertex_at.
    destruct (put_step p q n vs (vertex_at x 0) vs' Hpq HP HN HR EX) as (pre & w & E & Bw & Dw & HC & HF); [|exact H3|].
    { cbn. rewrite Rabs_R0. lra. }
    exists pre, w, x. rewrite pos_vertex_at in Dw. auto 10.
  - set (v := vertex_at (moved q n d) b) in *. set (u := vertex_at (moved q' n' d) 0) in *.
    assert (EX : ext p q n (pos v)) by (unfold v; rewrite pos_vertex_at; apply ext_ends).
    destruct (put_step p q n vs v m Hpq HP HN HR EX H1 H3) as (pre & w & E & Bw & Dw & HC & HF).
    assert (EU : ext q' r n' (pos u)) by (unfold u; rewrite pos_vertex_at; apply ext_ends).
    destruct H4 as [(l & y & E' & HI & ->)|(HI & ->)].
    + rewrite E in E'. apply app_inj_tail in E' as [<- <-]. exists pre, (Vtx (px w) (py w) (pbulge u)), (pos u).
      split; [reflexivity|]. split; [reflexivity|]. split; [exact EU|]. split; [exact (point_near (pos w) (pos u) eps He HI)|].
      rewrite E in HC, HF. split; [now apply chain_last_bulge|]. apply Forall_app in HF as [HF _]. apply Forall_app. split; [exact HF|].
      constructor; [cbn; rewrite Rabs_R0; lra|constructor].
    + exists m, u, (pos u). split; [reflexivity|]. split; [reflexivity|]. split; [exact EU|]. split; [rewrite dist_self; lra|]. split.
      * rewrite E in HC |- *. rewrite <- app_assoc. cbn [app]. apply chain_snoc. split; [exact HC|].
        unfold D0. apply sn_le with (Rabs d + 3 / 2 * eps); [lra|]. apply (sn_start _ v w u); [exact Bw|exact H1|exact Dw|exact H2].
      * apply Forall_app. split; [exact HF|]. constructor; [cbn; rewrite Rabs_R0; lra|constructor].
Qed.

Lemma mitre_val p q r n1 n2 x : eps <= Rabs (cross (vec p q) (vec q r)) -> left_normal p q n1 -> left_normal q r n2 -> mitre p q r n1 n2 d x ->
  exists g, x = line_pt (moved p n1 d) (moved q n1 d) (1 - g / dist p q) /\ x = line_pt (moved q n2 d) (moved r n2 d) (g / dist q r)
  /\ (d * cross (vec p q) (vec q r) < 0 -> g < 0) /\ (0 < d * cross (vec p q) (vec q r) -> 0 < g)
  /\ dist (moved q n1 d) x = Rabs g /\ dist (moved q n2 d) x = Rabs g /\ 0 < dist p q /\ 0 < dist q r.
Proof.
  intros Hc N1 N2 ((s & Es) & (t & Et)).
  assert (Npq : p <> q). { intros ->. revert Hc. unfold cross, vec. cbn [vx vy]. replace (_ - _) with 0 by ring. rewrite Rabs_R0. lra. }
  assert (Nqr : q <> r). { intros ->. revert Hc. unfold cross, vec. cbn [vx vy]. replace (_ - _) with 0 by ring. rewrite Rabs_R0. lra. }
  assert (Hc' : eps <= Rabs (cross (vec (moved p n1 d) (moved q n1 d)) (vec (moved q n2 d) (moved r n2 d)))).
  { replace (cross _ _) with (cross (vec p q) (vec q r)); [exact Hc|]. unfold cross, vec, moved. cbn [vx vy]. ring. }
  destruct (unit_of p q Npq) as (e1 & L1 & HL1 & U1 & Eq & Ep & D1 & M1). destruct (unit_of q r Nqr) as (e2 & L2 & HL2 & U2 & Er & _ & D2 & M2).
  pose proof (M1 n1 N1) as Z1. pose proof (M2 n2 N2) as Z2. clear M1 M2.
  assert (EC : cross (vec p q) (vec q r) = L1 * L2 * cross e1 e2).
  { rewrite Ep, Er. unfold cross, vec. cbn [vx vy]. ring. }
  rewrite <- D1, <- D2, EC. rewrite EC in Hc.
  assert (HLL : 0 < L1 * L2) by nra.
  assert (HS : cross e1 e2 <> 0). { intros E. rewrite E, Rmult_0_r, Rabs_R0 in Hc. lra. }
  set (C := vx e1 * vx e2 + vy e1 * vy e2). set (g := d * cross e1 e2 / (1 + C)).
  set (x0 := V2 (vx q + d * (vx n1 + vx n2) / (1 + C)) (vy q + d * (vy n1 + vy n2) / (1 + C))).
  assert (HC : 0 < 1 + C) by (apply (corner_C e1 e2); assumption).
  assert (X1 : x0 = line_pt (moved p n1 d) (moved q n1 d) (1 - g / L1)).
  { unfold x0. rewrite Z1, Z2, Ep. exact (mitre_on1 e1 e2 q L1 d U1 U2 HL1 HS). }
  assert (X2 : x0 = line_pt (moved q n2 d) (moved r n2 d) (g / L2)).
  { unfold x0. rewrite Z1, Z2, Er. exact (mitre_on2 e1 e2 q L2 d U1 U2 HL2 HS). }
  destruct (mitre_dist e1 e2 q d U1 U2 HS) as [DX1 DX2].
  assert (EX : x = x0).
  { destruct (line_line_nonparallel _ _ _ _ eps He Hc') as (s0 & t0 & _ & Ust & _).
    destruct (Ust s t) as [A1 _]; [congruence|]. destruct (Ust (1 - g / L1) (g / L2)) as [B1 _]; [congruence|]. rewrite Es, X1. congruence. }
  rewrite EX. exists g. split; [exact X1|]. split; [exact X2|].
  assert (EG : d * (L1 * L2 * cross e1 e2) = (L1 * L2 * (1 + C)) * g) by (unfold g; field; lra).
  assert (0 < L1 * L2 * (1 + C)) by nra.
  split; [intros; nra|]. split; [intros; nra|].
  split; [rewrite dist_sym; unfold x0; rewrite Z1, Z2; exact DX1|]. split; [rewrite dist_sym; unfold x0; rewrite Z1, Z2; exact DX2|]. split; assumption.
Qed.

(** The raw offset segment [s] is that of the line [g] of the path. *)
Definition raw_of (g : vertex R * vertex R) (s : raw_seg R) : Prop :=
  exists n, line_raw s (pos (fst g)) (pos (snd g)) n d.

Lemma within_corner q a b : on_path P q -> (forall x, on_seg a b x -> dist x q <= Rabs d) -> sn (Rabs d) a b.
Proof. intros H K x Hx. exists q. split; [exact H|now apply K]. Qed.

Lemma join_joins ccw s s' p q r n n' pl : d <> 0 -> (ccw = true <-> d < 0) -> ~ is_point p q eps -> ~ is_point q r eps -> on_path P q ->
  clear_corner d eps p q r -> line_raw s p q n d -> line_raw s' q r n' d ->
  exists pl', join_seg_pair ccw eps pl (s, s') = Ret pl' /\ is_closed pl' = is_closed pl /\ joins p q n q r n' (vtx pl) (vtx pl').
Proof.
  intros Hd Hccw Npq Nqr HQ HC R1 R2. pose proof R1 as (N1 & _). pose proof R2 as (N2 & _).
  assert (M : forall m, vx m * vx m + vy m * vy m = 1 -> dist (moved q m d) q = Rabs d).
  { intros m Hm. apply dist_eq_sqr; [apply Rabs_pos|]. rewrite <- Rabs_mult, Rabs_pos_eq by nra. unfold moved. cbn [vx vy].
    transitivity (d * d * (vx m * vx m + vy m * vy m)); [ring|rewrite Hm; ring]. }
  assert (M1 : dist (moved q n d) q = Rabs d) by apply M, N1. assert (M2 : dist (moved q n' d) q = Rabs d) by apply M, N2.
  assert (SL : sn (Rabs d) (vertex_at (moved q n d) 0) (vertex_at (moved q n' d) 0)).
  { apply within_corner with q; [exact HQ|]. intros x (s0 & Hs & [[_ ->]|[Z _]]); [|now destruct Z]. rewrite !pos_vertex_at.
    assert (E : q = line_pt q q s0) by (unfold line_pt; apply vec2_eq; cbn [vx vy]; ring). rewrite E at 3.
    eapply Rle_trans; [apply line_moves; exact Hs|]. rewrite M1, M2. lra. }
  assert (SA : forall b a, is_arc (moved q n d) (moved q n' d) b q (Rabs d) a -> sn (Rabs d) (vertex_at (moved q n d) b) (vertex_at (moved q n' d) 0)).
  { intros b a HA. apply within_corner with q; [exact HQ|]. destruct (Req_dec b 0) as [->|Zb].
    - intros x Hx. assert (Hx' : on_seg (vertex_at (moved q n d) 0) (vertex_at (moved q n' d) 0) x) by exact Hx. destruct Hx' as (s0 & Hs & [[_ ->]|[Z _]]); [|now destruct Z]. rewrite !pos_vertex_at.
      assert (E : q = line_pt q q s0) by (unfold line_pt; apply vec2_eq; cbn [vx vy]; ring). rewrite E at 3.
      eapply Rle_trans; [apply line_moves; exact Hs|]. rewrite M1, M2. lra.
    - intros x (s0 & Hs & [[Z _]|(_ & c & r0 & a' & HA' & ->)]); [contradiction|].
      rewrite !pos_vertex_at in HA'. cbn [vertex_at pbulge] in HA' |- *.
      destruct (arc_unique _ _ _ _ _ _ Zb HA) as [C1 R1']. destruct (arc_unique _ _ _ _ _ _ Zb HA') as [C2 R2'].
      assert (EC : c = q) by congruence. assert (ER : r0 = Rabs d) by congruence. rewrite EC, ER. right.
      apply dist_eq_sqr; [apply Rabs_pos|]. unfold circle_pt. cbn [vx vy]. set (al := a' + s0 * sweep b).
      pose proof (sin2_cos2 al) as SC. unfold Rsqr in SC. transitivity (Rabs d * Rabs d * (sin al * sin al + cos al * cos al)); [ring|rewrite SC; ring]. }
  destruct HC as [HC|[[HC HL]|[HC HL]]].
  - destruct (line_corner s s' p q r n n' d ccw eps pl He Hd Hccw HC R1 R2) as (x & pl' & E & CL & MI & J1 & J2).
    exists pl'. split; [exact E|]. split; [exact CL|].
    assert (Hpq : p <> q). { intros ->. revert HC. unfold cross, vec. cbn [vx vy]. replace (_ - _) with 0 by ring. rewrite Rabs_R0. lra. }
    assert (Hqr : q <> r). { intros ->. revert HC. unfold cross, vec. cbn [vx vy]. replace (_ - _) with 0 by ring. rewrite Rabs_R0. lra. }
    assert (HX : (dist (moved q n d) x < eps /\ d * cross (vec p q) (vec q r) < 0) \/ (dist (moved q n d) x < dist p q + eps /\ dist (moved q n' d) x < dist q r + eps /\ 0 < d * cross (vec p q) (vec q r)) -> ext p q n x /\ ext q r n' x).
    { destruct (mitre_val p q r n n' x HC N1 N2 MI) as (g & X1 & X2 & G1 & G2 & DX1 & DX2 & P1 & P2). rewrite DX1, DX2. intros HX. split.
      - exists (1 - g / dist p q). split; [exact X1|]. replace ((1 - g / dist p q) * dist p q) with (dist p q - g) by (field; lra).
        destruct HX as [[K1 K2]|(K1 & K2 & K3)]; [pose proof (G1 K2); rewrite Rabs_left in K1 by lra|pose proof (G2 K3); rewrite Rabs_right in K1, K2 by lra]; lra.
      - exists (g / dist q r). split; [exact X2|]. replace (g / dist q r * dist q r) with g by (field; lra).
        destruct HX as [[K1 K2]|(K1 & K2 & K3)]; [pose proof (G1 K2); rewrite Rabs_left in K1 by lra|pose proof (G2 K3); rewrite Rabs_right in K1, K2 by lra]; lra. }
    destruct (Rtotal_order (d * cross (vec p q) (vec q r)) 0) as [L|[L|L]].
    + destruct (J1 L) as [[K1 K2]|(K1 & b & a & HA & Hb & K2)].
      * left. exists x. destruct HX as [X1 X2]; [left; split; assumption|]. auto.
      * right. exists b. split; [exact Hb|]. split; [exact (SA b a HA)|exact K2].
    + exfalso. apply Rmult_integral in L as [L|L]; [contradiction|]. rewrite L, Rabs_R0 in HC. lra.
    + destruct (J2 L) as [(K1 & K2 & K3)|(K1 & K2)].
      * left. exists x. destruct HX as [X1 X2]; [right; auto|]. auto.
      * right. exists 0. split; [rewrite Rabs_R0; lra|]. split; [exact SL|exact K2].
  - destruct (line_straight s s' p q r n n' d ccw eps pl He HL Nqr Npq HC R1 R2) as (EN & pl' & E & CL & K).
    exists pl'. split; [exact E|]. split; [exact CL|]. left. exists (moved q n d). split; [apply ext_ends|]. split; [|exact K]. subst n'. apply ext_ends.
  - destruct (line_back s s' p q r n n' d ccw eps pl He Hd Hccw HL HC R1 R2) as (b & a & pl' & E & CL & HA & Hb & _ & K).
    exists pl'. split; [exact E|]. split; [exact CL|]. right. exists b. split; [lra|]. split; [exact (SA b a HA)|exact K].
Qed.
End Near.
