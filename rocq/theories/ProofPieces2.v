(** What the offset of a shape of polygons encloses (C79). *)
From Coq Require Import Reals ZArith Bool List Arith Lra Lia Classical.
From Verif Require Import Num RNum Res ModelMath ModelSeg ModelPline ModelView ModelIndex ModelOffset ModelShape.
From Verif Require Import Spec SpecPline SpecGeom SpecWinding SpecOffset SpecOffsetJoin SpecIndex SpecBoolean SpecView SpecBox SpecPrune SpecPolyOff SpecJordan SpecConvex SpecRound SpecCurve SpecSimple SpecShape SpecRing SpecPieces.
From Verif Require Import ProofR ProofBase ProofArc ProofIndex2 ProofShape ProofShape6 ProofRing3 ProofOff7 ProofPieces.
From Verif Require ProofConvex ProofJordan5.
Import ListNotations.
Local Open Scope R_scope.

Section Loops.
Variables (s : shape R) (f : piece -> pline R) (l1 l2 : list piece).
Hypothesis E1 : map ip_pline (sh_ccw s) = map f l1.
Hypothesis E2 : map ip_pline (sh_cw s) = map f l2.

Lemma loop_map (ips : list (indexed_pline R)) l : map ip_pline ips = map f l -> (forall ip, In ip ips -> exists a, In a l /\ ip_pline ip = f a) /\ forall a, In a l -> exists ip, In ip ips /\ ip_pline ip = f a.
Proof.
  intros E. split; intros x I.
  - apply (in_map ip_pline) in I. rewrite E in I. apply in_map_iff in I as (a & Q & I). exists a. auto.
  - apply (in_map f) in I. rewrite <- E in I. apply in_map_iff in I as (ip & Q & I). exists ip. auto.
Qed.
Lemma loop_app : map ip_pline (sh_ccw s ++ sh_cw s) = map f (l1 ++ l2).
Proof. now rewrite !map_app, E1, E2. Qed.

Lemma in_pieces x : in_shape s x <-> (exists a, In a l1 /\ inside (f a) x = true) /\ forall h, In h l2 -> inside (f h) x = false.
Proof.
  destruct (loop_map _ _ E1) as (A1 & B1). destruct (loop_map _ _ E2) as (A2 & B2). split; intros ((i & I & X) & H); (split; [|intros h J]).
  - destruct (A1 i I) as (a & Ia & E). exists a. rewrite <- E. auto.
  - destruct (B2 h J) as (ip & Ip & <-). now apply H.
  - destruct (B1 i I) as (a & Ia & E). exists a. rewrite E. auto.
  - destruct (A2 h J) as (a & Ia & ->). now apply H.
Qed.
Lemma off_pieces x : off_shape s x <-> forall a, In a (l1 ++ l2) -> ~ on_path (f a) x.
Proof.
  destruct (loop_map _ _ loop_app) as (A & B). split; intros H a I.
  - destruct (B a I) as (ip & Ip & <-). now apply H.
  - destruct (A a I) as (b & Ib & ->). now apply H.
Qed.
Lemma on_pieces y : on_shape s y <-> exists a, In a (l1 ++ l2) /\ on_path (f a) y.
Proof.
  destruct (loop_map _ _ loop_app) as (A & B). split; intros (a & I & O).
  - destruct (A a I) as (b & Ib & E). exists b. rewrite <- E. auto.
  - destruct (B a I) as (ip & Ip & E). exists ip. rewrite E. auto.
Qed.
End Loops.

Section Region.
Variables (d : R) (o : shape_options R) (l1 l2 : list piece).
Local Notation eps := (so_pos_equal_eps o).
Local Notation l := (l1 ++ l2).
Hypothesis He : 0 < eps.
Hypothesis Hd : d <> 0.
Hypothesis F1 : Forall (fits eps d 1) l1.
Hypothesis F2 : Forall (fits eps d (-1)) l2.
Hypothesis KC : keep_clear eps d l.
Hypothesis WH : with_holes l1 l2.

Definition far a x := forall y, on_path (edge a) y -> Rabs d < dist x y.

(** The region of one piece. *)
Lemma piece_in k a x : In a l -> k = 1 \/ k = -1 -> fits eps d k a -> ~ on_path (moved_edge a) x -> 0 < k * d -> (inside (moved_edge a) x = true <-> inside (edge a) x = true /\ far a x).
Proof.
  intros I Hk (Po & (A & EA & SA) & MC & LP) O D.
  destruct (wo_region (pc_polygon a) d (OO eps 1 1 false) (pc_corners a) He Hd Po MC LP (pc_keep d o l1 l2 KC a I) A EA) as (RI & _).
  assert (P : 0 < d * A) by (destruct Hk as [-> | ->]; [apply Rmult_lt_0_compat|apply Ropp_0_lt_gt_contravar in SA; replace (d * A) with (- d * - A) by ring; apply Rmult_lt_0_compat]; lra).
  pose proof (RI P x O) as Q. split.
  - intros T. apply Q in T as (_ & T1 & T2). auto.
  - intros (T1 & T2). apply Q. split; [|auto]. intros On. specialize (T2 x On). rewrite ProofJordan5.dist_self in T2. pose proof (Rabs_pos d). lra.
Qed.
Lemma piece_out k a x : In a l -> k = 1 \/ k = -1 -> fits eps d k a -> ~ on_path (moved_edge a) x -> k * d < 0 -> (inside (moved_edge a) x = true <-> inside (edge a) x = true \/ exists y, on_path (edge a) y /\ dist x y <= Rabs d).
Proof.
  intros I Hk (Po & (A & EA & SA) & MC & LP) O D.
  destruct (wo_region (pc_polygon a) d (OO eps 1 1 false) (pc_corners a) He Hd Po MC LP (pc_keep d o l1 l2 KC a I) A EA) as (_ & RO).
  assert (P : d * A < 0). { assert (0 < - d * A); [|lra]. destruct Hk as [-> | ->]; [apply Rmult_lt_0_compat|replace (- d * A) with (d * - A) by ring; apply Rmult_lt_0_compat]; lra. }
  pose proof (RO P x O) as Q. split.
  - intros T. apply Q in T as [T|[T|T]]; auto. right. exists x. split; [exact T|]. rewrite ProofJordan5.dist_self. apply Rabs_pos.
  - intros T. apply Q. tauto.
Qed.

Lemma edge_ok a : pline_ok (edge a). Proof. apply ProofConvex.polygon_ok. Qed.
Lemma far_not a x : ~ far a x -> exists y, on_path (edge a) y /\ dist x y <= Rabs d.
Proof. intros N. apply NNPP. intros H. apply N. intros y Oy. apply Rnot_le_lt. intros L. apply H. eauto. Qed.
Lemma same_or (a b : piece) (m : list piece) : In a m -> In b m -> side_by_side m -> a = b \/ not_within a b.
Proof.
  intros Ia Ib SS. apply In_nth_error in Ia as (i & Hi). apply In_nth_error in Ib as (j & Hj). destruct (Nat.eq_dec i j) as [<-|N]; [left; congruence|right; exact (SS i j a b Hi Hj N)].
Qed.
(** Deep inside [a] is far from what is not within. *)
Lemma within_far a b x : inside (edge a) x = true -> far a x -> not_within a b -> far b x.
Proof.
  intros I F N. apply NNPP. intros H. apply far_not in H as (y & Oy & L). destruct (between (edge a) x y (edge_ok a)) as (z & Oz & Lz); [rewrite I, (N y Oy); discriminate|].
  specialize (F z Oz). lra.
Qed.

Lemma region_in x : 0 < d -> (forall a, In a l -> ~ on_path (moved_edge a) x) ->
  ((exists a, In a l1 /\ inside (moved_edge a) x = true) /\ (forall h, In h l2 -> inside (moved_edge h) x = false)
   <-> ((exists a, In a l1 /\ inside (edge a) x = true) /\ (forall h, In h l2 -> inside (edge h) x = false)) /\ forall a, In a l -> far a x).
Proof.
  intros D O. destruct WH as (S1 & _ & _ & _). pose proof F1 as G1. pose proof F2 as G2. rewrite Forall_forall in G1, G2.
  assert (IL : forall a, In a l1 -> In a l) by (intros; apply in_or_app; now left). assert (IR : forall a, In a l2 -> In a l) by (intros; apply in_or_app; now right).
  assert (P1 : forall a, In a l1 -> (inside (moved_edge a) x = true <-> inside (edge a) x = true /\ far a x)) by (intros a I; apply (piece_in 1); auto; lra).
  assert (P2 : forall a, In a l2 -> (inside (moved_edge a) x = true <-> inside (edge a) x = true \/ exists y, on_path (edge a) y /\ dist x y <= Rabs d)) by (intros a I; apply (piece_out (-1)); auto; lra).
  split.
  - intros ((a & Ia & X) & H). apply (P1 a Ia) in X as (X & Fa).
    assert (H2 : forall h, In h l2 -> inside (edge h) x = false /\ far h x).
    { intros h Ih. specialize (H h Ih). pose proof (P2 h Ih) as Q. rewrite H in Q. split; [destruct (inside (edge h) x); [exfalso; assert (false = true) by (apply Q; now left); discriminate|reflexivity]|].
      apply NNPP. intros N. apply far_not in N. assert (false = true) by (apply Q; now right). discriminate. }
    split; [split; [eauto|intros h Ih; apply (H2 h Ih)]|]. intros b Ib. apply in_app_or in Ib as [Ib|Ib]; [|apply (H2 b Ib)].
    destruct (same_or a b l1 Ia Ib S1) as [<-|N]; [exact Fa|]. exact (within_far a b x X Fa N).
  - intros (((a & Ia & X) & H) & F). split; [exists a; split; [exact Ia|]; apply (P1 a Ia); auto|]. intros h Ih. apply not_true_is_false. intros T. apply (P2 h Ih) in T as [T|(y & Oy & L)]; [rewrite (H h Ih) in T; discriminate|].
    specialize (F h (IR h Ih) y Oy). lra.
Qed.

Lemma region_out x : d < 0 -> (forall a, In a l -> ~ on_path (moved_edge a) x) ->
  ((exists a, In a l1 /\ inside (moved_edge a) x = true) /\ (forall h, In h l2 -> inside (moved_edge h) x = false)
   <-> ((exists a, In a l1 /\ inside (edge a) x = true) /\ (forall h, In h l2 -> inside (edge h) x = false)) \/ exists a y, In a l /\ on_path (edge a) y /\ dist x y <= Rabs d).
Proof.
  intros D O. destruct WH as (_ & S2 & SH & HH). pose proof F1 as G1. pose proof F2 as G2. rewrite Forall_forall in G1, G2.
  assert (IL : forall a, In a l1 -> In a l) by (intros; apply in_or_app; now left). assert (IR : forall a, In a l2 -> In a l) by (intros; apply in_or_app; now right).
  assert (P1 : forall a, In a l1 -> (inside (moved_edge a) x = true <-> inside (edge a) x = true \/ exists y, on_path (edge a) y /\ dist x y <= Rabs d)) by (intros a I; apply (piece_out 1); auto; lra).
  assert (P2 : forall a, In a l2 -> (inside (moved_edge a) x = true <-> inside (edge a) x = true /\ far a x)) by (intros a I; apply (piece_in (-1)); auto; lra).
  split.
  - intros ((a & Ia & X) & H). destruct (classic (exists a y, In a l /\ on_path (edge a) y /\ dist x y <= Rabs d)) as [N|N]; [now right|left].
    assert (FA : forall b, In b l -> far b x) by (intros b Ib; apply NNPP; intros Q; apply far_not in Q as (y & Oy & L); apply N; eauto).
    split.
    + exists a. split; [exact Ia|]. apply (P1 a Ia) in X as [X|(y & Oy & L)]; [exact X|]. exfalso. apply N. exists a, y. auto.
    + intros h Ih. specialize (H h Ih). apply not_true_is_false. intros T. assert (Q : inside (moved_edge h) x = true) by (apply (P2 h Ih); auto). congruence.
  - assert (HOLE : forall b h y, In h l2 -> In b l -> on_path (edge b) y -> dist x y <= Rabs d -> inside (moved_edge h) x = false).
    { intros b h y Ih Ib Oy L. apply not_true_is_false. intros T. apply (P2 h Ih) in T as (T & F).
      assert (FB : far b x); [|specialize (FB y Oy); lra]. apply in_app_or in Ib as [Ib|Ib]; [exact (within_far h b x T F (SH b h Ib Ih))|]. destruct (same_or h b l2 Ih Ib S2) as [<-|N]; [exact F|exact (within_far h b x T F N)]. }
    intros [((a & Ia & X) & H)|(b & y & Ib & Oy & L)].
    + split; [exists a; split; [exact Ia|]; apply (P1 a Ia); now left|]. intros h Ih. apply not_true_is_false. intros T. apply (P2 h Ih) in T as (T & _). rewrite (H h Ih) in T. discriminate.
    + split; [|intros h Ih; exact (HOLE b h y Ih Ib Oy L)]. apply in_app_or in Ib as [Ib|Ib]; [exists b; split; [exact Ib|]; apply (P1 b Ib); right; eauto|].
      destruct (HH b Ib) as (a & Ia & W). exists a. split; [exact Ia|]. apply (P1 a Ia). destruct (inside (edge a) x) eqn:E; [now left|right].
      destruct (between (edge a) x y (edge_ok a)) as (z & Oz & Lz); [rewrite E, (W y Oy); discriminate|]. exists z. split; [exact Oz|lra].
Qed.
End Region.

Lemma fits_count eps d k a : fits eps d k a -> (2 <=? vertex_count (edge a))%nat = true.
Proof.
  intros (_ & _ & (F & _) & LP). apply Nat.leb_le. pose proof (proj1 (proj2 LP)) as L. unfold edge, moved_edge, polygon, vertex_count in *. cbn [vtx] in *. rewrite map_length.
  destruct (pc_polygon a) as [|x [|y l]]; [| |cbn; lia]; exfalso; cbn in F; inversion F as [E|]; subst; match goal with H : [] = _ |- _ => rewrite <- H in L end; cbn in L; lia.
Qed.

Lemma pieces_shape mk eps d l1 l2 : makes_index mk -> 0 < eps -> Forall (fits eps d 1) l1 -> Forall (fits eps d (-1)) l2 ->
  exists s, shape_from_plines mk (map edge (l1 ++ l2)) = Ret s /\ shape_ok s
  /\ map ip_pline (sh_ccw s) = map edge l1 /\ map ip_pline (sh_cw s) = map edge l2.
Proof.
  intros MK He S1 S2. destruct (from_plines_spec mk MK (map edge (l1 ++ l2))) as (s & E & C1 & C2 & K). exists s. split; [exact E|]. split; [exact K|].
  rewrite Forall_forall in S1, S2. rewrite map_app, filter_app in C1, C2.
  assert (A1 : forall p, In p (map edge l1) -> loop_ccw p = true /\ (2 <=? vertex_count p)%nat = true).
  { intros p I. apply in_map_iff in I as (a & <- & I). destruct (S1 a I) as (_ & (A & EA & SA) & MC & LP). split.
    - unfold loop_ccw, negative. rewrite EA. rnum. rewrite (proj2 (rltb_false _ _)) by lra. reflexivity.
    - exact (fits_count eps d 1 a (S1 a I)). }
  assert (A2 : forall p, In p (map edge l2) -> loop_ccw p = false /\ (2 <=? vertex_count p)%nat = true).
  { intros p I. apply in_map_iff in I as (a & <- & I). destruct (S2 a I) as (_ & (A & EA & SA) & MC & LP). split.
    - unfold loop_ccw, negative. rewrite EA. rnum. rewrite (proj2 (rltb_true _ _)) by lra. reflexivity.
    - exact (fits_count eps d (-1) a (S2 a I)). }
  rewrite filter_all, filter_nothing, app_nil_r in C1; [|intros p I; destruct (A2 p I) as (-> & ->); reflexivity|intros p I; destruct (A1 p I) as (-> & ->); reflexivity].
  rewrite filter_nothing, filter_all in C2; [|intros p I; destruct (A2 p I) as (-> & ->); reflexivity|intros p I; destruct (A1 p I) as (-> & ->); reflexivity].
  auto.
Qed.

Theorem pieces_loops mk d o l1 l2 : makes_index mk -> 0 < so_pos_equal_eps o -> 0 < so_slice_join_eps o -> 0 < so_offset_dist_eps o < 2 * Rabs d ->
  Forall (fits (so_pos_equal_eps o) d 1) l1 -> Forall (fits (so_pos_equal_eps o) d (-1)) l2 -> keep_clear (so_pos_equal_eps o) d (l1 ++ l2) ->
  exists s r, shape_from_plines mk (map edge (l1 ++ l2)) = Ret s /\ shape_parallel_offset mk s d o = Ret r /\ shape_ok r
  /\ map ip_pline (sh_ccw r) = map moved_edge l1 /\ map ip_pline (sh_cw r) = map moved_edge l2.
Proof.
  intros MK He Hj Ht F1 F2 KC. destruct (pieces_shape mk _ d l1 l2 MK He F1 F2) as (s & E & K & E1 & E2).
  destruct (pieces_offset mk s d o l1 l2 MK K E1 E2 He Hj Ht F1 F2 KC) as (r & H). exists s, r. tauto.
Qed.

Theorem pieces_region mk d o l1 l2 : makes_index mk -> 0 < so_pos_equal_eps o -> 0 < so_slice_join_eps o -> 0 < so_offset_dist_eps o < 2 * Rabs d ->
  Forall (fits (so_pos_equal_eps o) d 1) l1 -> Forall (fits (so_pos_equal_eps o) d (-1)) l2 -> keep_clear (so_pos_equal_eps o) d (l1 ++ l2) -> with_holes l1 l2 ->
  exists s r, shape_from_plines mk (map edge (l1 ++ l2)) = Ret s /\ shape_parallel_offset mk s d o = Ret r
  /\ forall x, off_shape r x ->
     (0 < d -> (in_shape r x <-> in_shape s x /\ forall y, on_shape s y -> d < dist x y))
     /\ (d < 0 -> (in_shape r x <-> in_shape s x \/ exists y, on_shape s y /\ dist x y <= - d)).
Proof.
  intros MK He Hj Ht F1 F2 KC WH. destruct (pieces_shape mk _ d l1 l2 MK He F1 F2) as (s & E & K & E1 & E2).
  destruct (pieces_offset mk s d o l1 l2 MK K E1 E2 He Hj Ht F1 F2 KC) as (r & ER & _ & C1 & C2). exists s, r. split; [exact E|]. split; [exact ER|].
  assert (Hd : d <> 0) by (intros Z; rewrite Z, Rabs_R0 in Ht; lra).
  intros x OF. pose proof (proj1 (off_pieces r moved_edge l1 l2 C1 C2 x) OF) as O. pose proof (in_pieces r moved_edge l1 l2 C1 C2 x) as IR. pose proof (in_pieces s edge l1 l2 E1 E2 x) as IS. pose proof (on_pieces s edge l1 l2 E1 E2) as OS.
  split; intros D.
  - rewrite IR, IS. rewrite (region_in d o l1 l2 He Hd F1 F2 KC WH x D O). unfold far. rewrite Rabs_pos_eq by lra. split; intros (X & Y); (split; [exact X|]).
    + intros y Oy. apply OS in Oy as (a & I & Oy). exact (Y a I y Oy).
    + intros a I y Oy. apply Y, OS. eauto.
  - rewrite IR, IS. rewrite (region_out d o l1 l2 He Hd F1 F2 KC WH x D O). rewrite Rabs_left by lra. split; (intros [X|Y]; [now left|right]).
    + destruct Y as (a & y & I & Oy & L). exists y. split; [apply OS; eauto|exact L].
    + destruct Y as (y & Oy & L). apply OS in Oy as (a & I & Oy). exists a, y. auto.
Qed.
