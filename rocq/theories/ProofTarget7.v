(** The pieces of a loop of lines that is cut where it meets itself, and the marks of its slices (C76). *)
From Coq Require Import Reals ZArith Bool List Arith Lra Lia Psatz Permutation Sorted.
From Verif Require Import Num RNum Res ModelMath ModelSeg ModelPline ModelView ModelIntersects ModelBoolean.
From Verif Require Import Spec SpecPline SpecGeom SpecIntr SpecBox SpecView SpecPruneR.
From Verif Require Import ProofR ProofBase ProofIter ProofIntr ProofArc ProofSlice ProofWinding2 ProofWinding6 ProofWinding7 ProofRegion ProofRegion2 ProofRegion3 ProofRegion4 ProofRegion5 ProofRegion9 ProofRegion10 ProofTotal2 ProofPolyOff ProofTarget ProofTarget2 ProofTarget5 ProofTarget6.
Import ListNotations.
Local Open Scope R_scope.

(** Whether a point is on a line. *)
Definition on_line (w : seg) (q : vec2 R) : Z :=
  let dx := px (snd w) - px (fst w) in let dy := py (snd w) - py (fst w) in
  let x := vx q - px (fst w) in let y := vy q - py (fst w) in
  if Req_EM_T (dx * y - dy * x) 0 then if Rle_dec 0 (dx * x + dy * y) then if Rle_dec (dx * x + dy * y) (dx * dx + dy * dy) then 1%Z else 0%Z else 0%Z else 0%Z.

Lemma on_line_spec (w : seg) q : pbulge (fst w) = 0 -> pos (fst w) <> pos (snd w) -> (on w q -> on_line w q = 1%Z) /\ (~ on w q -> on_line w q = 0%Z).
Proof.
  intros Z N. destruct w as [v1 v2]. cbn [fst snd] in *. set (dx := px v2 - px v1). set (dy := py v2 - py v1).
  assert (DD : 0 < dx * dx + dy * dy).
  { destruct (Req_dec dx 0) as [E1|E1]; [destruct (Req_dec dy 0) as [E2|E2]|].
    - exfalso. apply N. unfold pos. f_equal; unfold dx, dy in *; lra.
    - pose proof (Rle_0_sqr dx). assert (0 < dy * dy) by (apply Rsqr_pos_lt; exact E2). unfold Rsqr in *. lra.
    - pose proof (Rle_0_sqr dy). assert (0 < dx * dx) by (apply Rsqr_pos_lt; exact E1). unfold Rsqr in *. lra. }
  assert (K : on (v1, v2) q <-> dx * (vy q - py v1) - dy * (vx q - px v1) = 0 /\ 0 <= dx * (vx q - px v1) + dy * (vy q - py v1) <= dx * dx + dy * dy).
  { split.
    - intros (t & Ht & S). apply seg_at_line in S; [|exact Z]. cbn [fst snd] in S. subst q. unfold line_pt, pos. cbn [vx vy]. fold dx dy. split; [ring|].
      replace (_ + _) with (t * (dx * dx + dy * dy)) by (unfold dx, dy; ring). split; [apply Rmult_le_pos; lra|]. assert (t * (dx * dx + dy * dy) <= 1 * (dx * dx + dy * dy)) by (apply Rmult_le_compat_r; lra). lra.
    - intros (E & H0 & H1). set (x := vx q - px v1) in *. set (y := vy q - py v1) in *. exists ((dx * x + dy * y) / (dx * dx + dy * dy)). split.
      + split; [apply Rmult_le_pos; [lra|left; apply Rinv_0_lt_compat; lra]|]. apply (Rmult_le_reg_r (dx * dx + dy * dy)); [lra|]. field_simplify; lra.
      + apply seg_at_line; [exact Z|]. cbn [fst snd]. unfold line_pt, pos. apply vec2_eq; cbn [vx vy]; fold dx dy; apply (Rmult_eq_reg_r (dx * dx + dy * dy)); try lra; field_simplify; try lra.
        * replace (vx q) with (px v1 + x) by (unfold x; ring). assert (dx * y = dy * x) by lra. assert (dy * (dx * y) = dy * (dy * x)) by (f_equal; assumption). lra.
        * replace (vy q) with (py v1 + y) by (unfold y; ring). assert (dx * y = dy * x) by lra. assert (dx * (dx * y) = dx * (dy * x)) by (f_equal; assumption). lra. }
  unfold on_line. cbn [fst snd]. fold dx dy. split.
  - intros O. apply K in O as (O1 & O2 & O3). destruct (Req_EM_T _ _); [|contradiction]. destruct (Rle_dec _ _); [|contradiction]. destruct (Rle_dec _ _); [reflexivity|contradiction].
  - intros O. destruct (Req_EM_T _ _) as [A|A]; [|reflexivity]. destruct (Rle_dec _ _) as [B|B]; [|reflexivity]. destruct (Rle_dec _ _) as [C|C]; [|reflexivity]. exfalso. apply O. apply K. auto.
Qed.

Section Marks.
Variables (raw : pline R) (order : list place) (cs : list (boolean_slice R * vec2 R)) (far : vec2 R -> bool) (test : boolean_slice R * vec2 R -> bool).
Hypothesis vc : (2 <= vertex_count raw)%nat.
Hypothesis cl : is_closed raw = true.
Hypothesis lines : forall v, In v (vtx raw) -> pbulge v = 0.
Hypothesis okp : forall v1 v2, In (v1, v2) (spec_segs (vtx raw) (is_closed raw)) -> seg_ok v1 v2 /\ pos v1 <> pos v2.
Hypothesis ne : order <> [].
Hypothesis placedp : Forall (placed raw) order.
Hypothesis sorted : StronglySorted along order.
Hypothesis betw : Forall2 (between raw) (gaps order) cs.
(** Where the loop passes more than once it is cut. *)
Hypothesis double : forall k t q, t < 1 -> point_at raw k t q -> ~ lone_at raw q -> exists x, In (k, t, x) order.
(** Along a segment it stays far or near until it meets something. *)
Hypothesis status : forall k a b s s', nth_error (spec_segs (vtx raw) (is_closed raw)) k = Some (a, b) -> 0 <= s -> s < s' -> s' <= 1 ->
  (forall x, s <= x <= s' -> lone_at raw (line_pt (pos a) (pos b) x)) -> far (line_pt (pos a) (pos b) s) = far (line_pt (pos a) (pos b) s').
Hypothesis tested : forall c, In c cs -> test c = far (snd c).

Local Notation segs := (spec_segs (vtx raw) (is_closed raw)).
Local Notation n := (vertex_count raw).

Definition slice_marks : list marked := flat_map (fun c => map (fun w : seg => (w, test c)) (vsegs raw (bs_view (fst c)))) cs.

Lemma mk_parts i t x j u y : In ((i, t, x), (j, u, y)) (gaps order) -> forall k a b v, In (k, a, b) (slice_pieces n i t j u) -> nth_error (vtx raw) k = Some v -> part_ok v a b.
Proof. intros _ k a b v _ E. left. apply lines. eapply nth_error_In. exact E. Qed.

Lemma mk_piece i t x j u y c : In ((i, t, x), (j, u, y)) (gaps order) -> between raw ((i, t, x), (j, u, y)) c ->
  Forall2 (fun e w => let '(k, t', u') := e in exists a b, nth_error segs k = Some (a, b) /\ seg_ok a b /\ pos a <> pos b
    /\ 0 <= t' /\ t' < u' /\ u' <= 1 /\ piece a b t' u' (fst w) (snd w) /\ okseg w) (slice_pieces n i t j u) (vsegs raw (bs_view (fst c))).
Proof. exact (slice_piece raw vc cl okp order placedp mk_parts i t x j u y c). Qed.

(** Inside a gap it passes only once. *)
Lemma gap_lone a b k s q : In (a, b) (gaps order) -> s < 1 -> amid (spot a) (k, s) (spot b) -> point_at raw k s q -> lone_at raw q.
Proof.
  intros IG Hs Am P. apply Classical_Prop.NNPP. intros NL. destruct (double k s q Hs P NL) as (x & I). exact (gaps_empty order a b (k, s, x) sorted IG I Am).
Qed.

Definition at_line (k : nat) (s : R) : vec2 R := match nth_error segs k with Some (a, b) => line_pt (pos a) (pos b) s | None => V2 0 0 end.

Lemma mk_len : length segs = n.
Proof. rewrite spec_segs_length, cl. unfold vertex_count in *. destruct (Nat.ltb_spec (length (vtx raw)) 2); lia. Qed.

Lemma seg_line k : (k < n)%nat -> exists a b, nth_error segs k = Some (a, b) /\ nth_error (vtx raw) k = Some a /\ nth_error (vtx raw) ((k + 1) mod n) = Some b /\ pbulge a = 0 /\ pos a <> pos b.
Proof.
  intros Hk. destruct (seg_of raw vc cl okp order mk_parts k Hk) as (a & b & E1 & E2 & E3 & _ & Nd). exists a, b. do 3 (split; [assumption|]). split; [|exact Nd]. apply lines. eapply nth_error_In. exact E2.
Qed.

Lemma at_line_point k s : (k < n)%nat -> 0 <= s <= 1 -> point_at raw k s (at_line k s).
Proof.
  intros Hk Hs. destruct (seg_line k Hk) as (a & b & E & _ & _ & Z & _). exists a, b. split; [exact E|]. split; [exact Hs|]. unfold at_line. rewrite E. now apply seg_at_line.
Qed.

Lemma at_line_next k : (k < n)%nat -> at_line k 1 = at_line ((k + 1) mod n) 0.
Proof.
  intros Hk. destruct (seg_line k Hk) as (a & b & E & _ & E2 & _). destruct (seg_line ((k + 1) mod n)) as (a' & b' & E' & E1' & _); [apply Nat.mod_upper_bound; lia|].
  unfold at_line. rewrite E, E'. rewrite E2 in E1'. injection E1' as <-. unfold line_pt. apply vec2_eq; cbn [vx vy]; ring.
Qed.

Lemma far_stays k s s' : (k < n)%nat -> 0 <= s <= 1 -> 0 <= s' <= 1 -> (forall x, Rmin s s' <= x <= Rmax s s' -> lone_at raw (at_line k x)) -> far (at_line k s) = far (at_line k s').
Proof.
  intros Hk Hs Hs' HL. destruct (seg_line k Hk) as (a & b & E & _). unfold at_line in *. rewrite E in *.
  destruct (Rtotal_order s s') as [L|[-> |L]]; [|reflexivity|].
  - apply (status k); auto; try lra. rewrite Rmin_left, Rmax_right in HL by lra. exact HL.
  - symmetry. apply (status k); auto; try lra. rewrite Rmin_right, Rmax_left in HL by lra. exact HL.
Qed.

Lemma linked_status (ok : nat -> Prop) l k a b : (forall m, ok m -> (m < n)%nat -> lone_at raw (at_line m 0)) -> linked n ok ((k, a, b) :: l) ->
  (forall m a' b', In (m, a', b') ((k, a, b) :: l) -> (m < n)%nat /\ 0 <= a' /\ a' < b' /\ b' <= 1 /\ forall s, a' < s < b' -> lone_at raw (at_line m s)) ->
  forall m a' b' s s', In (m, a', b') ((k, a, b) :: l) -> a' < s' < b' -> a < s < b -> far (at_line m s') = far (at_line k s).
Proof.
  intros Ok. revert k a b. induction l as [|[[k2 a2] b2] l IH]; intros k a b Li H m a' b' s s' I Hs' Hs.
  - destruct I as [I|[]]. injection I as <- <- <-. destruct (H k a b (or_introl eq_refl)) as (Hk & H0 & H1 & H2 & HL). apply far_stays; auto; try lra.
    intros x Hx. apply HL. unfold Rmin, Rmax in Hx. destruct (Rle_dec s' s); lra.
  - destruct Li as (-> & -> & -> & O2 & Li). destruct (H ((k + 1) mod n)%nat 0 b2 (or_intror (or_introl eq_refl))) as (Hk2 & _ & H1' & H2' & HL'). pose proof (Ok _ O2 Hk2) as L2. destruct (H k a 1 (or_introl eq_refl)) as (Hk & H0 & H1 & H2 & HL).
    destruct I as [I|I].
    + injection I as <- <- <-. apply far_stays; auto; try lra. intros x Hx. apply HL. unfold Rmin, Rmax in Hx. destruct (Rle_dec s' s); lra.
    + rewrite (IH _ _ _ Li (fun m a b J => H m a b (or_intror J)) m a' b' (b2 / 2) s' I Hs' ltac:(lra)).
      transitivity (far (at_line ((k + 1) mod n) 0)).
      * apply far_stays; auto; try lra. rewrite Rmin_right, Rmax_left by lra. intros x Hx. destruct (Req_dec x 0) as [-> |N]; [exact L2|apply HL'; lra].
      * rewrite <- at_line_next by exact Hk. apply far_stays; auto; try lra. rewrite Rmin_right, Rmax_left by lra. intros x Hx.
        destruct (Req_dec x 1) as [-> |N]; [rewrite at_line_next by exact Hk; exact L2|apply HL; lra].
Qed.

Lemma gap_status i t x j u y c k a b s : In ((i, t, x), (j, u, y)) (gaps order) -> between raw ((i, t, x), (j, u, y)) c ->
  In (k, a, b) (slice_pieces n i t j u) -> a < s < b -> lone_at raw (at_line k s) /\ far (at_line k s) = far (snd c).
Proof.
  intros IG B IP Hs. destruct (gap_ok raw vc cl okp order placedp mk_parts _ _ _ _ _ _ IG) as (Hi & Ht & Hj & Hu).
  assert (PI : forall m a b, In (m, a, b) (slice_pieces n i t j u) -> (m < n)%nat /\ 0 <= a /\ a < b /\ b <= 1 /\ forall s, a < s < b -> lone_at raw (at_line m s)).
  { intros m a' b' I. destruct (slice_pieces_In n i t j u m a' b' Hi Hj Ht Hu I) as (Hm & H0 & H1 & H2 & HA). do 4 (split; [assumption|]). intros s' Hs'.
    apply (gap_lone _ _ m s' _ IG); [lra|apply HA; exact Hs'|]. apply at_line_point; [exact Hm|lra]. }
  split; [apply (PI k a b IP); exact Hs|].
  destruct B as (_ & a0 & b0 & e & E1 & E2 & EH & Q). destruct (slice_pieces n i t j u) as [|[[k0 t0] e0] l] eqn:EP; [discriminate|]. cbn [hd_error] in EH. injection EH as -> -> ->.
  destruct (PI i t e (or_introl eq_refl)) as (_ & _ & Hte & He & _).
  assert (EM : snd c = at_line i ((t + e) / 2)).
  { destruct (seg_line i Hi) as (a1 & b1 & F1 & F2 & F3 & Z & _). assert (a1 = a0) by congruence. assert (b1 = b0) by congruence. subst a1 b1. unfold at_line. rewrite F1. apply seg_at_line in Q; [exact Q|exact Z]. }
  rewrite EM. pose proof (slice_linked n i t j u Hi Hj Ht Hu) as LK. rewrite EP in LK.
  refine (linked_status (fun k => amid (i, t) (k, 0) (j, u)) l i t e _ LK PI k a b ((t + e) / 2) s IP Hs ltac:(lra)).
  intros m Am Hm. apply (gap_lone _ _ m 0 _ IG); [lra|exact Am|]. apply at_line_point; [exact Hm|lra].
Qed.

(** Where two places of the loop are the same point passed once, they are the same place. *)
Lemma same_place_lone k s k' s' q : lone_at raw q -> point_at raw k s q -> point_at raw k' s' q -> s < 1 -> s' < 1 -> k = k' /\ s = s'.
Proof.
  intros Lo P P' H H'. pose proof (Lo _ _ _ _ P P' H H') as <-. split; [reflexivity|]. destruct P as (a & b & E & Hs & S1), P' as (a' & b' & E' & Hs' & S2). rewrite E in E'. injection E' as <- <-.
  destruct (okp a b (nth_error_In _ _ E)) as (_ & Nd). assert (Za : pbulge a = 0) by (apply lines; apply (spec_segs_In_both _ _ _ _ (nth_error_In _ _ E))).
  apply seg_at_line in S1; [|exact Za]. apply seg_at_line in S2; [|exact Za]. apply (line_pt_inj (pos a) (pos b) s s'); [|congruence]. exact Nd.
Qed.

(** The pieces of a marked slice. *)
Lemma mark_piece (e : marked) : In e slice_marks -> exists i t x j u y c k t' u' a b, In ((i, t, x), (j, u, y)) (gaps order) /\ between raw ((i, t, x), (j, u, y)) c /\ In c cs
  /\ In (k, t', u') (slice_pieces n i t j u) /\ snd e = test c /\ nth_error segs k = Some (a, b) /\ pbulge a = 0 /\ pos a <> pos b /\ (k < n)%nat
  /\ 0 <= t' /\ t' < u' /\ u' <= 1 /\ piece a b t' u' (fst (fst e)) (snd (fst e))
  /\ pos (fst (fst e)) = at_line k t' /\ pos (snd (fst e)) = at_line k u'.
Proof.
  intros I. unfold slice_marks in I. apply in_flat_map in I as (c & Ic & I). apply in_map_iff in I as (w & <- & Iw). cbn [fst snd].
  destruct (gap_slice raw order cs betw c Ic) as (i & t & x & j & u & y & IG & B). pose proof (mk_piece i t x j u y c IG B) as F.
  destruct (forall2_right _ _ _ _ F Iw) as ([[k t'] u'] & Ik & a & b & E & Ok & Nd & H0 & H1 & H2 & P & Okw).
  destruct (gap_ok raw vc cl okp order placedp mk_parts _ _ _ _ _ _ IG) as (Hi & Ht & Hj & Hu).
  destruct (slice_pieces_In n i t j u k t' u' Hi Hj Ht Hu Ik) as (Hk & _).
  exists i, t, x, j, u, y, c, k, t', u', a, b. do 6 (split; [assumption || reflexivity|]).
  assert (Za : pbulge a = 0) by (apply lines; apply (spec_segs_In_both _ _ _ _ (nth_error_In _ _ E))).
  do 7 (split; [assumption|]). unfold at_line. rewrite E.
  assert (PO : piece_of raw (w, true)) by (exists k, a, b, t', u'; auto 6).
  destruct (piece_facts a b t' u' _ _ Ok Nd H0 H1 H2 P) as (_ & [Zw|(Zw & _)]); [|contradiction]. split.
  - assert (S0 : seg_at a b (t' + 0 * (u' - t')) (pos (fst w))). { apply P. apply seg_at_line; [exact Zw|]. unfold line_pt. destruct (fst w); cbn. apply vec2_eq; cbn; ring. }
    apply seg_at_line in S0; [|exact Za]. rewrite S0. f_equal. ring.
  - assert (S1 : seg_at a b (t' + 1 * (u' - t')) (pos (snd w))). { apply P. apply seg_at_line; [exact Zw|]. unfold line_pt. destruct (snd w); cbn. apply vec2_eq; cbn; ring. }
    apply seg_at_line in S1; [|exact Za]. rewrite S1. f_equal. ring.
Qed.

(** A point inside a piece. *)
Lemma mark_inside (e : marked) q : In e slice_marks -> on (fst e) q -> q <> pos (fst (fst e)) -> q <> pos (snd (fst e)) ->
  lone_at raw q /\ snd e = far q /\ exists k s i t x j u y, In ((i, t, x), (j, u, y)) (gaps order) /\ (k < n)%nat /\ 0 < s < 1 /\ q = at_line k s /\ amid (i, t) (k, s) (j, u).
Proof.
  intros I (s & Hs & Q) N1 N2. destruct (mark_piece e I) as (i & t & x & j & u & y & c & k & t' & u' & a & b & IG & B & Ic & Ik & Em & E & Za & Nd & Hk & H0 & H1 & H2 & P & E1 & E2).
  apply P in Q. apply seg_at_line in Q; [|exact Za].
  assert (Hs' : 0 < s < 1).
  { unfold at_line in E1, E2. rewrite E in E1, E2. split; apply Rnot_le_lt; intros X.
    - apply N1. rewrite E1, Q. f_equal. replace s with 0 by lra. ring.
    - apply N2. rewrite E2, Q. f_equal. replace s with 1 by lra. ring. }
  assert (0 < s * (u' - t')) by (apply Rmult_lt_0_compat; lra). assert (s * (u' - t') < 1 * (u' - t')) by (apply Rmult_lt_compat_r; lra).
  assert (EQ : q = at_line k (t' + s * (u' - t'))) by (unfold at_line; rewrite E; exact Q).
  destruct (gap_status i t x j u y c k t' u' (t' + s * (u' - t')) IG B Ik ltac:(lra)) as (Lo & Fa). rewrite <- EQ in *.
  split; [exact Lo|]. split; [rewrite Em, (tested c Ic); now symmetry|].
  destruct (gap_ok raw vc cl okp order placedp mk_parts _ _ _ _ _ _ IG) as (Hi & Ht & Hj & Hu).
  destruct (slice_pieces_In n i t j u k t' u' Hi Hj Ht Hu Ik) as (_ & _ & _ & _ & HA).
  exists k, (t' + s * (u' - t')), i, t, x, j, u, y. split; [exact IG|]. split; [exact Hk|]. split; [lra|]. split; [exact EQ|]. apply HA. lra.
Qed.

Lemma marks_pieces e : In e slice_marks -> piece_of raw e.
Proof.
  intros I. destruct (mark_piece e I) as (i & t & x & j & u & y & c & k & t' & u' & a & b & IG & B & Ic & Ik & Em & E & Za & Nd & Hk & H0 & H1 & H2 & P & E1 & E2).
  exists k, a, b, t', u'. auto.
Qed.

Lemma marks_cover q : on_path raw q -> exists e, In e slice_marks /\ on (fst e) q.
Proof.
  intros O. destruct (slices_cover raw vc cl okp order ne placedp sorted mk_parts cs betw q O) as (c & w & Ic & Iw & On). exists (w, test c). split; [|exact On].
  unfold slice_marks. apply in_flat_map. exists c. split; [exact Ic|]. apply in_map_iff. exists w. auto.
Qed.

Lemma marks_marks e q : In e slice_marks -> on (fst e) q -> q <> pos (fst (fst e)) -> q <> pos (snd (fst e)) -> snd e = far q.
Proof. intros I O N1 N2. now apply (mark_inside e q I O N1 N2). Qed.

Lemma inside_no_end q k s i t x j u y (e : marked) : lone_at raw q -> In ((i, t, x), (j, u, y)) (gaps order) -> (k < n)%nat -> 0 < s < 1 -> q = at_line k s -> amid (i, t) (k, s) (j, u) ->
  In e slice_marks -> q <> pos (fst (fst e)) /\ q <> pos (snd (fst e)).
Proof.
  intros Lo IG Hk Hs Eq Am I. destruct (mark_piece e I) as (i2 & t2 & x2 & j2 & u2 & y2 & c & k2 & t' & u' & a & b & IG2 & B & Ic & Ik & Em & E & Za & Nd & Hk2 & H0 & H1 & H2 & P & E1 & E2).
  destruct (gap_ok raw vc cl okp order placedp mk_parts _ _ _ _ _ _ IG2) as (Hi & Ht & Hj & Hu). destruct (gaps_In _ _ _ IG2) as (O1 & O2).
  assert (PQ : point_at raw k s q) by (rewrite Eq; apply at_line_point; [exact Hk|lra]).
  pose proof (pieces_cases _ _ _ _ _ _ _ _ (proj2 Ht) Ik) as PC.
  assert (No : forall m r z, In (m, r, z) order -> ~ (k = m /\ s = r)).
  { intros m r z J (<- & <-). exact (gaps_empty order _ _ (k, s, z) sorted IG J Am). }
  split; intros X.
  - assert (P2 : point_at raw k2 t' q) by (rewrite X, E1; apply at_line_point; [exact Hk2|lra]).
    destruct (same_place_lone k s k2 t' q Lo PQ P2 ltac:(lra) ltac:(lra)) as (A1 & A2).
    destruct PC as [(K & _)|[K|[(K & _)|(K & _)]]]; [| |lra|].
    + pose proof (f_equal (fun z => fst (fst z)) K) as K1. pose proof (f_equal (fun z => snd (fst z)) K) as K2. cbn in K1, K2. apply (No _ _ _ O1). split; congruence.
    + pose proof (f_equal (fun z => fst (fst z)) K) as K1. pose proof (f_equal (fun z => snd (fst z)) K) as K2. cbn in K1, K2. apply (No _ _ _ O1). split; congruence.
    + pose proof (f_equal (fun z => snd (fst z)) K) as K2. cbn in K2. lra.
  - destruct (Req_dec u' 1) as [-> |N].
    + rewrite at_line_next in E2 by exact Hk2. assert (P2 : point_at raw ((k2 + 1) mod n) 0 q) by (rewrite X, E2; apply at_line_point; [apply Nat.mod_upper_bound; lia|lra]).
      destruct (same_place_lone k s _ 0 q Lo PQ P2 ltac:(lra) ltac:(lra)) as (A1 & A2). lra.
    + assert (P2 : point_at raw k2 u' q) by (rewrite X, E2; apply at_line_point; [exact Hk2|lra]).
      destruct (same_place_lone k s k2 u' q Lo PQ P2 ltac:(lra) ltac:(lra)) as (A1 & A2).
      destruct PC as [(K & Kj & _)|[K|[(_ & K)|(K & _)]]]; [| |lra|].
      * pose proof (f_equal (fun z => fst (fst z)) K) as K1. pose proof (f_equal snd K) as K2. cbn in K1, K2. apply (No _ _ _ O2). split; congruence.
      * pose proof (f_equal snd K) as K2. cbn in K2. lra.
      * pose proof (f_equal (fun z => fst (fst z)) K) as K1. pose proof (f_equal snd K) as K2. cbn in K1, K2. apply (No _ _ _ O2). split; congruence.
Qed.

Lemma marks_all : map fst slice_marks = flat_map (fun c => vsegs raw (bs_view (fst c))) cs.
Proof.
  unfold slice_marks. generalize cs as l. induction l as [|c l IH]; cbn; [reflexivity|]. rewrite map_app, IH, map_map. cbn. now rewrite map_id.
Qed.

Lemma inside_no_corner q k s w : lone_at raw q -> (k < n)%nat -> 0 < s < 1 -> q = at_line k s -> In w segs -> q <> pos (fst w) /\ q <> pos (snd w).
Proof.
  intros Lo Hk Hs Eq I. assert (PQ : point_at raw k s q) by (rewrite Eq; apply at_line_point; [exact Hk|lra]).
  apply In_nth_error in I as (m & E). destruct w as [a b]. assert (Hm : (m < n)%nat).
  { rewrite <- mk_len. apply nth_error_Some. congruence. }
  assert (A0 : pos a = at_line m 0) by (unfold at_line; rewrite E; unfold line_pt; destruct a; apply vec2_eq; cbn; ring).
  assert (A1 : pos b = at_line m 1) by (unfold at_line; rewrite E; unfold line_pt; destruct a, b; apply vec2_eq; cbn; ring). cbn [fst snd]. split; intros X.
  - assert (P2 : point_at raw m 0 q) by (rewrite X, A0; apply at_line_point; [exact Hm|lra]). destruct (same_place_lone k s m 0 q Lo PQ P2 ltac:(lra) ltac:(lra)). lra.
  - rewrite at_line_next in A1 by exact Hm. assert (P2 : point_at raw ((m + 1) mod n) 0 q) by (rewrite X, A1; apply at_line_point; [apply Nat.mod_upper_bound; lia|lra]).
    destruct (same_place_lone k s _ 0 q Lo PQ P2 ltac:(lra) ltac:(lra)). lra.
Qed.

Lemma marks_once L1 (e : marked) L2 q : slice_marks = L1 ++ e :: L2 -> on (fst e) q -> q <> pos (fst (fst e)) -> q <> pos (snd (fst e)) -> off (L1 ++ L2) q /\ lone_at raw q.
Proof.
  intros EL On N1 N2. assert (I : In e slice_marks) by (rewrite EL; apply in_or_app; right; now left).
  destruct (mark_inside e q I On N1 N2) as (Lo & _ & k & s & i & t & x & j & u & y & IG & Hk & Hs & Eq & Am). split; [|exact Lo].
  assert (HG : forall w, In w (map fst slice_marks) \/ In w segs -> q <> pos (fst w) /\ q <> pos (snd w) /\ (on w q -> on_line w q = 1%Z) /\ (~ on w q -> on_line w q = 0%Z)).
  { intros w [J|J].
    - apply in_map_iff in J as (e' & <- & J). destruct (inside_no_end q k s i t x j u y e' Lo IG Hk Hs Eq Am J) as (M1 & M2). split; [exact M1|]. split; [exact M2|].
      destruct (mark_piece e' J) as (i2 & t2 & x2 & j2 & u2 & y2 & c & k2 & t' & u' & a & b & IG2 & B & Ic & Ik & Em & E & Za & Nd & Hk2 & H0 & H1 & H2 & P & E1 & E2).
      destruct (okp a b (nth_error_In _ _ E)) as (Ok & _). destruct (piece_facts a b t' u' _ _ Ok Nd H0 H1 H2 P) as (_ & [Zw|(Zw & _)]); [|contradiction].
      apply on_line_spec; [exact Zw|]. rewrite E1, E2. unfold at_line. rewrite E. intros X. apply line_pt_inj in X; [lra|exact Nd].
    - destruct (inside_no_corner q k s w Lo Hk Hs Eq J) as (M1 & M2). split; [exact M1|]. split; [exact M2|]. destruct w as [a b]. apply on_line_spec; cbn [fst snd].
      + apply lines. apply (spec_segs_In_both _ _ _ _ J).
      + now apply okp. }
  rewrite marks_all in HG. pose proof (slices_once_at raw vc cl okp order ne placedp sorted mk_parts cs betw (fun w => on_line w q) q Lo HG) as SO. cbn zeta in SO. rewrite <- marks_all in SO, HG.
  assert (NN : forall w, (0 <= on_line w q)%Z) by (intros w; unfold on_line; cbn zeta; repeat match goal with |- context [if ?d then _ else _] => destruct d end; lia).
  intros e' J On'. rewrite map_map, EL, zsum_cut in SO.
  assert (I' : In e' slice_marks) by (rewrite EL; apply in_app_or in J as [J|J]; apply in_or_app; [left|right; right]; exact J).
  assert (O1 : on_line (fst e) q = 1%Z) by (apply HG; [left; now apply in_map|exact On]). assert (O2 : on_line (fst e') q = 1%Z) by (apply HG; [left; now apply in_map|exact On']).
  pose proof (zsum_In (fun x : marked => on_line (fst x) q) (L1 ++ L2) e' (fun x _ => NN (fst x)) J) as ZI. cbn beta in ZI, SO. unfold marked in ZI. lia.
Qed.
End Marks.
