(** Sums and winding numbers along the slices of a loop (C51). *)
From Coq Require Import Reals ZArith Bool List Arith Lra Lia Psatz Permutation Sorted.
From Verif Require Import Num RNum Res ModelMath ModelSeg ModelPline ModelView ModelIntersects ModelBoolean.
From Verif Require Import Spec SpecGeom SpecBox SpecWinding SpecView SpecPruneR SpecJordan.
From Verif Require Import ProofR ProofBase ProofIter ProofArc ProofArc2 ProofSlice ProofMeasure ProofWinding ProofWinding2 ProofWinding6 ProofWinding7 ProofRegion ProofRegion2 ProofRegion3 ProofRegion4.
Import ListNotations.
Local Open Scope R_scope.

Definition vsegs (p : pline R) (d : view_data R) : list seg := match view_vertexes d p with Ret l => spec_segs l false | Panic _ => [] end.

Lemma rsum_IZR {X} (g : X -> Z) l : rsum (map (fun x => IZR (g x)) l) = IZR (zsum (map g l)).
Proof. induction l as [|x l IH]; [reflexivity|]. cbn [map rsum zsum fold_right]. fold (rsum (map (fun x => IZR (g x)) l)) (zsum (map g l)). now rewrite IH, plus_IZR. Qed.

Lemma zsum_flat {X Y} (f : X -> list Y) (g : Y -> Z) l : zsum (map g (flat_map f l)) = zsum (map (fun x => zsum (map g (f x))) l).
Proof. induction l as [|x l IH]; [reflexivity|]. cbn [flat_map map]. rewrite map_app, zsum_app, IH. reflexivity. Qed.

Lemma choose {X} (d : X) (P : nat -> X -> Prop) n : (forall k, (k < n)%nat -> exists f, P k f) -> exists F, forall k, (k < n)%nat -> P k (F k).
Proof.
  induction n as [|n IH]; intros H.
  - exists (fun _ => d). intros k L. lia.
  - destruct IH as (F & HF); [intros k L; apply H; lia|]. destruct (H n) as (f & Hf); [lia|].
    exists (fun k => if Nat.eqb k n then f else F k). intros k L. destruct (Nat.eqb_spec k n) as [-> |N]; [exact Hf|]. apply HF. lia.
Qed.

Section Loop.
Variable p : pline R.
Hypothesis vc : (2 <= vertex_count p)%nat.
Hypothesis cl : is_closed p = true.
Hypothesis okp : forall v1 v2, In (v1, v2) (spec_segs (vtx p) (is_closed p)) -> seg_ok v1 v2 /\ pos v1 <> pos v2.
Variable order : list place.
Hypothesis ne : order <> [].
Hypothesis placedp : Forall (placed p) order.
Hypothesis sorted : StronglySorted along order.
Hypothesis parts : forall i t x j u y, In ((i, t, x), (j, u, y)) (gaps order) -> forall k a b v, In (k, a, b) (slice_pieces (vertex_count p) i t j u) ->
  nth_error (vtx p) k = Some v -> part_ok v a b.
Variable cs : list (boolean_slice R * vec2 R).
Hypothesis betw : Forall2 (between p) (gaps order) cs.

Let n := vertex_count p.

Lemma segs_len : length (spec_segs (vtx p) (is_closed p)) = n.
Proof. rewrite spec_segs_length, cl. unfold n, vertex_count in *. destruct (Nat.ltb_spec (length (vtx p)) 2); lia. Qed.

Lemma seg_of k : (k < n)%nat -> exists a b, nth_error (spec_segs (vtx p) (is_closed p)) k = Some (a, b) /\ nth_error (vtx p) k = Some a
  /\ nth_error (vtx p) ((k + 1) mod n) = Some b /\ seg_ok a b /\ pos a <> pos b.
Proof.
  intros L. destruct (spec_segs_nth (vtx p) (is_closed p) k) as (a & b & H1 & H2 & H3); [rewrite segs_len; exact L|].
  exists a, b. repeat split; try assumption; apply (okp a b); eapply nth_error_In; eassumption.
Qed.

(** Where it begins and ends. *)
Lemma place_ok i t x : In (i, t, x) order -> (i < n)%nat /\ 0 <= t < 1 /\ exists a b, nth_error (spec_segs (vtx p) (is_closed p)) i = Some (a, b) /\ seg_at a b t (sp_pos x).
Proof.
  intros I. rewrite Forall_forall in placedp. destruct (placedp _ I) as (L & a & b & Hn & Ht & Hat).
  split; [rewrite <- segs_len; apply nth_error_Some; congruence|]. split; [lra|]. exists a, b. auto.
Qed.

Lemma forall2_right {X Y} (P : X -> Y -> Prop) l l' y : Forall2 P l l' -> In y l' -> exists x, In x l /\ P x y.
Proof.
  intros H. induction H as [|x0 y0 l l' H0 H IH]; [intros []|]. intros [<-|I]; [exists x0; split; [now left|exact H0]|].
  destruct (IH I) as (x & Ix & Px). exists x. split; [now right|exact Px].
Qed.
Lemma forall2_left {X Y} (P : X -> Y -> Prop) l l' x : Forall2 P l l' -> In x l -> exists y, In y l' /\ P x y.
Proof.
  intros H. induction H as [|x0 y0 l l' H0 H IH]; [intros []|]. intros [<-|I]; [exists y0; split; [now left|exact H0]|].
  destruct (IH I) as (y & Iy & Py). exists y. split; [now right|exact Py].
Qed.

Lemma forall2_sum {X Y} (P : X -> Y -> Prop) (f : Y -> R) (h : X -> R) l l' : Forall2 P l l' -> (forall x y, In x l -> P x y -> f y = h x) ->
  rsum (map f l') = rsum (map h l).
Proof.
  intros H. induction H as [|x y l l' H0 H IH]; intros K; [reflexivity|]. cbn [map rsum fold_right]. fold (rsum (map f l')) (rsum (map h l)).
  rewrite (K x y (or_introl eq_refl) H0), IH; [reflexivity|]. intros x' y' I. apply K. now right.
Qed.

Lemma forall2_sum_in {X Y} (P : X -> Y -> Prop) (f : Y -> R) (h : X -> R) l l' : Forall2 P l l' -> (forall x y, In x l -> In y l' -> P x y -> f y = h x) ->
  rsum (map f l') = rsum (map h l).
Proof.
  intros H. induction H as [|x y l l' H0 H IH]; intros K; [reflexivity|]. cbn [map rsum fold_right]. fold (rsum (map f l')) (rsum (map h l)).
  rewrite (K x y (or_introl eq_refl) (or_introl eq_refl) H0), IH; [reflexivity|]. intros x' y' I I'. apply K; now right.
Qed.

Lemma gap_ok i t x j u y : In ((i, t, x), (j, u, y)) (gaps order) -> (i < n)%nat /\ 0 <= t < 1 /\ (j < n)%nat /\ 0 <= u < 1.
Proof.
  intros I. apply gaps_In in I as (I1 & I2). apply place_ok in I1 as (L1 & B1 & _). apply place_ok in I2 as (L2 & B2 & _). auto.
Qed.

Lemma gap_slice c : In c cs -> exists i t x j u y, In ((i, t, x), (j, u, y)) (gaps order) /\ between p ((i, t, x), (j, u, y)) c.
Proof.
  intros I. destruct (forall2_right _ _ _ _ betw I) as ([[[i t] x] [[j u] y]] & G & B). exists i, t, x, j, u, y. auto.
Qed.

(** Each segment of a slice is a proper piece. *)
Lemma slice_piece i t x j u y c : In ((i, t, x), (j, u, y)) (gaps order) -> between p ((i, t, x), (j, u, y)) c ->
  Forall2 (fun e w => let '(k, t', u') := e in exists a b, nth_error (spec_segs (vtx p) (is_closed p)) k = Some (a, b) /\ seg_ok a b /\ pos a <> pos b
    /\ 0 <= t' /\ t' < u' /\ u' <= 1 /\ piece a b t' u' (fst w) (snd w) /\ okseg w) (slice_pieces n i t j u) (vsegs p (bs_view (fst c))).
Proof.
  intros I (V & _). destruct V as (_ & _ & _ & _ & l & first & last & EV & F2 & _). unfold vsegs. rewrite EV.
  destruct (gap_ok _ _ _ _ _ _ I) as (L1 & B1 & L2 & B2).
  fold n in F2.
  assert (HI : incl (slice_pieces n i t j u) (slice_pieces n i t j u)) by (intros ? ?; assumption).
  revert F2 HI. generalize (slice_pieces n i t j u) at 1 2 4 as P. generalize (spec_segs l false) as W.
  intros W P F2. induction F2 as [|[[k t'] u'] w P W H F2 IH]; intros HI; constructor; [|apply IH; intros e Ie; apply HI; now right].
  destruct (slice_pieces_In n i t j u k t' u' L1 L2 B1 B2 (HI _ (or_introl eq_refl))) as (Lk & T0 & T1 & T2 & _).
  destruct (seg_of k Lk) as (a & b & E1 & E2 & E3 & Ok & Nd).
  cbn in H. destruct H as (a' & b' & E2' & E3' & HP).
  assert (a' = a) by congruence. assert (b' = b) by (unfold n, vertex_count in E3; congruence). subst a' b'.
  exists a, b. do 7 (split; [assumption|]).
  apply (piece_ok a b t' u' (fst w) (snd w)); auto. eapply parts; [exact I|apply HI; left; reflexivity|exact E2].
Qed.

(** Additive quantities add up. *)
Lemma slices_sum (g : seg -> Z) :
  (forall k a b, nth_error (spec_segs (vtx p) (is_closed p)) k = Some (a, b) -> exists f : R -> R, forall t u w, 0 <= t -> t < u -> u <= 1 ->
     piece a b t u (fst w) (snd w) -> okseg w -> In w (flat_map (fun c => vsegs p (bs_view (fst c))) cs) \/ In w (spec_segs (vtx p) (is_closed p)) -> IZR (g w) = f u - f t) ->
  zsum (map g (flat_map (fun c => vsegs p (bs_view (fst c))) cs)) = zsum (map g (spec_segs (vtx p) (is_closed p))).
Proof.
  intros H.
  destruct (choose (fun _ => 0) (fun k f => forall a b, nth_error (spec_segs (vtx p) (is_closed p)) k = Some (a, b) -> forall t u w, 0 <= t -> t < u -> u <= 1 ->
     piece a b t u (fst w) (snd w) -> okseg w -> In w (flat_map (fun c => vsegs p (bs_view (fst c))) cs) \/ In w (spec_segs (vtx p) (is_closed p)) -> IZR (g w) = f u - f t) n) as (F & HF).
  { intros k L. destruct (seg_of k L) as (a & b & E & _). destruct (H k a b E) as (f & Hf). exists f. intros a' b' E'.
    rewrite E in E'. injection E' as <- <-. exact Hf. }
  apply eq_IZR. rewrite zsum_flat, <- rsum_IZR.
  assert (G1 : forall gp c, In gp (gaps order) -> In c cs -> between p gp c ->
    IZR (zsum (map g (vsegs p (bs_view (fst c))))) = Phi F n (spot (snd gp)) - Phi F n (spot (fst gp)) + (if plt_dec (spot (fst gp)) (spot (snd gp)) then 0 else base F n n)).
  { intros [[[i t] x] [[j u] y]] c I Ic B. cbn [spot fst snd].
    destruct (gap_ok _ _ _ _ _ _ I) as (L1 & B1 & L2 & B2).
    rewrite <- (pieces_sum F n i t j u L1 L2 B1 B2). rewrite <- rsum_IZR.
    pose proof (slice_piece _ _ _ _ _ _ _ I B) as F2.
    assert (LT : forall e, In e (slice_pieces n i t j u) -> (fst (fst e) < n)%nat).
    { intros [[k t'] u'] Ie. exact (proj1 (slice_pieces_In n i t j u k t' u' L1 L2 B1 B2 Ie)). }
    assert (LW : forall w, In w (vsegs p (bs_view (fst c))) -> In w (flat_map (fun c => vsegs p (bs_view (fst c))) cs)).
    { intros w Iw. apply in_flat_map. eauto. }
    revert F2 LT LW. generalize (slice_pieces n i t j u) (vsegs p (bs_view (fst c))). intros P W F2.
    induction F2 as [|[[k t'] u'] w P W Hw F2 IH]; intros LT LW; [reflexivity|]. cbn [map rsum fold_right fst snd].
    fold (rsum (map (fun x0 => IZR (g x0)) W)) (rsum (map (fun e : nat * R * R => F (fst (fst e)) (snd e) - F (fst (fst e)) (snd (fst e))) P)).
    rewrite IH by (intros e Ie; (apply LT || apply LW); now right). f_equal.
    destruct Hw as (a & b & E & _ & _ & T0 & T1 & T2 & HP & Okw). exact (HF k (LT _ (or_introl eq_refl)) a b E t' u' w T0 T1 T2 HP Okw (or_introl (LW _ (or_introl eq_refl)))). }
  assert (G2 : rsum (map (fun c : boolean_slice R * vec2 R => IZR (zsum (map g (vsegs p (bs_view (fst c)))))) cs) = base F n n).
  { set (h := fun gp : place * place => Phi F n (spot (snd gp)) - Phi F n (spot (fst gp)) + (if plt_dec (spot (fst gp)) (spot (snd gp)) then 0 else base F n n)).
    transitivity (rsum (map h (gaps order))).
    - apply (forall2_sum_in (between p)); [exact betw|exact G1].
    - apply (gaps_sum (fun z => Phi F n (spot z))); [exact ne|exact sorted| |].
      + intros a b _ _ E. now rewrite E.
      + intros a b _. reflexivity. }
  rewrite G2, <- rsum_IZR. unfold base.
  assert (EW : forall k, (k < n)%nat -> exists s, nth_error (spec_segs (vtx p) (is_closed p)) k = Some s /\ IZR (g s) = whole F k).
  { intros k L. destruct (seg_of k L) as (a & b & E & _ & _ & Ok & _). exists (a, b). split; [exact E|]. unfold whole.
    apply (HF k L a b E 0 1 (a, b)); try lra; [|exact Ok|right; eapply nth_error_In; exact E]. intros s q. replace (0 + s * (1 - 0)) with s by ring. reflexivity. }
  f_equal. apply nth_ext with (d := 0) (d' := 0).
  - rewrite !map_length, seq_length. symmetry. exact segs_len.
  - intros k L. rewrite map_length, seq_length in L. destruct (EW k L) as (s & E & Es).
    rewrite (nth_indep _ 0 (whole F (0 mod n))) by (rewrite map_length, seq_length; exact L).
    rewrite (map_nth (fun x => whole F (x mod n)) (seq 0 n) 0%nat k), seq_nth by exact L. cbn [Nat.add]. rewrite Nat.mod_small by exact L.
    rewrite <- Es. symmetry. apply nth_error_nth. rewrite nth_error_map. change (@nth_error seg (spec_segs (vtx p) (is_closed p)) k = Some s) in E. rewrite E. reflexivity.
Qed.

Lemma slices_ends (f : vec2 R -> Z) : zsum (map (fun w : seg => (f (pos (snd w)) - f (pos (fst w)))%Z) (flat_map (fun c => vsegs p (bs_view (fst c))) cs)) = 0%Z.
Proof.
  rewrite slices_sum.
  - apply eq_IZR. rewrite <- rsum_IZR. rewrite cl. rewrite <- (loop_telescope (fun v : vertex R => IZR (f (pos v))) (vtx p)). f_equal. apply map_ext. intros s. apply minus_IZR.
  - intros k a b E.
    assert (Ok : seg_ok a b) by (apply (okp a b); eapply nth_error_In; exact E).
    destruct (seg_curve a b Ok) as (cx & cy & _ & _ & Hq). exists (fun t => IZR (f (V2 (cx t) (cy t)))).
    intros t u w T0 T1 T2 HP Okw _. rewrite minus_IZR. f_equal; [|f_equal]; f_equal; f_equal.
    + apply Hq. replace u with (t + 1 * (u - t)) by ring. apply HP. now apply seg_at_1.
    + apply Hq. replace t with (t + 0 * (u - t)) at 1 by ring. apply HP. now apply seg_at_0.
Qed.

Lemma slices_winding x : ~ on_path p x -> zsum (map (nw x) (flat_map (fun c => vsegs p (bs_view (fst c))) cs)) = wn p x.
Proof.
  intros Hoff. rewrite slices_sum.
  - unfold wn. rewrite winding_nw; auto. intros v1 v2 I. now apply okp.
  - intros k a b E. assert (I : In (a, b) (spec_segs (vtx p) (is_closed p))) by (eapply nth_error_In; exact E).
    assert (Ok : seg_ok a b) by now apply okp. assert (Ho : ~ on (a, b) x) by (intros N; apply Hoff; exists a, b; auto).
    destruct (nw_turn (a, b) x Ok Ho) as (phi & rho & C & RH & Q & _). cbn [fst snd] in Q.
    destruct (seg_curve a b Ok) as (cx & cy & _ & _ & Hq).
    exists (fun t => (phi t - br x (V2 (cx t) (cy t))) / (2 * PI)). intros t u w T0 T1 T2 HP Okw _.
    pose proof (pieces_nw a b x t u [w] Ok Ho ltac:(econstructor; [| | |exact Okw|constructor]; [lra|lra|exact HP]) phi rho C RH Q
      (V2 (cx t) (cy t)) (V2 (cx u) (cy u)) ltac:(now apply Hq) ltac:(now apply Hq)) as G.
    cbn [map zsum fold_right] in G. rewrite Z.add_0_r in G. pose proof PI_pos. field_simplify; [|lra].
    apply (Rmult_eq_reg_r (2 * PI)); [|lra]. field_simplify; lra.
Qed.

Lemma one_of (g : seg -> Z) (l : list seg) : (forall w, In w l -> g w = 0%Z \/ g w = 1%Z) ->
  (forall i j w w', nth_error l i = Some w -> nth_error l j = Some w' -> g w = 1%Z -> g w' = 1%Z -> i = j) -> (0 <= zsum (map g l) <= 1)%Z.
Proof.
  clear. induction l as [|w l IH]; intros H U; unfold zsum in *; cbn [map fold_right]; [lia|]. fold (zsum (map g l)) in *.
  assert (IH' : (0 <= zsum (map g l) <= 1)%Z).
  { apply IH; [intros w' I; apply H; now right|]. intros i j v v' E E' G G'. assert (S i = S j) by (apply (U (S i) (S j) v v'); auto). lia. }
  destruct (H w (or_introl eq_refl)) as [E|E]; rewrite E; [lia|].
  assert (Z0 : zsum (map g l) = 0%Z); [|lia].
  assert (A : forall w', In w' l -> g w' = 0%Z).
  { intros w' I. destruct (H w' (or_intror I)) as [E'|E']; [exact E'|]. exfalso. apply In_nth_error in I as (j & Ej).
    assert (0 = S j)%nat by (apply (U 0%nat (S j) w w'); auto). lia. }
  clear - A. induction l as [|v l IH]; unfold zsum in *; cbn [map fold_right]; [reflexivity|]. fold (zsum (map g l)) in *.
  rewrite (A v (or_introl eq_refl)), IH by (intros w' I; apply A; now right). reflexivity.
Qed.

(** A loop that passes no point twice is cut into pieces that have no points but their ends in common. *)
Lemma slices_once (g : seg -> Z) q : passes_once p -> let all := flat_map (fun c => vsegs p (bs_view (fst c))) cs in
  (forall w, In w all \/ In w (spec_segs (vtx p) (is_closed p)) -> q <> pos (fst w) /\ q <> pos (snd w) /\ (on w q -> g w = 1%Z) /\ (~ on w q -> g w = 0%Z)) ->
  (zsum (map g all) <= 1)%Z.
Proof.
  intros PO all H. unfold all. rewrite slices_sum.
  - apply one_of.
    + intros w I. destruct (H w (or_intror I)) as (_ & _ & G1 & G0). destruct (Classical_Prop.classic (on w q)); auto.
    + assert (G : forall i w, nth_error (spec_segs (vtx p) (is_closed p)) i = Some w -> g w = 1%Z -> exists t, t < 1 /\ point_at p i t q).
      { intros i [a b] E Gw. assert (I : In (a, b) (spec_segs (vtx p) (is_closed p))) by (eapply nth_error_In; exact E). destruct (H (a, b) (or_intror I)) as (N1 & N2 & G1 & G0).
        destruct (Classical_Prop.classic (on (a, b) q)) as [(t & Ht & Hq)|N]; [|rewrite (G0 N) in Gw; discriminate]. cbn [fst snd] in *. exists t. split.
        - apply Rnot_le_lt. intros L. assert (t = 1) by lra. subst t. apply N2. destruct (okp a b I) as (Ok & _). apply (seg_at_unique a b 1); auto. now apply seg_at_1.
        - exists a, b. auto. }
      intros i j w w' E E' Gw Gw'. destruct (G i w E Gw) as (t & Lt & Pt). destruct (G j w' E' Gw') as (u & Lu & Pu). exact (proj1 (PO i j t u q Pt Pu Lt Lu)).
  - intros k a b E. assert (I : In (a, b) (spec_segs (vtx p) (is_closed p))) by (eapply nth_error_In; exact E). destruct (okp a b I) as (Ok & Nd).
    destruct (Classical_Prop.classic (on (a, b) q)) as [(s0 & Hs0 & Hq0)|N].
    + cbn [fst snd] in Hq0. exists (fun t => if Rlt_dec s0 t then 1 else 0). intros t u w T0 T1 T2 HP Okw Iw. destruct (H w Iw) as (N1 & N2 & G1 & G0).
      destruct (Classical_Prop.classic (on w q)) as [Hon|Hon].
      * rewrite (G1 Hon). destruct Hon as (s & Hs & Hq).
        assert (Hs' : 0 < s < 1).
        { split; apply Rnot_le_lt; intros L.
          - assert (s = 0) by lra. subst s. apply N1. apply (seg_at_unique (fst w) (snd w) 0); auto. now apply seg_at_0.
          - assert (s = 1) by lra. subst s. apply N2. apply (seg_at_unique (fst w) (snd w) 1); auto. now apply seg_at_1. }
        assert (0 < s * (u - t)) by (apply Rmult_lt_0_compat; lra). assert (s * (u - t) < 1 * (u - t)) by (apply Rmult_lt_compat_r; lra).
        apply HP in Hq. assert (s0 = t + s * (u - t)) by (apply (seg_at_inj a b s0 (t + s * (u - t)) q); auto; lra).
        destruct (Rlt_dec s0 u), (Rlt_dec s0 t); lra.
      * rewrite (G0 Hon). destruct (Rlt_dec s0 u) as [L|L], (Rlt_dec s0 t) as [L'|L']; try lra.
        exfalso. apply Hon. exists ((s0 - t) / (u - t)). split.
        -- split; [apply Rmult_le_pos; [lra|left; apply Rinv_0_lt_compat; lra]|]. apply (Rmult_le_reg_r (u - t)); [lra|]. field_simplify; lra.
        -- apply HP. replace (t + (s0 - t) / (u - t) * (u - t)) with s0 by (field; lra). exact Hq0.
    + exists (fun _ => 0). intros t u w T0 T1 T2 HP Okw Iw. destruct (H w Iw) as (N1 & N2 & G1 & G0). rewrite G0; [lra|]. intros Hon. apply N.
      apply (piece_on a b t u (fst w) (snd w)); auto; lra.
Qed.

(** The slices cover the loop. *)
Lemma slices_cover q : on_path p q -> exists c w, In c cs /\ In w (vsegs p (bs_view (fst c))) /\ on w q.
Proof.
  intros (a & b & I & s & Hs & Hq). apply In_nth_error in I as (k & E).
  assert (Lk : (k < n)%nat) by (rewrite <- segs_len; apply nth_error_Some; congruence).
  assert (W : exists k s a b, (k < n)%nat /\ nth_error (spec_segs (vtx p) (is_closed p)) k = Some (a, b) /\ 0 <= s < 1 /\ seg_at a b s q).
  { destruct (Rlt_dec s 1) as [L|L].
    - exists k, s, a, b. repeat split; auto; lra.
    - assert (s = 1) by lra. subst s. destruct (seg_of k Lk) as (a0 & b0 & E0 & _ & En & Ok0 & _). rewrite E in E0. injection E0 as <- <-.
      assert (Lm : ((k + 1) mod n < n)%nat) by (apply Nat.mod_upper_bound; unfold n; lia).
      destruct (seg_of _ Lm) as (a1 & b1 & E1 & Ea & _ & Ok1 & _). exists ((k + 1) mod n)%nat, 0, a1, b1. repeat split; auto; try lra.
      assert (a1 = b) by congruence. subst a1. assert (q = pos b) by (apply (seg_at_unique a b 1); auto; now apply seg_at_1). subst q. now apply seg_at_0. }
  clear a b s k E Lk Hs Hq. destruct W as (k & s & a & b & Lk & E & Hs & Hq).
  destruct (gaps_cover order (k, s) ne sorted) as ([[i t] x] & [[j u] y] & IG & HC). cbn [spot fst] in HC.
  destruct (gap_ok _ _ _ _ _ _ IG) as (L1 & B1 & L2 & B2).
  destruct (slice_pieces_amid n i t j u k s L1 L2 Lk B1 B2 Hs HC) as (t' & u' & IP & HB).
  destruct (forall2_left _ _ _ _ betw IG) as (c & Ic & Bc). pose proof (slice_piece _ _ _ _ _ _ _ IG Bc) as F2.
  destruct (forall2_left _ _ _ _ F2 IP) as (w & Iw & a' & b' & E' & Ok & Nd & T0 & T1 & T2 & HP & Okw).
  rewrite E in E'. injection E' as <- <-. exists c, w. split; [exact Ic|]. split; [exact Iw|].
  exists ((s - t') / (u' - t')). split.
  - split; [apply Rmult_le_pos; [lra|apply Rlt_le, Rinv_0_lt_compat; lra]|]. apply (Rmult_le_reg_r (u' - t')); [lra|]. field_simplify; lra.
  - apply HP. replace (t' + (s - t') / (u' - t') * (u' - t')) with s by (field; lra). exact Hq.
Qed.

Lemma slices_on c w q : In c cs -> In w (vsegs p (bs_view (fst c))) -> okseg w /\ (on w q -> on_path p q).
Proof.
  intros Ic Iw. destruct (gap_slice c Ic) as (i & t & x & j & u & y & IG & B). pose proof (slice_piece _ _ _ _ _ _ _ IG B) as F2.
  destruct (forall2_right _ _ _ _ F2 Iw) as ([[k t'] u'] & IP & a & b & E & Ok & Nd & T0 & T1 & T2 & HP & Okw). split; [exact Okw|].
  intros Hq. exists a, b. split; [eapply nth_error_In; exact E|]. apply (piece_on a b t' u' (fst w) (snd w)); auto; lra.
Qed.
End Loop.
