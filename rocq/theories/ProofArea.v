(** Functions that do not fall, and what follows for weighted points of a line (for C65). *)
From Coq Require Import Reals ZArith Bool List Lra Lia.
From Verif Require Import SpecGeom ProofMeasure ProofWinding7.
Import ListNotations.
Local Open Scope R_scope.

Lemma mvt_open f f' a b : a < b -> (forall x, a <= x <= b -> continuity_pt f x) ->
  (forall x, a < x < b -> derivable_pt_lim f x (f' x)) -> exists c, a < c < b /\ f b - f a = f' c * (b - a).
Proof.
  intros L C D. assert (P : forall c, a < c < b -> derivable_pt f c) by (intros c Hc; exists (f' c); now apply D).
  destruct (MVT f id a b P (fun c _ => derivable_pt_id c) L C) as (c & Hc & E).
  - intros c _. apply derivable_continuous_pt, derivable_pt_id.
  - exists c. split; [exact Hc|]. rewrite (derive_pt_eq_0 _ _ _ (derivable_pt_id c) (derivable_pt_lim_id c)) in E.
    rewrite (derive_pt_eq_0 _ _ _ (P c Hc) (D c Hc)) in E. unfold id in E. lra.
Qed.

Section Mono.
Variables (f f' : R -> R).

Lemma mono_except E : forall a b, a <= b -> (forall x, a <= x <= b -> continuity_pt f x) ->
  (forall x, a < x < b -> ~ In x E -> derivable_pt_lim f x (f' x) /\ 0 <= f' x) -> f a <= f b.
Proof.
  induction E as [|e E IH]; intros a b L C D.
  - destruct (Rle_lt_or_eq_dec a b L) as [L'|<-]; [|lra].
    destruct (mvt_open f f' a b L' C) as (c & Hc & Q); [intros x Hx; now apply D|].
    destruct (D c Hc) as (_ & P); [easy|]. assert (0 <= f' c * (b - a)) by (apply Rmult_le_pos; lra). lra.
  - assert (G : a < e < b \/ ~ a < e < b) by (destruct (Rlt_dec a e), (Rlt_dec e b); lra).
    destruct G as [G|G].
    + apply Rle_trans with (f e); apply IH; try lra; intros x Hx; try (apply C; lra); intros N; apply D; try lra; intros [Q|Q]; try contradiction; lra.
    + apply IH; auto. intros x Hx N. apply D; [exact Hx|]. intros [->|Q]; contradiction.
Qed.

Lemma mono_strict E a b p q : a <= p -> p < q -> q <= b -> (forall x, a <= x <= b -> continuity_pt f x) ->
  (forall x, a < x < b -> ~ In x E -> derivable_pt_lim f x (f' x) /\ 0 <= f' x) ->
  (forall x, p < x < q -> ~ In x E /\ 0 < f' x) -> f a < f b.
Proof.
  intros L1 L L2 C D P.
  apply Rle_lt_trans with (f p); [apply (mono_except E); auto; intros x Hx; [apply C|apply D]; lra|].
  apply Rlt_le_trans with (f q); [|apply (mono_except E); auto; intros x Hx; [apply C|apply D]; lra].
  destruct (mvt_open f f' p q L) as (c & Hc & Q).
  - intros x Hx. apply C. lra.
  - intros x Hx. destruct (P x Hx) as (N & _). apply D; [lra|exact N].
  - destruct (P c Hc) as (_ & Pc). assert (0 < f' c * (q - p)) by (apply Rmult_lt_0_compat; lra). lra.
Qed.
End Mono.

(** Away from a finite set of places there is room on both sides. *)
Lemma room_except (E : list R) x : ~ In x E -> exists d, 0 < d /\ forall e, In e E -> d <= Rabs (e - x).
Proof.
  induction E as [|e E IH]; intros N.
  - exists 1. split; [lra|easy].
  - destruct IH as (d & Hd & K); [intros I; apply N; now right|].
    assert (P : 0 < Rabs (e - x)) by (apply Rabs_pos_lt; intros Q; apply N; left; lra).
    exists (Rmin d (Rabs (e - x))). split; [now apply Rmin_pos|]. intros e' [->|I].
    + apply Rmin_r.
    + eapply Rle_trans; [apply Rmin_l|now apply K].
Qed.

(** ... and near every place there are such places. *)
Lemma generic_near (E : list R) x e : 0 < e -> exists x', x < x' < x + e /\ ~ In x' E.
Proof.
  revert e. induction E as [|y E IH]; intros e He.
  - exists (x + e / 2). split; [lra|easy].
  - destruct (Rlt_dec x y) as [L|L].
    + destruct (IH (Rmin e (y - x))) as (x' & Hx & N); [apply Rmin_pos; lra|].
      pose proof (Rmin_l e (y - x)). pose proof (Rmin_r e (y - x)).
      exists x'. split; [lra|]. intros [Q|Q]; [lra|contradiction].
    + destruct (IH e He) as (x' & Hx & N). exists x'. split; [exact Hx|]. intros [Q|Q]; [lra|contradiction].
Qed.

Definition slice := list (Z * R).
(** The weights of the points to the right of [u]. *)
Definition count (L : slice) (u : R) : Z := zsum (map (fun e => if Rlt_dec u (snd e) then fst e else 0%Z) L).
Definition moment (L : slice) : R := rsum (map (fun e => IZR (fst e) * snd e) L).
Definition weight (L : slice) : Z := zsum (map fst L).
Definition ramp (L : slice) (u : R) : R := rsum (map (fun e => IZR (fst e) * Rmin u (snd e)) L).

Lemma deriv_local f g x l : (exists d, 0 < d /\ forall y, Rabs (y - x) < d -> f y = g y) -> derivable_pt_lim g x l -> derivable_pt_lim f x l.
Proof.
  intros (d & Hd & E) D e He. destruct (D e He) as (d' & K).
  assert (P : 0 < Rmin d d') by (apply Rmin_pos; [exact Hd|apply cond_pos]). exists (mkposreal _ P). intros h N B. cbn in B.
  rewrite (E (x + h)), (E x).
  - apply K; [exact N|]. eapply Rlt_le_trans; [exact B|apply Rmin_r].
  - rewrite Rminus_diag_eq, Rabs_R0 by reflexivity. exact Hd.
  - replace (x + h - x) with h by ring. eapply Rlt_le_trans; [exact B|apply Rmin_l].
Qed.

Lemma continuity_Rmin c x : continuity_pt (fun u => Rmin u c) x.
Proof.
  intros e He. exists e. split; [exact He|]. intros y ((_ & N) & D). cbn in *. unfold R_dist in *.
  eapply Rle_lt_trans; [|exact D]. unfold Rmin. destruct (Rle_dec y c), (Rle_dec x c); unfold Rabs; repeat destruct (Rcase_abs _); lra.
Qed.
Lemma continuity_Rmax c x : continuity_pt (fun u => Rmax c u) x.
Proof.
  intros e He. exists e. split; [exact He|]. intros y ((_ & N) & D). cbn in *. unfold R_dist in *.
  eapply Rle_lt_trans; [|exact D]. unfold Rmax. destruct (Rle_dec c y), (Rle_dec c x); unfold Rabs; repeat destruct (Rcase_abs _); lra.
Qed.

Lemma ramp_cont L x : continuity_pt (ramp L) x.
Proof.
  induction L as [|(w, z) L IH].
  - apply continuity_pt_const. intros u v. reflexivity.
  - apply (continuity_pt_plus (fun u => IZR w * Rmin u z) (ramp L)); [|exact IH].
    apply (continuity_pt_mult (fun _ => IZR w) (fun u => Rmin u z)); [apply continuity_pt_const; intros u v; reflexivity|apply continuity_Rmin].
Qed.

Lemma ramp_deriv L x : ~ In x (map snd L) -> derivable_pt_lim (ramp L) x (IZR (count L x)).
Proof.
  induction L as [|(w, z) L IH]; intros N.
  - apply (derivable_pt_lim_const 0).
  - cbn [map In snd] in N. unfold count, zsum. cbn [map fold_right fst snd]. fold (zsum (map (fun e => if Rlt_dec x (snd e) then fst e else 0%Z) L)).
    change (derivable_pt_lim (fun u => IZR w * Rmin u z + ramp L u) x (IZR ((if Rlt_dec x z then w else 0) + count L x))). rewrite plus_IZR.
    apply (derivable_pt_lim_plus (fun u => IZR w * Rmin u z) (ramp L)); [|apply IH; tauto].
    assert (P : 0 < Rabs (z - x)) by (apply Rabs_pos_lt; intros Q; apply N; left; lra).
    destruct (Rlt_dec x z) as [L'|L'].
    + apply (deriv_local _ (fun u => IZR w * u)).
      * exists (z - x). split; [lra|]. intros y Hy. unfold Rabs in Hy. destruct (Rcase_abs (y - x)); rewrite Rmin_left by lra; reflexivity.
      * eapply deriv_ext; [exact (derivable_pt_lim_scal id (IZR w) x 1 (derivable_pt_lim_id x))|ring].
    + assert (z < x). { destruct (Rtotal_order x z) as [?|[?|?]]; auto; [contradiction|]. exfalso. apply N. left. lra. }
      apply (deriv_local _ (fun _ => IZR w * z)).
      * exists (x - z). split; [lra|]. intros y Hy. unfold Rabs in Hy. destruct (Rcase_abs (y - x)); rewrite Rmin_right by lra; reflexivity.
      * apply derivable_pt_lim_const.
Qed.

Lemma ramp_right L m : (forall z, In z (map snd L) -> z <= m) -> ramp L m = moment L.
Proof.
  intros H. unfold ramp, moment. f_equal. apply map_ext_in. intros (w, z) I. cbn [fst snd]. rewrite Rmin_right; [reflexivity|].
  apply H. apply in_map_iff. exists (w, z). auto.
Qed.
Lemma ramp_left L m : (forall z, In z (map snd L) -> m <= z) -> ramp L m = m * IZR (weight L).
Proof.
  induction L as [|(w, z) L IH]; intros H.
  - unfold ramp, weight, zsum. cbn. ring.
  - unfold weight, zsum. cbn [map fold_right fst]. fold (zsum (map fst L)). fold (weight L). rewrite plus_IZR.
    change (IZR w * Rmin m z + ramp L m = m * (IZR w + IZR (weight L))). rewrite IH by (intros y I; apply H; now right).
    rewrite Rmin_left by (apply H; now left). ring.
Qed.

Lemma bounded (l : list R) : exists m, 0 < m /\ forall z, In z l -> Rabs z <= m.
Proof.
  induction l as [|z l (m & Hm & K)].
  - exists 1. split; [lra|easy].
  - exists (m + Rabs z). pose proof (Rabs_pos z). split; [lra|]. intros y [->|I]; [lra|]. specialize (K y I). lra.
Qed.

Lemma abel L : weight L = 0%Z -> (forall u, ~ In u (map snd L) -> (0 <= count L u)%Z) -> 0 <= moment L.
Proof.
  intros W P. destruct (bounded (map snd L)) as (m & Hm & B).
  rewrite <- (ramp_right L m) by (intros z I; specialize (B z I); unfold Rabs in B; destruct (Rcase_abs z); lra).
  replace 0 with (ramp L (- m)).
  - apply (mono_except _ (fun u => IZR (count L u)) (map snd L)); [lra|intros; apply ramp_cont|].
    intros x _ N. split; [now apply ramp_deriv|]. apply IZR_le. now apply P.
  - rewrite ramp_left, W by (intros z I; specialize (B z I); unfold Rabs in B; destruct (Rcase_abs z); lra). ring.
Qed.

Lemma abel_strict L u : weight L = 0%Z -> (forall u, ~ In u (map snd L) -> (0 <= count L u)%Z) ->
  ~ In u (map snd L) -> (0 < count L u)%Z -> 0 < moment L.
Proof.
  intros W P Nu Pu. destruct (room_except (map snd L) u Nu) as (d & Hd & K). destruct (bounded (u :: (u + d) :: map snd L)) as (m & Hm & B).
  assert (Bz : forall z, In z (u :: (u + d) :: map snd L) -> - m <= z <= m).
  { intros z I. specialize (B z I). unfold Rabs in B. destruct (Rcase_abs z); lra. }
  rewrite <- (ramp_right L m) by (intros z I; destruct (Bz z); [now right; right|lra]).
  replace 0 with (ramp L (- m)).
  - apply (mono_strict _ (fun u => IZR (count L u)) (map snd L) (- m) m u (u + d)).
    + destruct (Bz u); [now left|lra].
    + lra.
    + destruct (Bz (u + d)); [now right; left|lra].
    + intros; apply ramp_cont.
    + intros x _ N. split; [now apply ramp_deriv|]. apply IZR_le. now apply P.
    + intros x Hx. split.
      * intros I. specialize (K x I). rewrite Rabs_right in K; lra.
      * apply IZR_lt. replace (count L x) with (count L u); [exact Pu|]. unfold count. f_equal. apply map_ext_in. intros (w, z) I. cbn [fst snd].
        assert (I' : In z (map snd L)) by (apply in_map_iff; exists (w, z); auto). specialize (K z I').
        unfold Rabs in K. destruct (Rcase_abs (z - u)), (Rlt_dec u z), (Rlt_dec x z); try reflexivity; lra.
  - rewrite ramp_left, W by (intros z I; destruct (Bz z); [now right; right|lra]). ring.
Qed.
