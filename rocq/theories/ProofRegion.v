(** The slices kept by a boolean operation go around its region (C51). *)
From Coq Require Import Reals ZArith Bool List Arith Lra Lia Psatz.
From Verif Require Import Num RNum Res ModelMath ModelSeg ModelPline Spec SpecGeom SpecBox SpecWinding.
From Verif Require Import ProofR ProofIntr ProofWinding6 ProofWinding7.
Import ListNotations.
Local Open Scope R_scope.

Definition marked := (seg * bool)%type.

(** The contributions of all segments, and of those that are kept. *)
Definition total (l : list marked) (x : vec2 R) : Z := zsum (map (fun e => nw x (fst e)) l).
Definition kept (l : list marked) (x : vec2 R) : Z := zsum (map (fun e : marked => if snd e then nw x (fst e) else 0%Z) l).

Definition off (l : list marked) (x : vec2 R) : Prop := forall e, In e l -> ~ on (fst e) x.
Definition ends_off (h : R) (l : list marked) : Prop := forall e, In e l -> okseg (fst e) /\ py (fst (fst e)) <> h /\ py (snd (fst e)) <> h.

Definition level (h u : R) : vec2 R := V2 u h.

Lemma line_level h u u' t : line_pt (level h u) (level h u') t = level h (u + t * (u' - u)).
Proof. unfold line_pt, level. cbn [vx vy]. f_equal. ring. Qed.

Lemma level_between u u' t : u <= u' -> 0 <= t <= 1 -> u <= u + t * (u' - u) <= u'.
Proof.
  intros L Ht. assert (0 <= t * (u' - u)) by (apply Rmult_le_pos; lra).
  assert (t * (u' - u) <= 1 * (u' - u)) by (apply Rmult_le_compat_r; lra). lra.
Qed.

Lemma nw_stay h s u u' : okseg s -> py (fst s) <> h -> py (snd s) <> h -> u <= u' ->
  (forall w, u <= w <= u' -> ~ on s (level h w)) -> nw (level h u) s = nw (level h u') s.
Proof.
  intros Hok N1 N2 L Hoff. apply nw_level; try assumption; [reflexivity|]. intros t Ht. rewrite line_level. apply Hoff. now apply level_between.
Qed.

Lemma total_stay h l u u' : ends_off h l -> u <= u' -> (forall w, u <= w <= u' -> off l (level h w)) ->
  total l (level h u) = total l (level h u') /\ kept l (level h u) = kept l (level h u').
Proof.
  intros H L Hoff. unfold total, kept. split; f_equal; apply map_ext_in; intros e I; destruct (H e I) as (A & B & C);
    [|destruct (snd e); [|reflexivity]]; apply nw_stay; auto; intros w Hw; apply Hoff; auto.
Qed.

(** Across one point that is on segments of [l] with the same mark. *)
Lemma total_cross h l u u' z k : ends_off h l -> u <= u' ->
  (forall w e, u <= w <= u' -> In e l -> on (fst e) (level h w) -> w = z) ->
  (forall e, In e l -> on (fst e) (level h z) -> snd e = k) ->
  (kept l (level h u') - kept l (level h u) = if k then total l (level h u') - total l (level h u) else 0)%Z.
Proof.
  intros H L Honly Hk. unfold total, kept. induction l as [|e l IH].
  - cbn. destruct k; reflexivity.
  - cbn [map zsum fold_right]. fold (zsum (map (fun e => nw (level h u') (fst e)) l)) (zsum (map (fun e => nw (level h u) (fst e)) l)).
    fold (zsum (map (fun e : marked => if snd e then nw (level h u') (fst e) else 0%Z) l)) (zsum (map (fun e : marked => if snd e then nw (level h u) (fst e) else 0%Z) l)).
    specialize (IH (fun e I => H e (or_intror I)) (fun w e Hw I => Honly w e Hw (or_intror I)) (fun e I => Hk e (or_intror I))).
    destruct (H e (or_introl eq_refl)) as (Ok & N1 & N2).
    assert (C : snd e = k \/ nw (level h u) (fst e) = nw (level h u') (fst e)).
    { destruct (Classical_Prop.classic (on (fst e) (level h z))) as [O|O].
      - left. apply Hk; [now left|exact O].
      - right. apply nw_stay; auto. intros w Hw N. pose proof (Honly w e Hw (or_introl eq_refl) N) as ->. contradiction. }
    destruct C as [C|C].
    + rewrite C. destruct k; lia.
    + rewrite C. destruct (snd e), k; lia.
Qed.

Section Product.
Variables (A B : list marked) (k1 k2 : Z -> bool) (T : Z -> Z -> Z) (sg e1 e2 : Z) (h : R).
Hypothesis okA : ends_off h A.
Hypothesis okB : ends_off h B.
Hypothesis keepA : forall e q, In e A -> on (fst e) q -> vy q = h -> off B q /\ snd e = k1 (total B q).
Hypothesis keepB : forall e q, In e B -> on (fst e) q -> vy q = h -> off A q /\ snd e = k2 (total A q).
Hypothesis valsA : forall x, off A x -> total A x = 0%Z \/ total A x = e1.
Hypothesis valsB : forall x, off B x -> total B x = 0%Z \/ total B x = e2.
Hypothesis T0 : T 0 0 = 0%Z.
Hypothesis T1 : forall a a' b : Z, (a = 0 \/ a = e1)%Z -> (a' = 0 \/ a' = e1)%Z -> (b = 0 \/ b = e2)%Z ->
  (T a' b - T a b = sg * (if k1 b then a' - a else 0))%Z.
Hypothesis T2 : forall a b b' : Z, (a = 0 \/ a = e1)%Z -> (b = 0 \/ b = e2)%Z -> (b' = 0 \/ b' = e2)%Z ->
  (T a b' - T a b = if k2 a then b' - b else 0)%Z.

Definition free (u : R) : Prop := off A (level h u) /\ off B (level h u).
Definition defect (u : R) : Z := (sg * kept A (level h u) + kept B (level h u) - T (total A (level h u)) (total B (level h u)))%Z.

Lemma defect_stay u u' : u <= u' -> (forall w, u <= w <= u' -> free w) -> defect u = defect u'.
Proof.
  intros L H. unfold defect.
  destruct (total_stay h A u u' okA L (fun w Hw => proj1 (H w Hw))) as (-> & ->).
  destruct (total_stay h B u u' okB L (fun w Hw => proj2 (H w Hw))) as (-> & ->). reflexivity.
Qed.

Lemma off_dec l x : off l x \/ exists e, In e l /\ on (fst e) x.
Proof.
  destruct (Classical_Prop.classic (exists e, In e l /\ on (fst e) x)) as [E|E]; [now right|].
  left. intros e I N. apply E. exists e. auto.
Qed.

Lemma defect_cross u z u' : u < z < u' -> free u -> free u' -> (forall w, u <= w <= u' -> w <> z -> free w) -> defect u = defect u'.
Proof.
  intros Hz Fu Fu' Hf.
  destruct (off_dec A (level h z)) as [OA|(ea & Ia & Na)].
  - destruct (off_dec B (level h z)) as [OB|(eb & Ib & Nb)].
    + apply defect_stay; [lra|]. intros w Hw. destruct (Req_dec w z) as [->|N]; [split; assumption|now apply Hf].
    + destruct (keepB eb _ Ib Nb eq_refl) as (_ & _).
      assert (SA : forall w, u <= w <= u' -> off A (level h w)).
      { intros w Hw. destruct (Req_dec w z) as [->|N]; [assumption|]. now apply Hf. }
      destruct (total_stay h A u u' okA ltac:(lra) SA) as (E1 & E2).
      destruct (total_stay h A u z okA ltac:(lra) (fun w Hw => SA w ltac:(lra))) as (E3 & _).
      pose proof (total_cross h B u u' z (k2 (total A (level h z))) okB ltac:(lra)) as C.
      assert (P1 : forall w e, u <= w <= u' -> In e B -> on (fst e) (level h w) -> w = z).
      { intros w e Hw I N. destruct (Req_dec w z) as [Q|Q]; [exact Q|]. exfalso. exact (proj2 (Hf w Hw Q) e I N). }
      assert (P2 : forall e, In e B -> on (fst e) (level h z) -> snd e = k2 (total A (level h z))).
      { intros e I N. apply (keepB e _ I N eq_refl). }
      specialize (C P1 P2).
      pose proof (T2 (total A (level h u)) (total B (level h u)) (total B (level h u')) (valsA _ (proj1 Fu)) (valsB _ (proj2 Fu)) (valsB _ (proj2 Fu'))) as J.
      unfold defect. rewrite <- E1, <- E2. rewrite <- E3 in C. destruct (k2 (total A (level h u))); lia.
  - destruct (keepA ea _ Ia Na eq_refl) as (OB & _).
    assert (SB : forall w, u <= w <= u' -> off B (level h w)).
    { intros w Hw. destruct (Req_dec w z) as [->|N]; [assumption|]. now apply Hf. }
    destruct (total_stay h B u u' okB ltac:(lra) SB) as (E1 & E2).
    destruct (total_stay h B u z okB ltac:(lra) (fun w Hw => SB w ltac:(lra))) as (E3 & _).
    pose proof (total_cross h A u u' z (k1 (total B (level h z))) okA ltac:(lra)) as C.
    assert (P1 : forall w e, u <= w <= u' -> In e A -> on (fst e) (level h w) -> w = z).
    { intros w e Hw I N. destruct (Req_dec w z) as [Q|Q]; [exact Q|]. exfalso. exact (proj1 (Hf w Hw Q) e I N). }
    assert (P2 : forall e, In e A -> on (fst e) (level h z) -> snd e = k1 (total B (level h z))).
    { intros e I N. apply (keepA e _ I N eq_refl). }
    specialize (C P1 P2).
    pose proof (T1 (total A (level h u)) (total A (level h u')) (total B (level h u)) (valsA _ (proj1 Fu)) (valsA _ (proj1 Fu')) (valsB _ (proj2 Fu))) as J.
    unfold defect. rewrite <- E1, <- E2. rewrite <- E3 in C. destruct (k1 (total B (level h u))); lia.
Qed.

Lemma crossings_list l : ends_off h l -> exists xs, forall u, ~ In u xs -> off l (level h u).
Proof.
  induction l as [|e l IH]; intros H.
  - exists []. intros u _ e [].
  - destruct (IH (fun e I => H e (or_intror I))) as (xs & K). destruct (H e (or_introl eq_refl)) as (Ok & N1 & _).
    destruct (seg_crossings (fst e) h Ok N1) as (ys & K'). exists (ys ++ xs). intros u Nu e' [<-|I] N.
    + apply Nu, in_or_app. left. exact (K' _ N eq_refl).
    + refine (K u _ e' I N). intros Q. apply Nu, in_or_app. now right.
Qed.

(** A point has room around it free of the other points of a list. *)
Lemma list_room (xs : list R) z : exists e, 0 < e /\ forall x, In x xs -> x <> z -> e <= Rabs (x - z).
Proof.
  induction xs as [|a xs (e & He & K)].
  - exists 1. split; [lra|]. intros x [].
  - destruct (Req_dec a z) as [->|N].
    + exists e. split; [exact He|]. intros x [<-|I] Nx; [contradiction|auto].
    + exists (Rmin e (Rabs (a - z))). split; [apply Rmin_pos; [exact He|]; apply Rabs_pos_lt; lra|].
      intros x [<-|I] Nx; [apply Rmin_r|]. eapply Rle_trans; [apply Rmin_l|auto].
Qed.

Lemma defect_walk (xs : list R) : (forall u, ~ In u xs -> free u) -> forall n u u', u <= u' -> free u -> free u' ->
  (length (filter (fun x => if Rlt_dec u x then if Rlt_dec x u' then true else false else false) xs) <= n)%nat -> defect u = defect u'.
Proof.
  intros Hxs.
  assert (Cnt : forall a b a' b' z, In z xs -> a' < z < b' -> a' <= a -> b <= b' -> ~ (a < z < b) ->
    (length (filter (fun x => if Rlt_dec a x then if Rlt_dec x b then true else false else false) xs)
     < length (filter (fun x => if Rlt_dec a' x then if Rlt_dec x b' then true else false else false) xs))%nat).
  { intros a b a' b' z Iz Hz La Lb Nz. clear Hxs.
    assert (Le : forall l, (length (filter (fun x => if Rlt_dec a x then if Rlt_dec x b then true else false else false) l)
      <= length (filter (fun x => if Rlt_dec a' x then if Rlt_dec x b' then true else false else false) l))%nat).
    { induction l as [|y l IH]; [apply Nat.le_refl|]. cbn [filter].
      destruct (Rlt_dec a y), (Rlt_dec y b), (Rlt_dec a' y), (Rlt_dec y b'); cbn [length]; try lia; lra. }
    induction xs as [|y l IH]; [contradiction|]. cbn [filter]. specialize (Le l). destruct Iz as [->|Iz].
    - destruct (Rlt_dec a z), (Rlt_dec z b), (Rlt_dec a' z), (Rlt_dec z b'); cbn [length]; try lia; lra.
    - specialize (IH Iz). destruct (Rlt_dec a y), (Rlt_dec y b), (Rlt_dec a' y), (Rlt_dec y b'); cbn [length]; try lia; lra. }
  induction n as [|n IH]; intros u u' L Fu Fu' Hn.
  - apply defect_stay; [exact L|]. intros w Hw.
    destruct (Req_dec w u) as [->|N1]; [exact Fu|]. destruct (Req_dec w u') as [->|N2]; [exact Fu'|].
    apply Hxs. intros I. assert (Z : In w (filter (fun x => if Rlt_dec u x then if Rlt_dec x u' then true else false else false) xs)).
    { apply filter_In. split; [exact I|]. destruct (Rlt_dec u w); [|lra]. destruct (Rlt_dec w u'); [reflexivity|lra]. }
    destruct (filter _ xs); [contradiction|cbn in Hn; lia].
  - destruct (filter (fun x => if Rlt_dec u x then if Rlt_dec x u' then true else false else false) xs) as [|z l] eqn:E.
    + apply IH; auto. rewrite E. cbn. lia.
    + assert (Z : In z (filter (fun x => if Rlt_dec u x then if Rlt_dec x u' then true else false else false) xs)) by (rewrite E; now left).
      apply filter_In in Z as (Iz & Bz). destruct (Rlt_dec u z) as [L1|]; [|discriminate]. destruct (Rlt_dec z u') as [L2|]; [|discriminate].
      destruct (list_room xs z) as (e & He & K).
      set (d := Rmin (e / 2) (Rmin ((z - u) / 2) ((u' - z) / 2))).
      assert (Hd : 0 < d) by (unfold d; repeat apply Rmin_pos; lra).
      assert (D1 : d <= e / 2) by (unfold d; apply Rmin_l).
      assert (D2 : d <= (z - u) / 2) by (unfold d; eapply Rle_trans; [apply Rmin_r|apply Rmin_l]).
      assert (D3 : d <= (u' - z) / 2) by (unfold d; eapply Rle_trans; [apply Rmin_r|apply Rmin_r]).
      assert (Fr : forall w, z - d <= w <= z + d -> w <> z -> free w).
      { intros w Hw Nw. apply Hxs. intros I. specialize (K w I Nw). revert K. unfold Rabs. destruct (Rcase_abs _); lra. }
      rewrite <- E in Hn.
      transitivity (defect (z - d)); [|transitivity (defect (z + d))].
      * apply IH; [lra|exact Fu|apply Fr; lra|].
        assert (Q := Cnt u (z - d) u u' z Iz ltac:(lra) ltac:(lra) ltac:(lra) ltac:(lra)). lia.
      * apply (defect_cross (z - d) z (z + d)); [lra|apply Fr; lra|apply Fr; lra|exact Fr].
      * apply IH; [lra|apply Fr; lra|exact Fu'|].
        assert (Q := Cnt (z + d) u' u u' z Iz ltac:(lra) ltac:(lra) ltac:(lra) ltac:(lra)). lia.
Qed.

Lemma far_right l : ends_off h l -> exists M, forall u, M <= u -> off l (level h u) /\ total l (level h u) = 0%Z /\ kept l (level h u) = 0%Z.
Proof.
  induction l as [|e l IH]; intros H.
  - exists 0. intros u _. split; [intros e []|split; reflexivity].
  - destruct (IH (fun e I => H e (or_intror I))) as (M & K). destruct (H e (or_introl eq_refl)) as (Ok & _ & _).
    destruct (seg_right (fst e) Ok) as (M' & K'). exists (Rmax M M'). intros u Hu.
    destruct (K u) as (O & E1 & E2); [eapply Rle_trans; [apply Rmax_l|exact Hu]|].
    assert (L : M' <= u) by (eapply Rle_trans; [apply Rmax_r|exact Hu]).
    assert (Z : nw (level h u) (fst e) = 0%Z).
    { apply nw_right; [exact Ok|]. intros q Hq. specialize (K' q Hq). cbn. lra. }
    split; [|split].
    + intros e' [<-|I]; [|now apply O]. intros N. specialize (K' _ N). cbn in K'. lra.
    + unfold total in *. cbn [map zsum fold_right]. rewrite Z. exact E1.
    + unfold kept in *. cbn [map zsum fold_right]. rewrite Z. destruct (snd e); exact E2.
Qed.

(** The kept segments wind around a point as the operation says. *)
Lemma kept_region u : free u -> (sg * kept A (level h u) + kept B (level h u) = T (total A (level h u)) (total B (level h u)))%Z.
Proof.
  intros F. destruct (crossings_list A okA) as (xa & KA). destruct (crossings_list B okB) as (xb & KB).
  destruct (far_right A okA) as (Ma & FA). destruct (far_right B okB) as (Mb & FB).
  set (u' := Rmax u (Rmax Ma Mb)).
  assert (L1 : Ma <= u') by (unfold u'; eapply Rle_trans; [apply Rmax_l|apply Rmax_r]).
  assert (L2 : Mb <= u') by (unfold u'; eapply Rle_trans; [apply Rmax_r|apply Rmax_r]).
  assert (L3 : u <= u') by (unfold u'; apply Rmax_l).
  destruct (FA u' L1) as (OA & TA & SA). destruct (FB u' L2) as (OB & TB & SB).
  assert (D : defect u = defect u').
  { apply (defect_walk (xa ++ xb)) with (n := length (filter (fun x => if Rlt_dec u x then if Rlt_dec x u' then true else false else false) (xa ++ xb))); auto.
    - intros w Nw. split; [apply KA|apply KB]; intros I; apply Nw, in_or_app; auto.
    - split; assumption. }
  unfold defect in D. rewrite TA, TB, SA, SB, T0 in D. lia.
Qed.
End Product.
