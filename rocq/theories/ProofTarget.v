(** Segments that are kept where a region begins go around it (C76). *)
From Coq Require Import Reals ZArith Bool List Arith Lra Lia Psatz.
From Verif Require Import Num RNum Res ModelMath ModelSeg ModelPline Spec SpecGeom SpecBox SpecWinding.
From Verif Require Import ProofR ProofIntr ProofArc ProofSlice ProofWinding ProofOffsetJoin2 ProofWinding2 ProofWinding6 ProofWinding7 ProofRegion ProofRegion2.
Import ListNotations.
Local Open Scope R_scope.

(** ** Walking along a line *)
Section Walk.
Variables (f : R -> Z) (free : R -> Prop).
Hypothesis stay : forall u u', u <= u' -> (forall w, u <= w <= u' -> free w) -> f u = f u'.
Hypothesis cross : forall u z u', u < z < u' -> (forall w, u <= w <= u' -> w <> z -> free w) -> f u = f u'.

Lemma walk_all (xs : list R) : (forall u, ~ In u xs -> free u) -> forall n u u', u <= u' -> free u -> free u' ->
  (length (filter (fun x => if Rlt_dec u x then if Rlt_dec x u' then true else false else false) xs) <= n)%nat -> f u = f u'.
Proof.
  intros Hxs.
  assert (Cnt : forall a b a' b' z, In z xs -> a' < z < b' -> a' <= a -> b <= b' -> ~ (a < z < b) ->
    (length (filter (fun x => if Rlt_dec a x then if Rlt_dec x b then true else false else false) xs)
     < length (filter (fun x => if Rlt_dec a' x then if Rlt_dec x b' then true else false else false) xs))%nat).
  { intros a b a' b' z Iz Hz La Lb Nz. clear Hxs.
    assert (Le : forall l, (length (filter (fun x => if Rlt_dec a x then if Rlt_dec x b then true else false else false) l)
      <= length (filter (fun x => if Rlt_dec a' x then if Rlt_dec x b' then true else false else false) l))%nat).
    { induction l as [|y l IH]; [apply Nat.le_refl|]. cbn [filter].
      destruct (Rlt_dec a y), (Rlt_dec y b), (Rlt_dec a' y), (Rlt_dec y b'); cbn [length]; try lia; lra. }
    induction xs as [|y l IH]; [contradiction|]. cbn [filter]. specialize (Le l). destruct Iz as [->|Iz].
    - destruct (Rlt_dec a z), (Rlt_dec z b), (Rlt_dec a' z), (Rlt_dec z b'); cbn [length]; try lia; lra.
    - specialize (IH Iz). destruct (Rlt_dec a y), (Rlt_dec y b), (Rlt_dec a' y), (Rlt_dec y b'); cbn [length]; try lia; lra. }
  induction n as [|n IH]; intros u u' L Fu Fu' Hn.
  - apply stay; [exact L|]. intros w Hw.
    destruct (Req_dec w u) as [->|N1]; [exact Fu|]. destruct (Req_dec w u') as [->|N2]; [exact Fu'|].
    apply Hxs. intros I. assert (Z : In w (filter (fun x => if Rlt_dec u x then if Rlt_dec x u' then true else false else false) xs)).
    { apply filter_In. split; [exact I|]. destruct (Rlt_dec u w); [|lra]. destruct (Rlt_dec w u'); [reflexivity|lra]. }
    destruct (filter _ xs); [contradiction|cbn in Hn; lia].
  - destruct (filter (fun x => if Rlt_dec u x then if Rlt_dec x u' then true else false else false) xs) as [|z l] eqn:E.
    + apply IH; auto. rewrite E. cbn. lia.
    + assert (Z : In z (filter (fun x => if Rlt_dec u x then if Rlt_dec x u' then true else false else false) xs)) by (rewrite E; now left).
      apply filter_In in Z as (Iz & Bz). destruct (Rlt_dec u z) as [L1|]; [|discriminate]. destruct (Rlt_dec z u') as [L2|]; [|discriminate].
      destruct (list_room xs z) as (e & He & K).
      set (d := Rmin (e / 2) (Rmin ((z - u) / 2) ((u' - z) / 2))).
      assert (Hd : 0 < d) by (unfold d; repeat apply Rmin_pos; lra).
      assert (D1 : d <= e / 2) by (unfold d; apply Rmin_l).
      assert (D2 : d <= (z - u) / 2) by (unfold d; eapply Rle_trans; [apply Rmin_r|apply Rmin_l]).
      assert (D3 : d <= (u' - z) / 2) by (unfold d; eapply Rle_trans; [apply Rmin_r|apply Rmin_r]).
      assert (Fr : forall w, z - d <= w <= z + d -> w <> z -> free w).
      { intros w Hw Nw. apply Hxs. intros I. specialize (K w I Nw). revert K. unfold Rabs. destruct (Rcase_abs _); lra. }
      rewrite <- E in Hn.
      transitivity (f (z - d)); [|transitivity (f (z + d))].
      * apply IH; [lra|exact Fu|apply Fr; lra|].
        assert (Q := Cnt u (z - d) u u' z Iz ltac:(lra) ltac:(lra) ltac:(lra) ltac:(lra)). lia.
      * apply (cross (z - d) z (z + d)); [lra|exact Fr].
      * apply IH; [lra|apply Fr; lra|exact Fu'|].
        assert (Q := Cnt (z + d) u' u u' z Iz ltac:(lra) ltac:(lra) ltac:(lra) ltac:(lra)). lia.
Qed.

Lemma walk (xs : list R) u u' : (forall u, ~ In u xs -> free u) -> u <= u' -> free u -> free u' -> f u = f u'.
Proof. intros H L F F'. eapply (walk_all xs H _ u u' L F F'). apply Nat.le_refl. Qed.
End Walk.

(** ** Lines *)

(** Whether a point is to the left of the line. *)
Definition lr (s : seg) (x : vec2 R) : Z := if Rlt_dec 0 (perp (fst s) (snd s) x) then 1%Z else 0%Z.

Lemma nw_line (s : seg) x : pbulge (fst s) = 0 ->
  nw x s = if Rle_dec (py (fst s)) (vy x) then if Rlt_dec (vy x) (py (snd s)) then lr s x else 0%Z
           else if Rle_dec (py (snd s)) (vy x) then (lr s x - 1)%Z else 0%Z.
Proof.
  destruct s as [v1 v2]. cbn [fst snd]. intros Z. unfold nw, winding_step, process_line_winding, lr. cbn [fst snd].
  rewrite (ProofOffsetJoin2.is_zero_line v1 Z).
  assert (EL : is_left (pos v1) (pos v2) x = rltb 0 (perp v1 v2 x)) by reflexivity. rewrite EL. rnum.
  destruct (Rle_dec (py v1) (vy x)).
  - destruct (Rlt_dec (vy x) (py v2)); rcases; cbn; try reflexivity; try lra;
      destruct (Rlt_dec 0 (perp v1 v2 x)); try reflexivity; lra.
  - destruct (Rle_dec (py v2) (vy x)); rcases; cbn; try reflexivity; try lra;
      destruct (Rlt_dec 0 (perp v1 v2 x)); try reflexivity; lra.
Qed.

Lemma line_on (s : seg) q : pbulge (fst s) = 0 -> on s q -> exists t, 0 <= t <= 1 /\ vx q = px (fst s) + t * (px (snd s) - px (fst s)) /\ vy q = py (fst s) + t * (py (snd s) - py (fst s)).
Proof.
  intros Z (t & Ht & Hat). apply seg_at_line in Hat; [|exact Z]. exists t. split; [exact Ht|]. subst q. split; reflexivity.
Qed.

Lemma line_level_lr (s : seg) q h : pbulge (fst s) = 0 -> on s q -> vy q = h -> py (fst s) <> h -> py (snd s) <> h ->
  forall u u', (nw (level h u') s - nw (level h u) s = lr s (level h u') - lr s (level h u))%Z.
Proof.
  intros Z On E N1 N2 u u'. destruct (line_on s q Z On) as (t & Ht & _ & Ey). rewrite !nw_line by exact Z. cbn [level vy].
  assert (K : (py (fst s) < h < py (snd s)) \/ (py (snd s) < h < py (fst s))).
  { rewrite E in Ey. destruct (Rtotal_order (py (fst s)) (py (snd s))) as [L|[L|L]].
    - left. assert (0 <= t * (py (snd s) - py (fst s)) <= 1 * (py (snd s) - py (fst s))) by (split; [apply Rmult_le_pos|apply Rmult_le_compat_r]; lra). lra.
    - rewrite L in *. exfalso. apply N1. rewrite Ey. ring.
    - right. assert (0 <= t * (py (fst s) - py (snd s)) <= 1 * (py (fst s) - py (snd s))) by (split; [apply Rmult_le_pos|apply Rmult_le_compat_r]; lra). lra. }
  destruct (Rle_dec (py (fst s)) h); destruct (Rlt_dec h (py (snd s))); destruct (Rle_dec (py (snd s)) h); try lra; lia.
Qed.

Lemma line_jump_lr (s : seg) u h d : pbulge (fst s) = 0 -> on s (V2 u h) -> px (fst s) <> u -> px (snd s) <> u -> 0 < d ->
  (forall v, v = fst s \/ v = snd s -> py v = h \/ py v < h - d \/ h + d < py v) ->
  jump u h d s = (lr s (V2 u (h + d)%R) - lr s (V2 u (h - d)%R))%Z.
Proof.
  intros Z On N1 N2 Hd Hv. destruct (line_on s _ Z On) as (t & Ht & Ex & Ey). cbn [vx vy] in Ex, Ey.
  pose proof (Hv _ (or_introl eq_refl)) as V1. pose proof (Hv _ (or_intror eq_refl)) as V2'. clear Hv.
  unfold jump. rewrite !nw_line by exact Z. cbn [vy]. unfold ray, lr, perp. destruct s as [v1 v2]. cbn [fst snd pos vx vy] in *.
  set (a := px v1) in *. set (b := py v1) in *. set (c := px v2) in *. set (e := py v2) in *. clearbody a b c e.
  assert (P1 : (c - a) * (h + d - b) - (e - b) * (u - a) = (c - a) * d) by (rewrite Ex, Ey; ring).
  assert (P2 : (c - a) * (h - d - b) - (e - b) * (u - a) = - ((c - a) * d)) by (rewrite Ex, Ey; ring).
  rewrite P1, P2.
  assert (K : (a < u < c) \/ (c < u < a)).
  { destruct (Rtotal_order a c) as [Lt|[Lt|Lt]].
    - left. assert (0 <= t * (c - a) <= 1 * (c - a)) by (split; [apply Rmult_le_pos|apply Rmult_le_compat_r]; lra). lra.
    - exfalso. apply N1. rewrite Ex, Lt. ring.
    - right. assert (0 <= t * (a - c) <= 1 * (a - c)) by (split; [apply Rmult_le_pos|apply Rmult_le_compat_r]; lra). lra. }
  assert (Sg : (a < c /\ 0 < (c - a) * d) \/ (c < a /\ (c - a) * d < 0)).
  { destruct K as [K|K]; [left|right]; (split; [lra|]).
    - apply Rmult_lt_0_compat; lra.
    - assert (0 < (a - c) * d) by (apply Rmult_lt_0_compat; lra). lra. }
  assert (Ht' : 0 < t < 1).
  { split; apply Rnot_le_lt; intros Q; assert (t = 0 \/ t = 1) as [-> | ->] by lra; lra. }
  assert (Bt : (b = e /\ h = b) \/ (b < h < e) \/ (e < h < b)).
  { destruct (Rtotal_order b e) as [Lt|[Lt|Lt]].
    - right. left. assert (0 < t * (e - b)) by (apply Rmult_lt_0_compat; lra). assert (0 < (1 - t) * (e - b)) by (apply Rmult_lt_0_compat; lra). lra.
    - left. split; [exact Lt|]. rewrite Ey, Lt. ring.
    - right. right. assert (0 < t * (b - e)) by (apply Rmult_lt_0_compat; lra). assert (0 < (1 - t) * (b - e)) by (apply Rmult_lt_0_compat; lra). lra. }
  generalize dependent ((c - a) * d). intros m P1 P2 Sg.
  destruct (Rle_dec b (h + d)); destruct (Rle_dec b (h - d)); destruct (Rlt_dec (h + d) e); destruct (Rlt_dec (h - d) e); destruct (Rle_dec e (h + d)); destruct (Rle_dec e (h - d)); try (exfalso; lra);
  destruct (Rlt_dec 0 m); destruct (Rlt_dec 0 (- m)); try (exfalso; lra);
  destruct (Req_EM_T e h); destruct (Req_EM_T b h); try (exfalso; lra);
  destruct (Rlt_dec u c); destruct (Rlt_dec u a); try (exfalso; lra); reflexivity.
Qed.
