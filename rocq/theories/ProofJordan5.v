(** A loop that passes no point twice goes around every point at most once, always in the same direction (C64). *)
From Coq Require Import Reals ZArith Bool List Arith Lra Lia Psatz Classical.
From Verif Require Import Num RNum Res ModelMath ModelSeg ModelPline Spec SpecGeom SpecBox SpecWinding SpecView SpecBoolean SpecJordan.
From Verif Require Import ProofR ProofBase ProofIter ProofArc ProofArc2 ProofSlice ProofMeasure ProofWalk ProofIntr ProofWinding ProofWinding2 ProofWinding3 ProofWinding4 ProofWinding6 ProofWinding7 ProofSegIntr5 ProofPolyOff2 ProofNest ProofJordan ProofJordan2 ProofJordan3 ProofJordan4.
From Verif Require ProofRegion11.
Import ListNotations.
Local Open Scope R_scope.

Lemma dist_self x : dist x x = 0.
Proof. unfold dist. rewrite !Rminus_diag_eq by reflexivity. rewrite Rmult_0_l, Rplus_0_l, sqrt_0. reflexivity. Qed.

Lemma split_others {A} (l : list A) i s : nth_error l i = Some s ->
  exists l1 l2, l = l1 ++ s :: l2 /\ forall u, In u (l1 ++ l2) -> exists j, j <> i /\ nth_error l j = Some u.
Proof.
  intros E. destruct (nth_error_split l i E) as (l1 & l2 & -> & L). exists l1, l2. split; [reflexivity|].
  intros u I. apply in_app_iff in I. destruct I as [I|I]; apply In_nth_error in I; destruct I as (k & Ek).
  - assert (k < length l1)%nat by (apply nth_error_Some; congruence). exists k. split; [lia|]. rewrite nth_error_app1 by assumption. exact Ek.
  - exists (length l1 + S k)%nat. split; [lia|]. rewrite nth_error_app2 by lia. replace (length l1 + S k - length l1)%nat with (S k) by lia. exact Ek.
Qed.

(** On both sides of the curve there are points near each of its points. *)
Lemma sides_near s z e : okseg s -> ends_differ s -> sideof s z = 0 -> 0 < e ->
  exists x y, dist z x < e /\ dist z y < e /\ sideof s x < 0 /\ 0 < sideof s y.
Proof.
  destruct s as [v1 v2]. intros Ok Df Z He. unfold ends_differ in Df. cbn [fst snd] in Df. pose proof (chord2_pos _ _ Df) as C. unfold chord2 in C. cbn [pos vx vy] in C.
  set (b := pbulge v1).
  assert (Hb : Rabs b <= 1) by (destruct Ok as [[E|[_ E]] _]; cbn [fst] in E; fold b in E; [rewrite E, Rabs_R0; lra|exact E]).
  set (gx := (1 - b * b) * - (py v2 - py v1) - 2 * b * (2 * vx z - px v1 - px v2)).
  set (gy := (1 - b * b) * (px v2 - px v1) - 2 * b * (2 * vy z - py v1 - py v2)).
  set (L := (px v2 - px v1) * (px v2 - px v1) + (py v2 - py v1) * (py v2 - py v1)).
  assert (HL : 0 < L) by (unfold L; nra).
  assert (G : gx * gx + gy * gy = (1 + b * b) * (1 + b * b) * L - 8 * b * sideof (v1, v2) z).
  { unfold gx, gy, L, sideof, perp, dotp. cbn [fst snd]. fold b. ring. }
  rewrite Z, Rmult_0_r, Rminus_0_r in G. assert (0 <= b * b) by nra.
  assert (Pg : 0 < gx * gx + gy * gy) by (rewrite G; repeat apply Rmult_lt_0_compat; lra).
  assert (T : forall k, sideof (v1, v2) (V2 (vx z + k * gx) (vy z + k * gy)) = k * (gx * gx + gy * gy) * (1 - 2 * b * k)).
  { intros k. transitivity (sideof (v1, v2) z + k * (gx * gx + gy * gy) * (1 - 2 * b * k)); [|rewrite Z; ring].
    unfold gx, gy, sideof, perp, dotp. cbn [fst snd vx vy]. fold b. ring. }
  assert (D : forall k, dist z (V2 (vx z + k * gx) (vy z + k * gy)) = Rabs k * sqrt (gx * gx + gy * gy)).
  { intros k. rewrite dist_offset. replace (k * gx * (k * gx) + k * gy * (k * gy)) with (Rsqr k * (gx * gx + gy * gy)) by (unfold Rsqr; ring).
    rewrite sqrt_mult by (try apply Rle_0_sqr; lra). rewrite sqrt_Rsqr_abs. reflexivity. }
  set (m := sqrt (gx * gx + gy * gy)) in *. assert (Hm : 0 < m) by (apply sqrt_lt_R0; exact Pg).
  set (k := Rmin (1 / 4) (e / (2 * m))). assert (P : 0 < e / (2 * m)) by (apply Rdiv_lt_0_compat; lra).
  assert (Hk : 0 < k) by (apply Rmin_pos; lra). pose proof (Rmin_l (1 / 4) (e / (2 * m))) as K1. pose proof (Rmin_r (1 / 4) (e / (2 * m))) as K2. fold k in K1, K2.
  assert (KM : k * m < e). { apply Rle_lt_trans with (e / (2 * m) * m); [apply Rmult_le_compat_r; lra|]. replace (e / (2 * m) * m) with (e / 2) by (field; lra). lra. }
  assert (Bk : - k <= b * k <= k) by (unfold Rabs in Hb; destruct (Rcase_abs b); split; nra).
  exists (V2 (vx z + - k * gx) (vy z + - k * gy)), (V2 (vx z + k * gx) (vy z + k * gy)).
  rewrite !D, !T, Rabs_Ropp, Rabs_right by lra. split; [exact KM|]. split; [exact KM|]. split.
  - assert (0 < k * (gx * gx + gy * gy) * (1 - 2 * b * - k)); [|lra]. repeat apply Rmult_lt_0_compat; lra.
  - repeat apply Rmult_lt_0_compat; lra.
Qed.

Section Loop.
Variable p : pline R.
Hypothesis ok : pline_ok p.
Hypothesis vl : valid_loop p.
Hypothesis po : passes_once p.
Let l : list seg := spec_segs (vtx p) (is_closed p).
Let n := vertex_count p.

Lemma cl : is_closed p = true. Proof. apply vl. Qed.
Lemma n2 : (2 <= n)%nat. Proof. apply vl. Qed.
Lemma len : length l = n.
Proof. unfold l, n. pose proof n2 as L. unfold n in L. unfold vertex_count in *. unfold seg in *. rewrite cl. pose proof (spec_segs_length (vtx p) true) as Q. rewrite Q. destruct (_ <? 2)%nat eqn:B; [apply Nat.ltb_lt in B; lia|reflexivity]. Qed.

Lemma oks_l : oks l.
Proof. intros [a b] I. exact (ok a b I). Qed.
Lemma looped_l : looped l.
Proof. intros f. unfold l. rewrite cl. apply (loop_telescope (fun v => f (pos v)) (vtx p)). Qed.

Lemma next_seg i a b : nth_error l i = Some (a, b) -> exists c, nth_error l ((i + 1) mod n) = Some (b, c).
Proof.
  intros E. pose proof n2. assert (Li : (i < n)%nat) by (rewrite <- len; apply nth_error_Some; congruence).
  unfold l in *. rewrite cl in *. destruct (segs_nth _ _ _ _ E) as (_ & E2).
  assert (Lj : ((i + 1) mod n < n)%nat) by (apply Nat.mod_upper_bound; lia).
  destruct (nth_error (spec_segs (vtx p) true) ((i + 1) mod n)) as [(b', c)|] eqn:E'.
  - destruct (segs_nth _ _ _ _ E') as (E3 & _). unfold n, vertex_count in E3. rewrite E2 in E3. injection E3 as ->. eauto.
  - exfalso. apply nth_error_None in E'. pose proof len as LL. unfold l in LL. rewrite cl in LL. unfold seg in LL. rewrite LL in E'. lia.
Qed.

Lemma at_point i a b t q : nth_error l i = Some (a, b) -> 0 <= t <= 1 -> seg_at a b t q -> point_at p i t q.
Proof. intros E Ht H. exists a, b. auto. Qed.

(** Where a point is passed again. *)
Lemma again i j a b a' b' t u q : nth_error l i = Some (a, b) -> nth_error l j = Some (a', b') -> 0 <= t < 1 -> 0 <= u <= 1 ->
  seg_at a b t q -> seg_at a' b' u q -> (i = j /\ t = u) \/ (t = 0 /\ u = 1 /\ i = ((j + 1) mod n)%nat).
Proof.
  intros Ei Ej Ht Hu Hq Hq'. destruct (Rlt_dec u 1) as [L|L].
  - left. apply (po i j t u q); [eapply at_point; eauto; lra|eapply at_point; eauto|lra|exact L].
  - assert (u = 1) by lra. subst u. right. destruct (next_seg j a' b' Ej) as (c & Ec).
    assert (Oj : okseg (a', b')) by (apply oks_l; eapply nth_error_In; exact Ej).
    assert (Ok' : okseg (b', c)) by (apply oks_l; eapply nth_error_In; exact Ec).
    assert (q = pos b') by exact (seg_at_unique _ _ _ _ _ Hq' (seg_at_1 _ _ Oj) Oj). subst q.
    destruct (po i ((j + 1) mod n) t 0 (pos b')) as (A & B); [eapply at_point; eauto; lra|eapply at_point; [exact Ec|lra|apply (seg_at_0 _ _ Ok')]|lra|lra|]. auto.
Qed.

Lemma differ i s : nth_error l i = Some s -> ends_differ s.
Proof.
  destruct s as [a b]. intros E Q. cbn [fst snd] in Q. pose proof (oks_l _ (nth_error_In _ _ E)) as Os.
  destruct (Req_dec (pbulge a) 0) as [B|B]; [|now apply (proj2 Os B)].
  assert (H : forall t, seg_at a b t (pos a)).
  { intros t. apply seg_at_line; [exact B|]. rewrite <- Q. unfold line_pt. apply vec2_eq; cbn [vx vy]; ring. }
  destruct (po i i 0 (1 / 2) (pos a)) as (_ & X); [eapply at_point; [exact E|lra|apply H]|eapply at_point; [exact E|lra|apply H]|lra|lra|lra].
Qed.

Lemma interior_off i j s s' t q : nth_error l i = Some s -> nth_error l j = Some s' -> j <> i -> 0 < t < 1 -> seg_at (fst s) (snd s) t q -> ~ on s' q.
Proof.
  destruct s as [a b], s' as [a' b']. intros Ei Ej N Ht Hq (u & Hu & Hq'). destruct (again i j a b a' b' t u q Ei Ej ltac:(lra) Hu Hq Hq') as [(-> & _)|(-> & _)]; [now apply N|lra].
Qed.

(** The value [c] on the right of segment [i]. *)
Definition beside_seg (i : nat) (c : Z) : Prop :=
  exists s l1 l2, nth_error l i = Some s /\ l = l1 ++ s :: l2 /\ (forall u, In u (l1 ++ l2) -> exists j, j <> i /\ nth_error l j = Some u)
  /\ forall t q, 0 < t < 1 -> seg_at (fst s) (snd s) t q -> near l1 l2 s q c.

Lemma beside_exists i : (i < n)%nat -> exists c, beside_seg i c.
Proof.
  intros Li. destruct (nth_error l i) as [s|] eqn:E; [|exfalso; apply nth_error_None in E; rewrite len in E; lia].
  destruct (split_others l i s E) as (l1 & l2 & El & Oth).
  assert (Os : okseg s) by (apply oks_l; eapply nth_error_In; exact E). pose proof (differ i s E) as Ds.
  pose proof oks_l as Ol. pose proof looped_l as Ll. rewrite El in Ol, Ll.
  assert (Of : forall u q, 0 < u < 1 -> seg_at (fst s) (snd s) u q -> offs (l1 ++ l2) q).
  { intros u q Hu Hq s' I. destruct (Oth s' I) as (j & Nj & Ej). apply (interior_off i j s s' u q E Ej Nj Hu Hq). }
  destruct (seg_at_exists (fst s) (snd s) (1 / 2) Os) as (z & Hz).
  destruct (near_exists l1 l2 s Ol Ll Ds (1 / 2) z ltac:(lra) Hz (Of (1 / 2) z ltac:(lra) Hz)) as (c & Nc).
  exists c, s, l1, l2. repeat split; auto. intros t q Ht Hq. exact (near_along l1 l2 s Ol Ll Ds (1 / 2) t z q c ltac:(lra) Ht Hz Hq Of Nc).
Qed.

(** From one segment to the next, and around the vertex between. *)
Lemma beside_next i c c' : beside_seg i c -> beside_seg ((i + 1) mod n) c' ->
  c = c' /\ forall a b, nth_error l i = Some (a, b) -> exists r, 0 < r /\ forall x, dist (pos b) x < r -> offs l x -> tot l x = c \/ tot l x = (c + 1)%Z.
Proof.
  intros (s1 & l1 & l2 & E1 & El1 & Ot1 & N1) (s2 & m1 & m2 & E2 & El2 & Ot2 & N2). pose proof n2 as N2'.
  assert (Li : (i < n)%nat) by (rewrite <- len; apply nth_error_Some; congruence).
  set (j := ((i + 1) mod n)%nat) in *.
  assert (Nij : j <> i).
  { unfold j. destruct (Nat.eq_dec (i + 1) n) as [Q|Q]; [rewrite Q, Nat.mod_same by lia; lia|rewrite Nat.mod_small by lia; lia]. }
  destruct s1 as [a b]. destruct (next_seg i a b E1) as (d & E2'). fold j in E2'. rewrite E2 in E2'. injection E2' as ->.
  set (o := flat_map (fun k => if (k =? i)%nat || (k =? j)%nat then [] else match nth_error l k with Some s => [s] | None => [] end) (seq 0 n)).
  assert (Io : forall s, In s o <-> exists k, k <> i /\ k <> j /\ nth_error l k = Some s).
  { intros s. unfold o. rewrite in_flat_map. split.
    - intros (k & _ & Ik). destruct ((k =? i)%nat || (k =? j)%nat) eqn:B; [destruct Ik|]. apply orb_false_iff in B. destruct B as (B1 & B2). apply Nat.eqb_neq in B1, B2.
      destruct (nth_error l k) eqn:Ek; [|destruct Ik]. destruct Ik as [<-|[]]. exists k. auto.
    - intros (k & B1 & B2 & Ek). exists k. assert (k < n)%nat by (rewrite <- len; apply nth_error_Some; congruence). split; [apply in_seq; lia|].
      apply Nat.eqb_neq in B1, B2. rewrite B1, B2. cbn [orb]. rewrite Ek. left. reflexivity. }
  assert (Oz : offs o (pos b)).
  { intros s' I (u & Hu & Hq). apply Io in I. destruct I as (k & K1 & K2 & Ek). destruct s' as [a' b'].
    assert (Ob : okseg (b, d)) by (apply oks_l; eapply nth_error_In; exact E2).
    destruct (again j k b d a' b' 0 u (pos b) E2 Ek ltac:(lra) Hu (seg_at_0 _ _ Ob) Hq) as [(-> & _)|(_ & _ & Q)]; [now apply K2|].
    apply K1. assert (Lk : (k < n)%nat) by (rewrite <- len; apply nth_error_Some; congruence).
    unfold j in Q. destruct (Nat.eq_dec (i + 1) n) as [Q1|Q1], (Nat.eq_dec (k + 1) n) as [Q2|Q2]; [lia| | |].
    - rewrite Q1, Nat.mod_same, Nat.mod_small in Q by lia. lia.
    - rewrite Q2, Nat.mod_same, Nat.mod_small in Q by lia. lia.
    - rewrite !Nat.mod_small in Q by lia. lia. }
  destruct (vertex_values l l1 l2 m1 m2 o (a, b) (b, d) (pos b) c c' El1 El2 oks_l looped_l (differ _ _ E1) (differ _ _ E2) eq_refl eq_refl) as (Ec & r & Hr & V); auto.
  - intros s I. apply Io in I. destruct I as (k & _ & _ & Ek). apply oks_l. eapply nth_error_In; exact Ek.
  - intros q Oq A B s I. apply In_nth_error in I. destruct I as (k & Ek).
    destruct (Nat.eq_dec k i) as [->|K1]; [rewrite E1 in Ek; injection Ek as <-; exact A|].
    destruct (Nat.eq_dec k j) as [->|K2]; [rewrite E2 in Ek; injection Ek as <-; exact B|]. apply Oq, Io. eauto.
  - intros t q Ht Hq. exact (interior_off i j (a, b) (b, d) t q E1 E2 Nij Ht Hq).
  - split; [exact Ec|]. intros a0 b0 E0. rewrite E1 in E0. injection E0 as <- <-. exists r. split; [exact Hr|]. intros x Dx Ox. apply V; auto.
    intros ->. apply (Ox (b, d)); [eapply nth_error_In; exact E2|]. apply (on_ends (b, d)). apply oks_l. eapply nth_error_In; exact E2.
Qed.

Lemma all_beside c : beside_seg 0 c -> forall i, (i < n)%nat -> beside_seg i c.
Proof.
  intros H0. induction i as [|i IH]; intros Li; [exact H0|]. specialize (IH ltac:(lia)). destruct (beside_exists (S i) Li) as (c' & H').
  assert (Q : ((i + 1) mod n)%nat = S i) by (rewrite Nat.mod_small; lia).
  destruct (beside_next i c c' IH ltac:(rewrite Q; exact H')) as (-> & _). exact H'.
Qed.

Lemma two_values : exists c, forall q, on_path p q -> exists r, 0 < r /\ forall x, dist q x < r -> offs l x -> tot l x = c \/ tot l x = (c + 1)%Z.
Proof.
  pose proof n2 as N2'. destruct (beside_exists 0 ltac:(lia)) as (c & H0). pose proof (all_beside c H0) as AB. exists c.
  assert (Vx : forall i a b, nth_error l i = Some (a, b) -> exists r, 0 < r /\ forall x, dist (pos b) x < r -> offs l x -> tot l x = c \/ tot l x = (c + 1)%Z).
  { intros i a b E. assert (Li : (i < n)%nat) by (rewrite <- len; apply nth_error_Some; congruence).
    assert (Lj : ((i + 1) mod n < n)%nat) by (apply Nat.mod_upper_bound; lia).
    destruct (beside_next i c c (AB i Li) (AB _ Lj)) as (_ & V). exact (V a b E). }
  intros q (a & b & I & (t & Ht & Hq)). change (In ((a, b) : seg) l) in I. apply In_nth_error in I. destruct I as (i & E).
  assert (Li : (i < n)%nat) by (rewrite <- len; apply nth_error_Some; congruence).
  assert (Os : okseg (a, b)) by (apply oks_l; eapply nth_error_In; exact E).
  destruct (Req_dec t 1) as [->|T1].
  { assert (q = pos b) by exact (seg_at_unique _ _ _ _ _ Hq (seg_at_1 _ _ Os) Os). subst q. exact (Vx i a b E). }
  destruct (Req_dec t 0) as [->|T0].
  - assert (q = pos a) by exact (seg_at_unique _ _ _ _ _ Hq (seg_at_0 _ _ Os) Os). subst q.
    set (j := match i with O => (n - 1)%nat | S k => k end).
    assert (Lj : (j < n)%nat) by (unfold j; destruct i; lia).
    assert (Qj : ((j + 1) mod n)%nat = i). { unfold j. destruct i; [replace (n - 1 + 1)%nat with n by lia; apply Nat.mod_same; lia|rewrite Nat.mod_small; lia]. }
    destruct (nth_error l j) as [[a' b']|] eqn:Ej; [|exfalso; apply nth_error_None in Ej; rewrite len in Ej; lia].
    destruct (next_seg j a' b' Ej) as (d & Ed). rewrite Qj, E in Ed. injection Ed as -> _. exact (Vx j a' b' Ej).
  - destruct (AB i Li) as (s & l1 & l2 & Es & El & _ & N). rewrite E in Es. injection Es as <-.
    pose proof oks_l as Ol. pose proof looped_l as Ll. rewrite El in Ol, Ll.
    destruct (near_values l1 l2 (a, b) Ol Ll (differ _ _ E) q c (N t q ltac:(lra) Hq)) as (r & Hr & V). rewrite <- El in V. exists r. auto.
Qed.

Lemma offs_path x : offs l x <-> ~ on_path p x.
Proof.
  split.
  - intros O (a & b & I & On). exact (O (a, b) I On).
  - intros N [a b] I On. apply N. exists a, b. auto.
Qed.

Lemma wn_tot x : ~ on_path p x -> wn p x = tot l x.
Proof. intros O. unfold wn. rewrite winding_nw; [reflexivity|exact ok|apply cl|apply vl|exact O]. Qed.

Lemma winds_once : exists o, (o = 1%Z \/ o = (-1)%Z) /\ forall x, ~ on_path p x -> wn p x = 0%Z \/ wn p x = o.
Proof.
  destruct two_values as (c & V).
  assert (Two : forall x, ~ on_path p x -> wn p x = c \/ wn p x = (c + 1)%Z).
  { intros x Ox. pose proof n2 as N2'. destruct (nth_error l 0) as [[a b]|] eqn:E; [|exfalso; apply nth_error_None in E; rewrite len in E; lia].
    assert (Os : okseg (a, b)) by (apply oks_l; eapply nth_error_In; exact E).
    destruct (first_hit (fun t => on_path p (line_pt x (pos a) t))) as (t & Ht & Ont & Bef).
    - intros t Ht N. destruct (path_open p x (pos a) t ok N) as (e & He & K). exists e. split; [exact He|]. intros s _ Hs. now apply K.
    - destruct (line_pt_ends x (pos a)) as (_ & ->). exists a, b. split; [eapply nth_error_In; exact E|]. apply (on_ends (a, b) Os).
    - destruct (V _ Ont) as (r & Hr & W).
      assert (T0 : 0 < t). { apply Rnot_le_lt. intros L. replace t with 0 in Ont by lra. destruct (line_pt_ends x (pos a)) as (E0 & _). rewrite E0 in Ont. contradiction. }
      assert (D0 : 0 <= dist x (pos a)) by apply sqrt_pos.
      set (k := Rmin t (r / (dist x (pos a) + 1)) / 2). assert (Pk : 0 < r / (dist x (pos a) + 1)) by (apply Rdiv_lt_0_compat; lra).
      assert (M : 0 < Rmin t (r / (dist x (pos a) + 1))) by (apply Rmin_pos; lra).
      pose proof (Rmin_l t (r / (dist x (pos a) + 1))). pose proof (Rmin_r t (r / (dist x (pos a) + 1))).
      set (y := line_pt x (pos a) (t - k)).
      assert (Oy : ~ on_path p y) by (apply Bef; unfold k; lra).
      assert (Dy : dist (line_pt x (pos a) t) y < r). { apply (line_near x (pos a) t (t - k) r Hr). replace (t - k - t) with (- k) by ring. rewrite Rabs_Ropp, Rabs_right; unfold k; lra. }
      rewrite (wn_until p x (pos a) (t - k) ok); [|unfold k; lra|intros s Hs; apply Bef; unfold k in Hs; lra]. fold y. rewrite (wn_tot y Oy). apply (W y Dy). now apply offs_path. }
  destruct (outside_both p p ok ok vl vl) as (z & Oz & _ & Wz & _). destruct (Two z Oz) as [Q|Q]; rewrite Wz in Q.
  - exists 1%Z. split; [auto|]. intros x Ox. destruct (Two x Ox); lia.
  - exists (-1)%Z. split; [auto|]. intros x Ox. destruct (Two x Ox); lia.
Qed.

(** Beside every point of the path there are points around which it goes and points around which it does not. *)
Lemma two_sides : exists c, forall q e, on_path p q -> 0 < e ->
  exists x y, ~ on_path p x /\ ~ on_path p y /\ dist q x < e /\ dist q y < e /\ wn p x = c /\ wn p y = (c + 1)%Z.
Proof.
  pose proof n2 as N2'. destruct (beside_exists 0 ltac:(lia)) as (c & H0). pose proof (all_beside c H0) as AB. exists c.
  intros q e (a & b & I & (t & Ht & St)) He.
  destruct (In_nth_error _ _ I) as (i & E).
  change (nth_error l i = Some ((a, b) : seg)) in E.
  assert (Li : (i < n)%nat) by (rewrite <- len; apply nth_error_Some; congruence).
  destruct (AB i Li) as (s & l1 & l2 & E' & El & Oth & N). rewrite E in E'. injection E' as <-.
  assert (Os : okseg (a, b)) by (apply oks_l; eapply nth_error_In; exact E). pose proof (differ i _ E) as Ds.
  destruct (curve_near (a, b) t q (e / 2) Os Ht St ltac:(lra)) as (t' & z & Ht' & Sz & Dz).
  assert (Oz : on (a, b) z) by (exists t'; split; [lra|exact Sz]). pose proof (on_side _ _ Os Oz) as Zz.
  destruct (N t' z Ht' Sz) as (r & Hr & Nz).
  destruct (sides_near (a, b) z (Rmin r (e / 2)) Os Ds Zz) as (x & y & Dx & Dy & Sx & Sy); [apply Rmin_pos; lra|].
  pose proof (Rmin_l r (e / 2)). pose proof (Rmin_r r (e / 2)).
  assert (Of : forall w, dist z w < r -> sideof (a, b) w <> 0 -> ~ on_path p w).
  { intros w Dw Sw. apply offs_path. destruct (Nz w Dw) as (Oo & _). intros u Iu. rewrite El in Iu. apply in_app_iff in Iu. cbn [In] in Iu.
    destruct Iu as [Iu|[<-|Iu]]; [apply Oo, in_app_iff; auto|intros On; apply Sw, (on_side _ _ Os On)|apply Oo, in_app_iff; auto]. }
  assert (Ox := Of x ltac:(lra) ltac:(lra)). assert (Oy := Of y ltac:(lra) ltac:(lra)).
  exists x, y. split; [exact Ox|]. split; [exact Oy|]. pose proof (dist_triangle q z x). pose proof (dist_triangle q z y).
  split; [lra|]. split; [lra|]. rewrite !wn_tot by assumption. rewrite El.
  destruct (Nz x ltac:(lra)) as (_ & Vx). destruct (Nz y ltac:(lra)) as (_ & Vy). rewrite Vx, Vy by lra. unfold over.
  destruct (Rlt_dec 0 (sideof (a, b) x)), (Rlt_dec 0 (sideof (a, b) y)); try lra. lia.
Qed.

Lemma loop_sides : exists o, (o = 1%Z \/ o = (-1)%Z) /\ (forall x, ~ on_path p x -> wn p x = 0%Z \/ wn p x = o)
  /\ forall q e, on_path p q -> 0 < e ->
     (exists x, ~ on_path p x /\ dist q x < e /\ wn p x = 0%Z) /\ (exists x, ~ on_path p x /\ dist q x < e /\ wn p x = o).
Proof.
  destruct winds_once as (o & Ho & W). destruct two_sides as (c & Sd). exists o. split; [exact Ho|]. split; [exact W|].
  intros q e Oq He. destruct (Sd q e Oq He) as (x & y & Ox & Oy & Dx & Dy & Wx & Wy).
  destruct (W x Ox) as [Vx|Vx], (W y Oy) as [Vy|Vy]; try (exfalso; lia); split; eauto.
Qed.

Lemma some_inside : exists x, ~ on_path p x /\ wn p x <> 0%Z.
Proof.
  destruct loop_sides as (o & Ho & _ & Sd). pose proof n2 as N2'.
  destruct (nth_error l 0) as [[a b]|] eqn:E; [|exfalso; apply nth_error_None in E; rewrite len in E; lia].
  assert (Os : okseg (a, b)) by (apply oks_l; eapply nth_error_In; exact E).
  destruct (Sd (pos a) 1) as (_ & (x & Ox & _ & Wx)).
  - exists a, b. split; [eapply nth_error_In; exact E|]. apply (on_ends (a, b) Os).
  - lra.
  - exists x. split; [exact Ox|]. lia.
Qed.
End Loop.
