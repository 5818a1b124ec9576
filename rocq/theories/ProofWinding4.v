(** The winding number under reversal, rotation of the start, translation and scaling (C15). *)
From Coq Require Import Reals ZArith Bool List Arith Lra Lia Psatz.
From Verif Require Import Num RNum Res ModelMath ModelSeg ModelPline Spec SpecPline SpecGeom SpecWalk SpecBox SpecWinding.
From Verif Require Import ProofR ProofBase ProofIter ProofInvert ProofArc ProofArc2 ProofSlice ProofMeasure ProofWalk ProofRepeat ProofIntr ProofView ProofWinding ProofWinding3.
Import ListNotations.
Local Open Scope R_scope.

Lemma winding_of_turns p pt w : pline_ok p -> is_closed p = true -> (2 <= vertex_count p)%nat -> ~ on_path p pt ->
  path_turns_by p pt (IZR w * (2 * PI)) -> winding_number p pt = Ret w.
Proof.
  intros A B C D HT. destruct (winding_closed p pt A B C D) as (w' & E & _ & U). rewrite E. f_equal.
  apply U in HT. pose proof PI_pos. apply eq_IZR. nra.
Qed.

(** ** Reversal *)
Lemma seg_at_reverse v1 v2 w1 w2 t q : pos w1 = pos v2 -> pos w2 = pos v1 -> pbulge w1 = - pbulge v1 ->
  seg_at v1 v2 t q -> seg_at w1 w2 (1 - t) q.
Proof.
  intros E1 E2 EB [[Hb ->]|[Hb (c & r & a & (Hr & P1 & P2) & ->)]].
  - left. split; [lra|]. rewrite E1, E2. unfold line_pt. apply vec2_eq; cbn [vx vy]; ring.
  - right. split; [lra|]. exists c, r, (a + sweep (pbulge v1)). unfold is_arc. rewrite E1, E2, EB.
    assert (ES : sweep (- pbulge v1) = - sweep (pbulge v1)) by (unfold sweep; rewrite atan_opp; ring).
    rewrite ES. split; [split; [exact Hr|split; [exact P2|rewrite P1; f_equal; ring]]|f_equal; ring].
Qed.

Lemma turns_reverse v1 v2 w1 w2 pt d : pos w1 = pos v2 -> pos w2 = pos v1 -> pbulge w1 = - pbulge v1 ->
  turns_by v1 v2 pt d -> turns_by w1 w2 pt (- d).
Proof.
  intros E1 E2 EB (phi & rho & C & R & Q & ->).
  exists (fun t => phi (1 - t)), (fun t => rho (1 - t)). split; [|split; [|split]].
  - intros t. apply (continuity_pt_comp (fun t => 1 - t) phi); [|apply C].
    apply (continuity_pt_minus (fun _ => 1) (fun t => t)); [apply continuity_pt_const; intros a b; reflexivity|apply derivable_continuous_pt, derivable_pt_id].
  - intros t Ht. apply R. lra.
  - intros t q Ht Hq. apply Q; [lra|]. apply (seg_at_reverse w1 w2 v1 v2 t q); auto. lra.
  - rewrite Rminus_0_r. replace (1 - 1) with 0 by ring. ring.
Qed.

Lemma turns_same v1 v2 w1 w2 pt d : pos w1 = pos v1 -> pos w2 = pos v2 -> pbulge w1 = pbulge v1 ->
  turns_by v1 v2 pt d -> turns_by w1 w2 pt d.
Proof.
  intros E1 E2 EB (phi & rho & C & R & Q & ->). exists phi, rho. repeat split; auto.
  intros t q Ht Hq. apply Q; [exact Ht|]. unfold seg_at in *. rewrite E1, E2, EB in Hq. exact Hq.
Qed.

Definition TD (pt : vec2 R) (d : (R * R) * (R * R) * R) (x : R) : Prop :=
  forall v1 v2, seg_data (v1, v2) = d -> turns_by v1 v2 pt x.

Lemma TD_of pt s x : turns_by (fst s) (snd s) pt x -> TD pt (seg_data s) x.
Proof.
  intros H v1 v2 E. destruct s as [a b]. unfold seg_data in E. cbn [fst snd] in *.
  injection E as A1 A2 A3 A4 A5. apply (turns_same a b); auto; unfold pos; congruence.
Qed.

Lemma TD_rev pt s x : turns_by (fst s) (snd s) pt x -> TD pt (seg_reverse (seg_data s)) (- x).
Proof.
  intros H v1 v2 E. destruct s as [a b]. unfold seg_data, seg_reverse in E. cbn [fst snd] in *. revert E. rnum. intros E.
  injection E as A1 A2 A3 A4 A5. apply (turns_reverse a b); auto; unfold pos; congruence.
Qed.

Lemma Forall2_rev {A B} (P : A -> B -> Prop) l m : Forall2 P l m -> Forall2 P (rev l) (rev m).
Proof.
  induction 1 as [|a b l m H _ IH]; [constructor|]. cbn. apply Forall2_app; [exact IH|]. constructor; [exact H|constructor].
Qed.

Lemma Forall2_skipn {A B} (P : A -> B -> Prop) l m : Forall2 P l m -> forall k, Forall2 P (skipn k l) (skipn k m) /\ Forall2 P (firstn k l) (firstn k m).
Proof.
  induction 1 as [|a b l m H F IH]; intros [|k]; cbn; split; try constructor; auto; try apply IH.
Qed.

Lemma Forall2_rotate {A B} (P : A -> B -> Prop) l m k : Forall2 P l m -> Forall2 P (spec_rotate k l) (spec_rotate k m).
Proof. intros H. unfold spec_rotate. apply Forall2_app; now apply Forall2_skipn. Qed.

Lemma Forall2_TD pt segs ds : Forall2 (TD pt) (map seg_data segs) ds -> Forall2 (fun s d => turns_by (fst s) (snd s) pt d) segs ds.
Proof.
  revert ds. induction segs as [|[a b] t IH]; intros ds H; inversion H; subst; constructor.
  - match goal with H : TD _ _ _ |- _ => apply H; reflexivity end.
  - auto.
Qed.

Lemma rsum_opp l : rsum (map Ropp l) = - rsum l.
Proof. induction l as [|a l IH]; cbn; [ring|]. unfold rsum in IH. rewrite IH. ring. Qed.

Lemma path_turns_reverse p p' pt a : invert_direction_mut p = Ret p' -> path_turns_by p pt a -> path_turns_by p' pt (- a).
Proof.
  intros E (ds & F & ->). destruct (invert_direction_segments p) as (q & E' & _ & _ & _ & ED). rewrite E in E'. injection E' as <-.
  set (k := if is_closed p then 1%nat else 0%nat) in *.
  exists (spec_rotate k (rev (map Ropp ds))). split.
  - apply Forall2_TD. rewrite ED. apply Forall2_rotate, Forall2_rev.
    clear -F. induction F as [|s d segs ds H _ IH]; cbn [map]; constructor; auto. now apply TD_rev.
  - rewrite rsum_rotate, rsum_rev, rsum_opp. reflexivity.
Qed.

Lemma reverse_segs p p' w1 w2 : invert_direction_mut p = Ret p' -> In (w1, w2) (spec_segs (vtx p') (is_closed p')) ->
  exists v1 v2, In (v1, v2) (spec_segs (vtx p) (is_closed p)) /\ pos w1 = pos v2 /\ pos w2 = pos v1 /\ pbulge w1 = - pbulge v1.
Proof.
  intros E H. destruct (invert_direction_segments p) as (q & E' & _ & _ & _ & ED). rewrite E in E'. injection E' as <-.
  apply (in_map seg_data) in H. rewrite ED in H. unfold spec_rotate in H.
  apply in_app_or in H.
  assert (HI : In (seg_data (w1, w2)) (rev (map (fun s => seg_reverse (seg_data s)) (spec_segs (vtx p) (is_closed p))))).
  { set (k := if is_closed p then 1%nat else 0%nat) in *. rewrite <- (firstn_skipn k (rev _)). apply in_or_app. tauto. }
  apply in_rev in HI. apply in_map_iff in HI as ([v1 v2] & ES & HI). exists v1, v2. split; [exact HI|].
  unfold seg_data, seg_reverse in ES. cbn [fst snd] in ES. revert ES. rnum. intros ES. injection ES as A1 A2 A3 A4 A5.
  unfold pos. repeat split; congruence.
Qed.

Lemma reverse_ok p p' : invert_direction_mut p = Ret p' -> pline_ok p -> pline_ok p'.
Proof.
  intros E Hok w1 w2 H. destruct (reverse_segs p p' w1 w2 E H) as (v1 & v2 & Hin & E1 & E2 & EB).
  destruct (Hok v1 v2 Hin) as [B P]. split.
  - unfold bulge_ok in *. rewrite EB, Rabs_Ropp. destruct B; [left; lra|right; assumption].
  - intros Hb. rewrite E1, E2. apply not_eq_sym, P. lra.
Qed.

Lemma reverse_on_path p p' q : invert_direction_mut p = Ret p' -> on_path p' q -> on_path p q.
Proof.
  intros E (w1 & w2 & H & (t & Ht & Hq)). destruct (reverse_segs p p' w1 w2 E H) as (v1 & v2 & Hin & E1 & E2 & EB).
  exists v1, v2. split; [exact Hin|]. exists (1 - t). split; [lra|].
  apply (seg_at_reverse w1 w2); auto. lra.
Qed.

Lemma winding_reverse p p' pt w : pline_ok p -> ~ on_path p pt ->
  invert_direction_mut p = Ret p' -> winding_number p pt = Ret w -> winding_number p' pt = Ret (- w)%Z.
Proof.
  intros Hok Hoff E HW. destruct (invert_direction_segments p) as (q & E' & EC & EN & _). rewrite E in E'. injection E' as <-.
  destruct (is_closed p) eqn:C; [destruct (le_lt_dec 2 (vertex_count p)) as [L|L]|].
  - destruct (winding_closed p pt Hok C L Hoff) as (w' & EW & HT & _). rewrite HW in EW. injection EW as <-.
    apply winding_of_turns; [now apply (reverse_ok p)|assumption|lia|intros HH; apply Hoff; now apply (reverse_on_path p p')|].
    rewrite opp_IZR. replace (- IZR w * (2 * PI)) with (- (IZR w * (2 * PI))) by ring. now apply (path_turns_reverse p).
  - rewrite winding_trivial in HW by auto. injection HW as <-. rewrite winding_trivial by (right; lia). reflexivity.
  - rewrite winding_trivial in HW by auto. injection HW as <-. rewrite winding_trivial by auto. reflexivity.
Qed.

(** ** Rotation of the start *)
Lemma spec_rotate_In {A} k (l : list A) x : In x (spec_rotate k l) <-> In x l.
Proof.
  unfold spec_rotate. rewrite in_app_iff. rewrite <- (firstn_skipn k l) at 3. rewrite in_app_iff. tauto.
Qed.

Lemma winding_rotate (p : pline R) k pt : pline_ok p -> ~ on_path p pt -> is_closed p = true -> (k <= vertex_count p)%nat ->
  winding_number (PL (spec_rotate k (vtx p)) true) pt = winding_number p pt.
Proof.
  intros Hok Hoff C Hk. destruct (spec_segs_rotate (vtx p) k Hk) as (k' & ER).
  assert (EN : vertex_count (PL (spec_rotate k (vtx p)) true) = vertex_count p).
  { unfold vertex_count. cbn [vtx]. unfold spec_rotate. rewrite app_length, skipn_length, firstn_length. unfold vertex_count in Hk. lia. }
  destruct (le_lt_dec 2 (vertex_count p)) as [L|L].
  - destruct (winding_closed p pt Hok C L Hoff) as (w & EW & (ds & F & S) & _). rewrite EW.
    unfold on_path, pline_ok in *. rewrite C in *.
    apply winding_of_turns; [|reflexivity|lia| |].
    + intros v1 v2 H. cbn [vtx is_closed] in H. rewrite ER in H. apply spec_rotate_In in H. now apply Hok.
    + intros (v1 & v2 & H & Hon). cbn [vtx is_closed] in H. rewrite ER in H. apply spec_rotate_In in H. apply Hoff. eauto.
    + exists (spec_rotate k' ds). cbn [vtx is_closed]. rewrite ER, rsum_rotate. split; [|exact S].
      now apply Forall2_rotate.
  - rewrite !winding_trivial; auto. right. lia.
Qed.

(** ** Splitting a segment *)
Lemma turns_split v1 v2 u s pt d t : 0 < t < 1 ->
  (forall x q, seg_at u s x q <-> seg_at v1 v2 (x * t) q) ->
  (forall x q, seg_at s v2 x q <-> seg_at v1 v2 (t + x * (1 - t)) q) ->
  turns_by v1 v2 pt d -> exists d1 d2, turns_by u s pt d1 /\ turns_by s v2 pt d2 /\ d = d1 + d2.
Proof.
  intros Ht H1 H2 (phi & rho & C & R & Q & ->).
  exists (phi t - phi 0), (phi 1 - phi t). split; [|split; [|ring]].
  - exists (fun x => phi (x * t)), (fun x => rho (x * t)). split; [|split; [|split]].
    + intros x. apply (continuity_pt_comp (fun x => x * t) phi); [|apply C].
      apply (continuity_pt_mult (fun x => x) (fun _ => t)); [apply derivable_continuous_pt, derivable_pt_id|apply continuity_pt_const; intros a b; reflexivity].
    + intros x Hx. apply R. nra.
    + intros x q Hx Hq. apply Q; [nra|]. now apply H1.
    + rewrite Rmult_1_l, Rmult_0_l. reflexivity.
  - exists (fun x => phi (t + x * (1 - t))), (fun x => rho (t + x * (1 - t))). split; [|split; [|split]].
    + intros x. apply (continuity_pt_comp (fun x => t + x * (1 - t)) phi); [|apply C]. apply continuity_affine.
    + intros x Hx. apply R. nra.
    + intros x q Hx Hq. apply Q; [nra|]. now apply H2.
    + rewrite Rmult_1_l, Rmult_0_l. f_equal; f_equal; ring.
Qed.

Lemma combine_tail_same (l : list (vertex R)) z a u pt ds : pos u = pos a ->
  Forall2 (fun s d => turns_by (fst s) (snd s) pt d) (combine (z :: l) (l ++ [a])) ds ->
  Forall2 (fun s d => turns_by (fst s) (snd s) pt d) (combine (z :: l) (l ++ [u])) ds.
Proof.
  intros E. revert z ds. induction l as [|b l IH]; intros z ds H; cbn [combine app] in *.
  - inversion H; subst. inversion H4; subst. constructor; [|constructor]. cbn [fst snd] in *. now apply (turns_same z a).
  - inversion H; subst. constructor; auto.
Qed.

Lemma combine_tail_on (l : list (vertex R)) z a u v1 v2 : pos u = pos a -> In (v1, v2) (combine (z :: l) (l ++ [u])) ->
  exists v2', In (v1, v2') (combine (z :: l) (l ++ [a])) /\ pos v2' = pos v2.
Proof.
  intros E. revert z. induction l as [|b l IH]; intros z H; cbn [combine app] in *.
  - destruct H as [H|[]]. injection H as <- <-. exists a. split; [now left|symmetry; exact E].
  - destruct H as [H|H].
    + injection H as <- <-. exists b. split; [now left|reflexivity].
    + destruct (IH b H) as (v2' & H1 & H2). exists v2'. split; [now right|exact H2].
Qed.

Lemma winding_split a b rest u s t pt : let p := PL (a :: b :: rest) true in let p' := PL (u :: s :: b :: rest) true in
  pline_ok p -> pline_ok p' -> ~ on_path p pt -> 0 < t < 1 -> pos u = pos a ->
  (forall x q, seg_at u s x q <-> seg_at a b (x * t) q) ->
  (forall x q, seg_at s b x q <-> seg_at a b (t + x * (1 - t)) q) ->
  ~ on_path p' pt /\ winding_number p' pt = winding_number p pt.
Proof.
  intros p p' Hok Hok' Hoff Ht E H1 H2.
  destruct (winding_closed p pt Hok eq_refl ltac:(cbn; lia) Hoff) as (w & EW & (ds & F & S) & _). rewrite EW.
  change (spec_segs (vtx p) (is_closed p)) with ((a, b) :: combine (b :: rest) (rest ++ [a])) in F.
  inversion F as [|x d l ds' Hd F']; subst. cbn [fst snd] in Hd.
  assert (Hoff' : ~ on_path p' pt).
  { intros (v1 & v2 & H & (x & Hx & Hq)).
    change (spec_segs (vtx p') (is_closed p')) with ((u, s) :: (s, b) :: combine (b :: rest) (rest ++ [u])) in H.
    apply Hoff. destruct H as [H|[H|H]].
    + injection H as <- <-. exists a, b. split; [now left|]. exists (x * t). split; [nra|now apply H1].
    + injection H as <- <-. exists a, b. split; [now left|]. exists (t + x * (1 - t)). split; [nra|now apply H2].
    + destruct (combine_tail_on rest b a u v1 v2 E H) as (v2' & HI & EP). exists v1, v2'.
      split; [now right|]. exists x. split; [exact Hx|]. unfold seg_at in *. rewrite EP. exact Hq. }
  split; [exact Hoff'|]. apply winding_of_turns; [exact Hok'|reflexivity|cbn; lia|exact Hoff'|].
  - destruct (turns_split a b u s pt d t Ht H1 H2 Hd) as (d1 & d2 & T1 & T2 & ED).
    exists (d1 :: d2 :: ds'). split; [|cbn [rsum] in S; rewrite !rsum_cons in *; lra].
    change (spec_segs (vtx p') (is_closed p')) with ((u, s) :: (s, b) :: combine (b :: rest) (rest ++ [u])).
    constructor; [exact T1|]. constructor; [exact T2|]. now apply (combine_tail_same rest b a).
Qed.

(** ** Moving and scaling *)
Lemma turns_translate x y v1 v2 pt d : turns_by v1 v2 pt d ->
  turns_by (Vtx (px v1 + x) (py v1 + y) (pbulge v1)) (Vtx (px v2 + x) (py v2 + y) (pbulge v2)) (V2 (vx pt + x) (vy pt + y)) d.
Proof.
  intros (phi & rho & C & R & Q & ->). exists phi, rho. repeat split; auto.
  intros t q' Ht Hq. apply translate_seg in Hq as (q & Hq & ->). rewrite (Q t q Ht Hq). unfold circle_pt. cbn [vx vy].
  apply vec2_eq; cbn [vx vy]; ring.
Qed.

Lemma turns_scale k v1 v2 pt d : 0 < k -> turns_by v1 v2 pt d ->
  turns_by (Vtx (k * px v1) (k * py v1) (pbulge v1)) (Vtx (k * px v2) (k * py v2) (pbulge v2)) (V2 (k * vx pt) (k * vy pt)) d.
Proof.
  intros Hk (phi & rho & C & R & Q & ->). exists phi, (fun t => k * rho t). repeat split; auto.
  - intros t Ht. apply Rmult_lt_0_compat; auto.
  - intros t q' Ht Hq. apply scale_seg in Hq as (q & Hq & ->). rewrite (Q t q Ht Hq). unfold circle_pt. cbn [vx vy].
    apply vec2_eq; cbn [vx vy]; ring.
Qed.

Lemma winding_map (g : vertex R -> vertex R) (f : vec2 R -> vec2 R) p pt :
  (forall v, pbulge (g v) = pbulge v) -> (forall v1 v2, pos v1 <> pos v2 -> pos (g v1) <> pos (g v2)) ->
  (forall q, f q = f pt -> q = pt) ->
  (forall v1 v2 t q', seg_at (g v1) (g v2) t q' <-> exists q, seg_at v1 v2 t q /\ q' = f q) ->
  (forall v1 v2 d, turns_by v1 v2 pt d -> turns_by (g v1) (g v2) (f pt) d) ->
  pline_ok p -> ~ on_path p pt ->
  winding_number (PL (map g (vtx p)) (is_closed p)) (f pt) = winding_number p pt.
Proof.
  intros GB GP FI GA GT Hok Hoff.
  assert (EN : vertex_count (PL (map g (vtx p)) (is_closed p)) = vertex_count p) by (unfold vertex_count; cbn [vtx]; apply map_length).
  assert (ES : spec_segs (map g (vtx p)) (is_closed p) = map (fun s => (g (fst s), g (snd s))) (spec_segs (vtx p) (is_closed p))).
  { rewrite spec_segs_map. reflexivity. }
  destruct (is_closed p) eqn:C; [destruct (le_lt_dec 2 (vertex_count p)) as [L|L]|].
  - destruct (winding_closed p pt Hok C L Hoff) as (w & EW & (ds & F & S) & _). rewrite EW.
    rewrite <- C in ES.
    apply winding_of_turns; [|reflexivity|lia| |].
    + intros v1 v2 H. cbn [vtx is_closed] in H. rewrite <- C, ES in H. apply in_map_iff in H as ([a b] & E & H). injection E as <- <-.
      destruct (Hok a b H) as [B P]. split; [unfold bulge_ok; rewrite GB; exact B|]. rewrite GB. cbn [fst snd]. auto.
    + intros (v1 & v2 & H & (t & Ht & Hq)). cbn [vtx is_closed] in H. rewrite <- C, ES in H. apply in_map_iff in H as ([a b] & E & H). injection E as <- <-.
      cbn [fst snd] in Hq. apply GA in Hq as (q & Hq & EQ). symmetry in EQ. apply FI in EQ. subst q.
      apply Hoff. exists a, b. split; [exact H|]. exists t. auto.
    + exists ds. split; [|exact S]. cbn [vtx is_closed]. rewrite <- C, ES. clear -F GT.
      induction F; cbn [map]; constructor; cbn [fst snd]; auto.
  - rewrite !winding_trivial; auto. right. lia.
  - rewrite !winding_trivial; auto.
Qed.

Lemma winding_translate p p' x y pt : pline_ok p -> ~ on_path p pt -> translate_mut p x y = Ret p' ->
  winding_number p' (V2 (vx pt + x) (vy pt + y)) = winding_number p pt.
Proof.
  intros Hok Hoff E. rewrite translate_mut_spec in E. injection E as <-. rnum.
  apply (winding_map (fun v => Vtx (px v + x) (py v + y) (pbulge v)) (fun q => V2 (vx q + x) (vy q + y))); auto.
  - intros v1 v2 N E. apply N. injection E as E1 E2. unfold pos. f_equal; lra.
  - intros q E. injection E as E1 E2. apply vec2_eq; lra.
  - intros v1 v2 t q'. apply translate_seg.
  - intros v1 v2 d H. now apply turns_translate.
Qed.

Lemma winding_scale p p' k pt : pline_ok p -> ~ on_path p pt -> 0 < k -> scale_mut p k = Ret p' ->
  winding_number p' (V2 (k * vx pt) (k * vy pt)) = winding_number p pt.
Proof.
  intros Hok Hoff Hk E. rewrite scale_mut_spec in E. injection E as <-. rnum.
  apply (winding_map (fun v => Vtx (k * px v) (k * py v) (pbulge v)) (fun q => V2 (k * vx q) (k * vy q))); auto.
  - intros v1 v2 N E. apply N. injection E as E1 E2. unfold pos. f_equal; nra.
  - intros q E. injection E as E1 E2. apply vec2_eq; nra.
  - intros v1 v2 t q'. apply scale_seg.
  - intros v1 v2 d H. now apply turns_scale.
Qed.

(** ** Example *)
Lemma ex_circle_off : ~ on_path ex_circle (V2 0 0).
Proof.
  intros (v1 & v2 & H & (t & _ & Hq)).
  assert (K : pbulge v1 = 1 /\ ((pos v1 = V2 (-1) 0 /\ pos v2 = V2 1 0) \/ (pos v1 = V2 1 0 /\ pos v2 = V2 (-1) 0))).
  { cbn in H. destruct H as [H|[H|[]]]; injection H as <- <-; cbn; auto. }
  destruct K as (Hb & Hp). destruct Hq as [[E _]|[_ (c & r & a & HA & HQ)]]; [lra|].
  rewrite Hb in HA. destruct (arc_unique _ _ _ _ _ _ R1_neq_R0 HA) as [EC ER].
  assert (c = V2 0 0). { rewrite EC. unfold centre_of. destruct Hp as [[-> ->]|[-> ->]]; cbn [vx vy]; apply vec2_eq; cbn [vx vy]; field. }
  destruct HA as (Hr & E1 & _). rewrite H0 in E1, HQ. unfold circle_pt in E1, HQ. cbn [vx vy] in E1, HQ.
  injection HQ as QX QY. set (th := a + t * sweep (pbulge v1)) in *. pose proof (sin2_cos2 th) as S. unfold Rsqr in S.
  assert (r <> 0). { intros EZ. rewrite EZ in E1. destruct Hp as [[E _]|[E _]]; rewrite E in E1; injection E1 as E1 _; lra. }
  assert (r * r = 0); [|nra].
  replace (r * r) with (r * r * (sin th * sin th + cos th * cos th)) by (rewrite S; ring).
  replace (r * r * (sin th * sin th + cos th * cos th)) with ((0 + r * sin th) * (0 + r * sin th) + (0 + r * cos th) * (0 + r * cos th)) by ring.
  rewrite <- QX, <- QY. ring.
Qed.

Lemma ex_circle_winding : winding_number ex_circle (V2 0 0) = Ret 1%Z.
Proof.
  destruct (winding_closed ex_circle (V2 0 0) ex_circle_ok eq_refl ltac:(cbn; lia) ex_circle_off) as (w & EW & _ & U).
  rewrite EW. f_equal. pose proof PI_pos.
  assert (T : path_turns_by ex_circle (V2 0 0) (PI + PI)).
  { exists [PI; PI]. split; [|cbn; ring].
    change (spec_segs (vtx ex_circle) (is_closed ex_circle)) with [(Vtx (-1) 0 1, Vtx 1 0 1); (Vtx 1 0 1, Vtx (-1) 0 1)].
    constructor; [|constructor; [|constructor]]; cbn [fst snd].
    - exists (fun t => PI + t * PI), (fun _ => 1). split; [apply continuity_affine|]. split; [intros; lra|]. split; [|ring].
      intros t q Ht Hq. apply (seg_at_unique _ _ t q _ Hq); [|apply ex_circle_ok; cbn; auto].
      right. cbn [pbulge]. split; [lra|]. exists (V2 0 0), 1, PI. unfold is_arc. rewrite atan_1_val.
      split; [|reflexivity]. split; [lra|]. unfold pos, circle_pt. cbn [px py vx vy].
      replace (PI + PI) with (2 * PI) by ring. rewrite ?cos_2PI, ?sin_2PI, ?cos_PI, ?sin_PI. split; apply vec2_eq; cbn [vx vy]; ring.
    - exists (fun t => 0 + t * PI), (fun _ => 1). split; [apply continuity_affine|]. split; [intros; lra|]. split; [|ring].
      intros t q Ht Hq. apply (seg_at_unique _ _ t q _ Hq); [|apply ex_circle_ok; cbn; auto].
      right. cbn [pbulge]. split; [lra|]. exists (V2 0 0), 1, 0. unfold is_arc. rewrite atan_1_val.
      split; [|reflexivity]. split; [lra|]. unfold pos, circle_pt. cbn [px py vx vy].
      rewrite !Rplus_0_l, ?cos_PI, ?sin_PI, ?cos_0, ?sin_0. split; apply vec2_eq; cbn [vx vy]; ring. }
  apply U in T. apply eq_IZR. nra.
Qed.

(** ** Moving the start *)
Lemma v2fuzzy_refl (q : vec2 R) eps : 0 < eps -> v2fuzzy_eq_eps q q eps = true.
Proof. intros H. apply v2fuzzy_R. rewrite !Rminus_eq_0, Rabs_R0. auto. Qed.

Lemma winding_rotate_start (p p' : pline R) i q eps pt a b : pline_ok p -> pline_ok p' -> ~ on_path p pt -> 0 < eps ->
  nth_error (spec_segs (vtx p) (is_closed p)) i = Some (a, b) -> on_seg a b q ->
  (pbulge a <> 0 -> v2fuzzy_eq_eps (pos a) (pos b) eps = false) ->
  rotate_start p i q eps = Ret (Some p') ->
  winding_number p' pt = winding_number p pt.
Proof.
  intros Hok Hok' Hoff He Hi Hq Hab HR.
  assert (Hseg : seg_ok a b) by (apply Hok; eapply nth_error_In; eassumption).
  assert (C : is_closed p = true /\ (2 <= vertex_count p)%nat).
  { destruct (rotate_start_none p i q eps) as [_ K]. split.
    - destruct (is_closed p); [reflexivity|]. rewrite K in HR by auto. discriminate.
    - apply Nat.nlt_ge. intros N. rewrite K in HR by auto. discriminate. }
  destruct C as [C L2].
  assert (L : (i < length (spec_segs (vtx p) (is_closed p)))%nat) by (apply nth_error_Some; congruence).
  destruct (spec_segs_nth (vtx p) (is_closed p) i L) as (a' & b' & E & E1 & E2).
  rewrite Hi in E. injection E as <- <-.
  assert (Li : (i < vertex_count p)%nat) by (apply nth_error_Some; congruence).
  rewrite (rotate_start_some p i q eps a b C L2 E1 E2) in HR. injection HR as <-.
  destruct (v2fuzzy_eq_eps (pos a) q eps) eqn:Fa; [now apply winding_rotate; auto; lia|].
  destruct (v2fuzzy_eq_eps q (pos b) eps) eqn:Fb.
  { apply winding_rotate; auto. pose proof (Nat.mod_upper_bound (i + 1) (vertex_count p)). lia. }
  cbn zeta in *. destruct Hq as (t & Ht & Hq).
  assert (T : 0 < t < 1).
  { assert (t <> 0). { intros ->. rewrite (seg_at_unique _ _ _ _ _ Hq (seg_at_0 a b Hseg) Hseg), v2fuzzy_refl in Fa; [discriminate|exact He]. }
    assert (t <> 1). { intros ->. rewrite (seg_at_unique _ _ _ _ _ Hq (seg_at_1 a b Hseg) Hseg), v2fuzzy_refl in Fb; [discriminate|exact He]. }
    lra. }
  destruct (split_halves a b q eps t Hseg T Hq) as (P1 & P2 & S1 & S2 & _).
  { intros Hb. split; [auto|]. split; [exact Fa|]. apply not_true_is_false. intros F. apply v2fuzzy_R in F.
    rewrite (proj2 (v2fuzzy_R q (pos b) eps)) in Fb; [discriminate|]. rewrite (Rabs_minus_sym (vx q)), (Rabs_minus_sym (vy q)). exact F. }
  set (u := updated_start (seg_split_at_point a b q eps)) in *. set (s := split_vertex (seg_split_at_point a b q eps)) in *.
  (* the loop seen from vertex i *)
  set (M := skipn (i + 1) (vtx p) ++ firstn i (vtx p)) in *.
  assert (ER : spec_rotate i (vtx p) = a :: M).
  { unfold spec_rotate, M. destruct (nth_error_split _ _ E1) as (l1 & l2 & EV & EL). rewrite EV, <- EL.
    rewrite skipn_app, skipn_all, Nat.sub_diag. cbn [app skipn].
    replace (length l1 + 1)%nat with (length (l1 ++ [a])) by (rewrite app_length; reflexivity).
    replace (l1 ++ a :: l2) with ((l1 ++ [a]) ++ l2) at 2 by (rewrite <- app_assoc; reflexivity).
    rewrite skipn_app, skipn_all, Nat.sub_diag. cbn [app skipn].
    reflexivity. }
  assert (EM : exists rest, M = b :: rest).
  { assert (LM : length (a :: M) = vertex_count p).
    { rewrite <- ER. unfold spec_rotate. rewrite app_length, skipn_length, firstn_length. unfold vertex_count in *. lia. }
    destruct M as [|b' rest] eqn:EM; [cbn in LM; lia|]. exists rest. f_equal.
    assert (H : nth_error (spec_rotate i (vtx p)) 1 = Some b'). { rewrite ER. reflexivity. }
    unfold spec_rotate in H. unfold vertex_count in *. destruct (Nat.eq_dec (i + 1) (length (vtx p))) as [Ee|Ne].
    - rewrite Ee, Nat.mod_same in E2 by lia. rewrite nth_error_app2 in H.
      + rewrite skipn_length in H. unfold vertex_count in *. replace (1 - (length (vtx p) - i))%nat with 0%nat in H by lia.
        rewrite nth_error_firstn' in H by lia. congruence.
      + rewrite skipn_length. unfold vertex_count in *. lia.
    - rewrite Nat.mod_small in E2 by lia. rewrite nth_error_app1 in H.
      + rewrite nth_error_skipn' in H. congruence.
      + rewrite skipn_length. unfold vertex_count in *. lia. }
  destruct EM as (rest & EM). rewrite EM in *.
  rewrite <- (winding_rotate p i pt Hok Hoff C ltac:(lia)), ER.
  assert (Hok0 : pline_ok (PL (a :: b :: rest) true) /\ ~ on_path (PL (a :: b :: rest) true) pt).
  { rewrite <- ER. destruct (spec_segs_rotate (vtx p) i ltac:(unfold vertex_count in *; lia)) as (k' & EK).
    unfold pline_ok, on_path in *. cbn [vtx is_closed] in *. rewrite EK. rewrite C in *. split.
    - intros v1 v2 H. apply spec_rotate_In in H. now apply Hok.
    - intros (v1 & v2 & H & Hon). apply spec_rotate_In in H. apply Hoff. eauto. }
  destruct Hok0 as [Hok0 Hoff0].
  (* the result seen from its last vertex *)
  set (N := s :: b :: rest).
  set (p1 := PL (u :: N) true).
  assert (EN : spec_rotate (length N) (N ++ [u]) = u :: N).
  { unfold spec_rotate. rewrite skipn_app, skipn_all, Nat.sub_diag, firstn_app, firstn_all, Nat.sub_diag. cbn [skipn firstn app].
    rewrite app_nil_r. reflexivity. }
  set (p2 := PL (N ++ [u]) true).
  assert (EP2 : PL (s :: skipn (i + 1) (vtx p) ++ firstn i (vtx p) ++ [u]) true = p2).
  { unfold p2, N. rewrite app_assoc. change (skipn (i + 1) (vtx p) ++ firstn i (vtx p)) with M. rewrite EM. reflexivity. }
  rewrite EP2 in Hok' |- *.
  assert (Hseg2 : forall x, In x (spec_segs (u :: N) true) <-> In x (spec_segs (N ++ [u]) true)).
  { intros x. rewrite <- EN. destruct (spec_segs_rotate (N ++ [u]) (length N)) as (k' & EK); [rewrite app_length; lia|].
    rewrite EK. apply spec_rotate_In. }
  assert (Hokp2 : pline_ok p2).
  { exact Hok'. }
  assert (Hok1 : pline_ok p1).
  { intros v1 v2 H. apply Hokp2. apply Hseg2. exact H. }
  destruct (winding_split a b rest u s t pt Hok0 Hok1 Hoff0 T P1 S1 S2) as [Hoff1 EW].
  rewrite <- EW. change (PL (u :: s :: b :: rest) true) with p1. unfold p1. rewrite <- EN.
  symmetry. apply (winding_rotate p2 (length N) pt Hokp2); [|reflexivity|].
  - intros (v1 & v2 & H & Hon). apply Hoff1. exists v1, v2. split; [|exact Hon]. apply Hseg2. exact H.
  - unfold vertex_count, p2. cbn [vtx]. rewrite app_length. lia.
Qed.
