(** remove_redundant drops one redundant vertex after another (C38). *)
From Coq Require Import List Arith Bool Lia.
From Verif Require Import Num Res ModelMath ModelSeg ModelPline ModelRedundant Spec SpecPline SpecRedundant
  ProofBase ProofIter ProofInvert ProofView ProofRepeat ProofStitch.
Import ListNotations.

Section Redundant.
Context {T : Type} {N : Num T}.
Variable (eps : T) (p : pline T).

Lemma dropped_trans l1 l2 l3 : dropped eps l1 l2 -> dropped eps l2 l3 -> dropped eps l1 l3.
Proof. intros H1 H2. induction H2; [exact H1|]. eapply dropped_more; [apply IHdropped; exact H1|exact H]. Qed.

Lemma drop1_len l1 l2 : drop1 eps l1 l2 -> length l1 = S (length l2).
Proof. intros [a m1 m2 m3 m1' b H]. rewrite !app_length. cbn [length]. lia. Qed.

Lemma dropped_len l1 l2 : dropped eps l1 l2 -> length l2 <= length l1.
Proof. induction 1 as [|l l1 l2 _ IH H]; [lia|]. apply drop1_len in H. lia. Qed.

Lemma drop1_snoc_inv K x y l' : drop1 eps (K ++ [x; y]) l' ->
  (exists k, drop1 eps (K ++ [x]) k) \/ (exists K' m m', K = K' ++ [m] /\ drops eps m x (mk_v y) m').
Proof.
  intros H. inversion H as [l1 m1 m2 m3 m1' l2 D E1 E2]. subst l'. clear H.
  destruct (exists_last (l := l1 ++ m1 :: m2 :: m3 :: l2)) as (l0 & z & E); [destruct l1; discriminate|].
  destruct l2 as [|w l2 _] using rev_ind.
  - replace (K ++ [x; y]) with ((K ++ [x]) ++ [y]) in E1 by now rewrite <- app_assoc.
    replace (l1 ++ [m1; m2; m3]) with (((l1 ++ [m1]) ++ [m2]) ++ [m3]) in E1 by now rewrite <- !app_assoc.
    apply app_inj_tail in E1 as (E1 & ->). apply app_inj_tail in E1 as (E1 & ->).
    right. exists l1, m1, m1'. split; [symmetry; exact E1|exact D].
  - replace (K ++ [x; y]) with ((K ++ [x]) ++ [y]) in E1 by now rewrite <- app_assoc.
    replace (l1 ++ m1 :: m2 :: m3 :: l2 ++ [w]) with ((l1 ++ m1 :: m2 :: m3 :: l2) ++ [w]) in E1
      by now rewrite <- app_assoc.
    apply app_inj_tail in E1 as (E1 & _). left. exists (l1 ++ m1' :: m3 :: l2). rewrite <- E1. now constructor.
Qed.

Definition is_line (k : option bool) : bool := match k with None => true | _ => false end.

Lemma turn_zero v : is_line (turn_of v) = bulge_is_zero v.
Proof. unfold turn_of, bulge_is_zero, fuzzy_eq_zero, fuzzy_eq_zero_eps. destruct (nltb _ _); reflexivity. Qed.
Lemma turn_pos v : bulge_is_zero v = false -> turn_of v = Some (bulge_is_pos v).
Proof. unfold turn_of, bulge_is_zero, fuzzy_eq_zero, fuzzy_eq_zero_eps. intros ->. reflexivity. Qed.

(** The flags kept for a mark. *)
Definition flags (m : mark T) (z s : bool) : Prop := z = is_line (mk_turn m) /\ (z = false -> mk_turn m = Some s).

Lemma flags_marked v : flags (marked v) (bulge_is_zero v) (bulge_is_pos v).
Proof. split; cbn [marked mk_turn]; [symmetry; apply turn_zero|apply turn_pos]. Qed.

Lemma near_place a b : v2fuzzy_eq_eps (pos a) (pos b) eps = same_place eps b a.
Proof. reflexivity. Qed.

Lemma collinear_straight v1 v2 v3 :
  is_collinear_same_dir eps v1 v2 v3 = same_place eps v3 v2 || straight eps v1 v2 v3.
Proof.
  unfold is_collinear_same_dir. rewrite near_place. destruct (same_place eps v3 v2); reflexivity.
Qed.

(** The merge of two arcs. *)
Lemma merge_arcs_spec m1 m2 v3 s :
  mk_turn m1 = Some s -> mk_turn m2 = Some s ->
  let r := merge_arcs eps (mk_v m1) (mk_v m2) v3 s (mk_circle m1) in
  fst r = circle_of m1 m2
  /\ (forall b, snd r = Some b <-> one_arc eps m1 m2 v3 b).
Proof.
  intros T1 T2 r. subst r. unfold merge_arcs, one_arc. fold (circle_of m1 m2).
  destruct (circle_of m1 m2) as [r1 c1]. destruct (seg_arc_radius_and_center (mk_v m2) v3) as [r2 c2].
  cbn [fst snd]. split; [reflexivity|]. intros b. unfold fuzzy_eq_eps, v2fuzzy_eq_eps, fuzzy_lt_eps, bulge_from_angle.
  unfold fuzzy_eq_eps. fold (turns c1 (mk_v m1) (mk_v m2) v3). split.
  - destruct (nltb (nabs (nsub r1 r2)) eps) eqn:R; [cbn [andb]|discriminate].
    destruct (nltb (nabs (nsub (vx c1) (vx c2))) eps && nltb (nabs (nsub (vy c1) (vy c2))) eps) eqn:C; [|discriminate].
    destruct (nltb (nmul _ _) _) eqn:A; [|discriminate]. intros H. injection H as <-.
    exists s. repeat split; auto.
  - intros (s' & S1 & _ & R & C & A & ->). assert (s' = s) by congruence. subst s'.
    rewrite R. cbn [andb]. rewrite C, A. destruct s; reflexivity.
Qed.

(** What the loop knows: the kept marks, the middle vertex, the vertexes to come and the number of the next. [Z]:
    there was a result from the beginning. *)
Definition inv (Z : Prop) (W : list (vertex T)) (j : nat) (K0 : list (mark T)) (m1 : mark T) (v2 : vertex T)
    (L : list (vertex T)) (st : redundant_state T) : Prop :=
  dropped eps (map marked W) (K0 ++ m1 :: marked v2 :: map marked L)
  /\ 2 <= j
  /\ exists z1 p1 res,
     st = RS (mk_v m1) v2 (mk_circle m1) z1 (bulge_is_zero v2) p1 (bulge_is_pos v2) res
     /\ flags m1 z1 p1
     /\ match res with
        | Some r => r = PL (map mk_v (K0 ++ [m1])) (is_closed p) /\ (Z \/ length K0 + 2 + length L < length W)
        | None => K0 ++ [m1] = map marked (firstn (j - 1) (vtx p)) /\ mk_circle m1 = None
                  /\ needed eps (K0 ++ [m1; marked v2])
                  /\ W = firstn (j - 1) (vtx p) ++ v2 :: L /\ exists E, W = vtx p ++ E /\ length E <= 1
        end.

Lemma firstn_snoc {A} (l : list A) n x : nth_error l n = Some x -> firstn (S n) l = firstn n l ++ [x].
Proof. revert n. induction l as [|a l IH]; intros [|n] H; try discriminate; cbn in *; [congruence|]. now rewrite (IH n H). Qed.

Lemma needed_snoc K0 m1 v2 v3 : needed eps (K0 ++ [m1; marked v2]) ->
  (forall m, ~ drops eps m1 (marked v2) v3 m) -> needed eps (K0 ++ [m1; marked v2; marked v3]).
Proof.
  intros H1 H2 l' D. change (K0 ++ [m1; marked v2; marked v3]) with (K0 ++ [m1] ++ [marked v2; marked v3]) in D.
  rewrite app_assoc in D. apply drop1_snoc_inv in D as [(k & D)|(K' & m & m' & E & D)].
  - rewrite <- app_assoc in D. exact (H1 _ D).
  - apply app_inj_tail in E as (_ & <-). exact (H2 _ D).
Qed.

Lemma drops_drop1 K0 m1 v2 v3 L m : drops eps m1 (marked v2) v3 m ->
  drop1 eps (K0 ++ m1 :: marked v2 :: map marked (v3 :: L)) (K0 ++ m :: marked v3 :: map marked L).
Proof. intros D. cbn [map]. now apply drop1_intro. Qed.

Lemma classify_spec m1 v2 v3 z1 p1 res j : flags m1 z1 p1 -> is_closed p = true \/ j <> vertex_count p ->
  match redundant_classify p eps (RS (mk_v m1) v2 (mk_circle m1) z1 (bulge_is_zero v2) p1 (bulge_is_pos v2) res) j v3 with
  | (IncludeVertex, _) => forall m, ~ drops eps m1 (marked v2) v3 m
  | (DiscardVertex, _) => drops eps m1 (marked v2) v3 (MK (mk_v m1) (mk_turn m1) None)
  | (UpdateV1BulgeForArc b, c) =>
    bulge_is_zero v2 = false /\ mk_turn m1 = Some (bulge_is_pos v2)
    /\ drops eps m1 (marked v2) v3 (MK (with_bulge (mk_v m1) b) (mk_turn m1) c)
  end.
Proof.
  intros (FZ & FS) HJ. unfold redundant_classify. rewrite !near_place.
  destruct (same_place eps v3 v2) eqn:NR; [apply drops_repeat; exact NR|]. cbn [negb]. rewrite andb_true_r.
  destruct (z1 && bulge_is_zero v2) eqn:ZZ.
  - apply andb_true_iff in ZZ as (Z1 & Z2).
    assert (T1 : mk_turn m1 = None). { rewrite Z1 in FZ. destruct (mk_turn m1); [discriminate|reflexivity]. }
    assert (T2 : turn_of v2 = None). { rewrite <- turn_zero in Z2. destruct (turn_of v2); [discriminate|reflexivity]. }
    replace (negb (negb (is_closed p) && Nat.eqb j (vertex_count p))) with true
      by (destruct HJ as [->|H]; [reflexivity|apply Nat.eqb_neq in H; rewrite H, andb_false_r; reflexivity]).
    cbn [andb]. rewrite collinear_straight, NR. cbn [orb].
    destruct (straight eps (mk_v m1) v2 v3) eqn:ST.
    + rewrite T1. apply drops_straight; auto.
    + intros m D. destruct D as [C|C D1 D2 D3|b C (s & D & _)]; cbn [marked mk_v] in *; congruence.
  - assert (NL : mk_turn m1 = None -> turn_of v2 = None -> False).
    { intros H1 H2. rewrite FZ, H1, <- turn_zero, H2 in ZZ. discriminate. }
    destruct (negb z1 && negb (bulge_is_zero v2) && Bool.eqb p1 (bulge_is_pos v2)) eqn:AA.
    + apply andb_true_iff in AA as (AA & ES). apply andb_true_iff in AA as (Z1 & Z2).
      apply negb_true_iff in Z1, Z2. apply eqb_prop in ES. specialize (FS Z1). subst p1.
      pose proof (turn_pos v2 Z2) as T2.
      destruct (merge_arcs_spec m1 (marked v2) v3 _ FS T2) as (M1 & M2). cbn [mk_v marked] in M1, M2.
      destruct (merge_arcs eps (mk_v m1) v2 v3 (bulge_is_pos v2) (mk_circle m1)) as [arc1 [b|]]; cbn [fst snd] in M1, M2.
      * split; [exact Z2|]. split; [exact FS|]. subst arc1. apply (drops_arc eps m1 (marked v2) v3 b); [exact NR|]. now apply M2.
      * intros m D. destruct D as [C|C D1 D2 D3|b C D]; cbn [marked mk_v mk_turn] in *; try congruence.
        apply M2 in D. discriminate.
    + intros m D. destruct D as [C|C D1 D2 D3|b C (s & D1 & D2 & _)]; cbn [marked mk_v mk_turn] in *; try congruence; [tauto|].
      assert (Z1 : z1 = false) by (rewrite FZ, D1; reflexivity).
      assert (Z2 : bulge_is_zero v2 = false) by (rewrite <- turn_zero, D2; reflexivity).
      rewrite (turn_pos v2 Z2) in D2. rewrite (FS Z1) in D1. rewrite Z1, Z2 in AA. cbn [negb andb] in AA.
      assert (p1 = bulge_is_pos v2) by congruence. subst p1. rewrite eqb_reflx in AA. discriminate.
Qed.

Lemma step_inv Z W j K0 m1 v2 v3 L st :
  inv Z W j K0 m1 v2 (v3 :: L) st -> (is_closed p = true \/ j <> vertex_count p) ->
  exists st' K0' m1', redundant_step p eps st (j, v3) = Ret st' /\ inv Z W (S j) K0' m1' v3 L st'.
Proof.
  intros (D & J2 & z1 & p1 & res & -> & F & HR) HJ.
  pose proof (classify_spec m1 v2 v3 z1 p1 res j F HJ) as C. unfold redundant_step.
  destruct (redundant_classify p eps _ j v3) as [c arc].
  assert (LEN : length K0 + 2 + length (v3 :: L) <= length W).
  { apply dropped_len in D. rewrite app_length in D. cbn [map length] in *. rewrite !map_length in D. lia. }
  (* the vertexes so far, when nothing was dropped *)
  assert (COPY : match res with Some r => r = PL (map mk_v (K0 ++ [m1])) (is_closed p)
                           | None => PL (firstn (j - 1) (vtx p)) (is_closed p) = PL (map mk_v (K0 ++ [m1])) (is_closed p) end).
  { destruct res as [r|]; [apply HR|]. destruct HR as (E & _). rewrite E, map_map. cbn. rewrite map_id. reflexivity. }
  assert (SNOC : forall m, map mk_v (K0 ++ [m]) = map mk_v K0 ++ [mk_v m]) by (intros m; apply map_app).
  destruct c as [| |b].
  - (* kept *)
    eexists _, (K0 ++ [m1]), (marked v2). split; [reflexivity|].
    split; [rewrite <- app_assoc; exact D|]. split; [lia|].
    eexists _, _, _. split; [reflexivity|]. split; [apply flags_marked|].
    destruct res as [r|].
    + destruct HR as (-> & HR). split.
      * unfold add_vertex. cbn [vtx is_closed]. f_equal. rewrite (map_app _ (K0 ++ [m1])). reflexivity.
      * rewrite app_length. cbn [length] in *. destruct HR as [HR|HR]; [now left|right; lia].
    + destruct HR as (E & _ & NE & EW & E' & EW' & EL).
      assert (LF : length (firstn (j - 1) (vtx p)) = j - 1).
      { rewrite firstn_length. apply (f_equal (@length _)) in EW'. apply (f_equal (@length _)) in EW.
        rewrite app_length in EW, EW'. cbn [length] in *. rewrite firstn_length in EW. lia. }
      assert (NV : nth_error (vtx p) (j - 1) = Some v2).
      { assert (B : j - 1 < length (vtx p)).
        { apply (f_equal (@length _)) in EW'. apply (f_equal (@length _)) in EW.
          rewrite app_length in EW, EW'. cbn [length] in *. lia. }
        rewrite <- (nth_error_app1 (vtx p) E' B), <- EW', EW. rewrite nth_error_app2, LF, Nat.sub_diag by lia. reflexivity. }
      pose proof (firstn_snoc _ _ _ NV) as FS. replace (S (j - 1)) with j in FS by lia.
      replace (S j - 1) with j by lia. split; [|split; [|split; [|split]]].
      * rewrite FS, map_app, <- E. reflexivity.
      * reflexivity.
      * rewrite <- app_assoc. cbn [app]. now apply needed_snoc.
      * rewrite FS, <- app_assoc. exact EW.
      * exists E'. split; [exact EW'|exact EL].
  - (* dropped *)
    exists (RS (mk_v m1) v3 None z1 (bulge_is_zero v3) p1 (bulge_is_pos v3) (Some (PL (map mk_v (K0 ++ [m1])) (is_closed p)))).
    exists K0, (MK (mk_v m1) (mk_turn m1) None). split.
    + destruct res as [r|]; [rewrite COPY; reflexivity|]. rewrite usub_ok by lia. cbn [rbind]. rewrite COPY. reflexivity.
    + split; [eapply dropped_more; [exact D|]; now apply drops_drop1|]. split; [lia|].
      eexists _, _, _. split; [reflexivity|]. split; [exact F|]. split.
      * rewrite !SNOC. reflexivity.
      * right. cbn [length] in *. lia.
  - (* merged *)
    destruct C as (Z2 & T1 & C).
    exists (RS (with_bulge (mk_v m1) b) v3 arc (bulge_is_zero v2) (bulge_is_zero v3) (bulge_is_pos v2) (bulge_is_pos v3)
              (Some (PL (map mk_v K0 ++ [with_bulge (mk_v m1) b]) (is_closed p)))).
    exists K0, (MK (with_bulge (mk_v m1) b) (mk_turn m1) arc). split.
    + transitivity (let! r := Ret (PL (map mk_v (K0 ++ [m1])) (is_closed p)) in
                    let! lo := last_ r in let! last := unwrap lo in let! r := set_last r (with_bulge last b) in
                    Ret (RS (with_bulge (mk_v m1) b) v3 arc (bulge_is_zero v2) (bulge_is_zero v3) (bulge_is_pos v2) (bulge_is_pos v3) (Some r))).
      * destruct res as [r|]; [rewrite COPY; reflexivity|]. rewrite usub_ok by lia. cbn [rbind]. rewrite COPY. reflexivity.
      * cbn [rbind]. rewrite SNOC, last_snoc_pline. cbn [unwrap rbind]. rewrite set_last_snoc_pline. reflexivity.
    + split; [eapply dropped_more; [exact D|]; now apply drops_drop1|]. split; [lia|].
      eexists _, _, _. split; [reflexivity|]. split; [split; [rewrite Z2; cbn [mk_turn]; rewrite T1; reflexivity|intros _; cbn [mk_turn]; exact T1]|]. split.
      * rewrite SNOC. reflexivity.
      * right. cbn [length] in *. lia.
Qed.

Lemma loop_inv Z W L : forall j K0 m1 v2 st,
  inv Z W j K0 m1 v2 L st -> (is_closed p = true \/ j + length L <= vertex_count p) ->
  exists st' K0' m1', rfold (redundant_step p eps) (combine (seq j (length L)) L) st = Ret st'
    /\ inv Z W (j + length L) K0' m1' (last L v2) [] st'.
Proof.
  induction L as [|v3 L IH]; intros j K0 m1 v2 st I HJ.
  - exists st, K0, m1. split; [reflexivity|]. cbn [length last]. now rewrite Nat.add_0_r.
  - destruct (step_inv _ _ _ _ _ _ _ _ _ I) as (st1 & K1 & n1 & E1 & I1).
    { destruct HJ as [HJ|HJ]; [now left|right; cbn [length] in HJ; lia]. }
    destruct (IH (S j) K1 n1 v3 st1 I1) as (st2 & K2 & n2 & E2 & I2).
    { destruct HJ as [HJ|HJ]; [now left|right; cbn [length] in HJ; lia]. }
    exists st2, K2, n2. split.
    + cbn [length seq combine rfold]. rewrite E1. cbn [rbind]. exact E2.
    + cbn [length]. replace (j + S (length L)) with (S j + length L) by lia.
      replace (last (v3 :: L) v2) with (last L v3); [exact I2|]. clear. revert v3. induction L as [|a L IH]; intros v3; [reflexivity|].
      cbn [last]. destruct L; [reflexivity|]. cbn [last] in IH. apply (IH v3).
Qed.

Lemma cycle_ok L : forall i, (forall k x, nth_error L k = Some x -> nth_error (vtx p) ((i + k) mod vertex_count p) = Some x) ->
  cycle_enumerate_skip_take p i (length L) = Ret (combine (seq i (length L)) L).
Proof.
  unfold cycle_enumerate_skip_take. induction L as [|x L IH]; intros i H; [reflexivity|]. cbn [length seq combine rmapM].
  pose proof (H 0 x eq_refl) as H0. rewrite Nat.add_0_r in H0. unfold index at 1. rewrite H0. cbn [rbind].
  rewrite IH; [reflexivity|]. intros k y Hk. replace (S i + k) with (i + S k) by lia. now apply H.
Qed.

Lemma start_loop_run run : forall f i v1 v2,
  (forall w, In w (v2 :: run) -> same_place eps w v1 = true) ->
  (forall k w, nth_error run k = Some w -> nth_error (vtx p) (i + k) = Some w) ->
  forall c, nth_error (vtx p) (i + length run) = Some c -> same_place eps c v1 = false -> length run + 2 <= f ->
  redundant_start_loop p eps f i v1 v2
  = Ret (with_bulge v1 (pbulge (last run v2)), c, i + length run + 1).
Proof.
  induction run as [|w run IH]; intros f i v1 v2 HN HR c HC NC HF.
  - destruct f as [|[|f]]; [lia|lia|]. cbn [length] in *. rewrite Nat.add_0_r in HC |- *. cbn [redundant_start_loop last].
    rewrite near_place, (HN v2 (or_introl eq_refl)).
    destruct (Nat.leb_spec (vertex_count p) i) as [B|B]; [apply nth_error_None in B; congruence|].
    rewrite (at_ok p i c HC). cbn [rbind]. rewrite near_place.
    replace (same_place eps c (with_bulge v1 (pbulge v2))) with (same_place eps c v1) by reflexivity. rewrite NC. reflexivity.
  - destruct f as [|f]; [lia|]. cbn [redundant_start_loop]. rewrite near_place, (HN v2 (or_introl eq_refl)).
    assert (HI : nth_error (vtx p) i = Some w) by (rewrite <- (Nat.add_0_r i); now apply HR).
    destruct (Nat.leb_spec (vertex_count p) i) as [B|B]; [apply nth_error_None in B; congruence|].
    rewrite (at_ok p i w HI). cbn [rbind length] in *.
    rewrite (IH f (i + 1) (with_bulge v1 (pbulge v2)) w) with (c := c).
    + replace (i + 1 + length run + 1) with (i + S (length run) + 1) by lia. f_equal. f_equal. f_equal. unfold with_bulge. cbn [px py].
      f_equal. f_equal. destruct run as [|y run]; [reflexivity|]. cbn [last]. clear. revert y. induction run as [|z run IH]; intros y; [reflexivity|]. cbn [last] in *. apply IH.
    + intros y Hy. apply HN. now right.
    + intros k y Hk. replace (i + 1 + k) with (i + S k) by lia. now apply HR.
    + replace (i + 1 + length run) with (i + S (length run)) by lia. exact HC.
    + exact NC.
    + lia.
Qed.

Lemma drop1_first m l l' : drop1 eps (m :: l) l' -> exists n t, l' = n :: t /\ position (mk_v n) = position (mk_v m).
Proof.
  intros H. inversion H as [l1 m1 m2 m3 m1' l2 D E1 E2]. destruct l1 as [|y l1]; cbn [app] in *; injection E1 as <- <-.
  - exists m1', (m3 :: l2). split; [reflexivity|]. destruct D; reflexivity.
  - exists y, (l1 ++ m1' :: m3 :: l2). split; reflexivity.
Qed.

Lemma dropped_first m l l' : dropped eps (m :: l) l' -> exists n t, l' = n :: t /\ position (mk_v n) = position (mk_v m).
Proof.
  intros H. remember (m :: l) as W eqn:E. induction H as [W|W l1 l2 H1 IH H2]; [exists m, l; auto|].
  destruct (IH E) as (n & t & -> & P). apply drop1_first in H2 as (n' & t' & -> & P'). exists n', t'. split; [reflexivity|congruence].
Qed.

Lemma drop1_short a b l' : ~ drop1 eps [a; b] l'.
Proof. intros H. inversion H as [l1 m1 m2 m3 m1' l2 D E1 E2]. apply (f_equal (@length _)) in E1. rewrite app_length in E1. cbn [length] in E1. lia. Qed.

Lemma last_cons {A} (x y : A) l : last (x :: l) y = last l x.
Proof. revert x. induction l as [|z l IH]; intros x; [reflexivity|]. cbn [last] in *. destruct l; [reflexivity|]. apply IH. Qed.

Lemma snoc_last {A} (l : list A) d : l ++ [last (d :: l) d] = l ++ [last l d].
Proof. now rewrite last_cons. Qed.

Lemma redundant_open a b L :
  is_closed p = false -> vtx p = a :: b :: L -> same_place eps b a = false ->
  (remove_redundant p eps = Ret None /\ needed eps (map marked (vtx p)))
  \/ exists K q, remove_redundant p eps = Ret (Some q) /\ is_closed q = false
     /\ dropped eps (map marked (vtx p)) (K ++ [marked (last L b)]) /\ S (length K) < vertex_count p
     /\ (exists m, hd_error K = Some m /\ position (mk_v m) = position a)
     /\ ends_with eps (map mk_v K) (last L b) (vtx q).
Proof.
  intros HC HV NB. unfold remove_redundant. cbv zeta.
  assert (VC : vertex_count p = 2 + length L) by (unfold vertex_count; rewrite HV; reflexivity).
  assert (A0 : at_ p 0 = Ret a) by (apply at_ok; rewrite HV; reflexivity).
  assert (A1 : at_ p 1 = Ret b) by (apply at_ok; rewrite HV; reflexivity).
  rewrite A0, A1. cbn [rbind]. destruct (Nat.ltb_spec (vertex_count p) 2) as [B|_]; [lia|].
  destruct (Nat.eqb_spec (vertex_count p) 2) as [B|B].
  { left. rewrite near_place, NB. split; [reflexivity|]. rewrite HV. destruct L; [|cbn [length] in VC; lia]. intros l'. apply drop1_short. }
  assert (SL : redundant_start_loop p eps (vertex_count p) 2 a b = Ret (a, b, 2)).
  { rewrite VC. cbn [Nat.add redundant_start_loop]. rewrite near_place, NB. reflexivity. }
  rewrite SL. cbn [rbind Nat.eqb]. clear SL. destruct L as [|v3 L]; [cbn [length] in VC; lia|].
  set (L0 := v3 :: L) in *.
  destruct (Nat.leb_spec (vertex_count p) 2) as [B'|_]; [lia|].
  rewrite HC. replace (vertex_count p - 2) with (length L0) by lia.
  rewrite cycle_ok.
  2:{ intros k x Hk. rewrite Nat.mod_small.
      - rewrite HV. exact Hk.
      - assert (k < length L0) by (apply nth_error_Some; congruence). lia. }
  cbn [rbind].
  set (st0 := RS a b None (bulge_is_zero a) (bulge_is_zero b) (bulge_is_pos a) (bulge_is_pos b) None).
  assert (I0 : inv False (vtx p) 2 [] (marked a) b L0 st0).
  { split; [rewrite HV; constructor|]. split; [lia|]. eexists _, _, _. split; [reflexivity|]. split; [apply flags_marked|].
    cbn [Nat.sub]. rewrite HV. cbn [firstn map app]. split; [reflexivity|]. split; [reflexivity|]. split; [intros l'; apply drop1_short|]. split; [reflexivity|].
    exists []. split; [now rewrite app_nil_r|cbn; lia]. }
  destruct (loop_inv _ _ _ _ _ _ _ _ I0) as (st & K0 & m1 & E & I); [right; lia|].
  rewrite E. cbn [rbind]. destruct I as (D & _ & z1 & p1 & res & -> & F & HR). cbn [map] in D.
  assert (LA : nth_error (vtx p) (vertex_count p - 1) = Some (last L0 b)).
  { rewrite VC, HV. replace (2 + length L0 - 1) with (S (length L0)) by lia. cbn [nth_error].
    destruct (exists_last (l := L0)) as (l' & x & EL); [discriminate|]. rewrite EL, last_last.
    rewrite app_length. cbn [length]. replace (length l' + 1) with (S (length l')) by lia. cbn [nth_error].
    rewrite nth_error_app2, Nat.sub_diag by lia. reflexivity. }
  unfold redundant_finish_open. cbn [rs_result]. destruct res as [r|].
  - right. destruct HR as (-> & [HR|HR]); [contradiction|]. cbn [length] in HR.
    unfold last_. rewrite usub_ok by lia. cbn [rbind]. unfold get. rewrite LA. cbn [unwrap rbind].
    exists (K0 ++ [m1]), (add_or_replace_vertex (PL (map mk_v (K0 ++ [m1])) (is_closed p)) (last L0 b) eps).
    split; [reflexivity|]. split; [unfold add_or_replace_vertex; destruct (rev _); [exact HC|destruct (v2fuzzy_eq_eps _ _ _); exact HC]|].
    split; [rewrite <- app_assoc; exact D|]. split; [rewrite app_length; cbn [length]; unfold vertex_count; lia|]. split.
    + rewrite HV in D. cbn [map] in D. apply dropped_first in D as (n & t & EK & PN).
      destruct K0 as [|k0 K0]; cbn [app] in EK; injection EK as -> _; eexists; (split; [reflexivity|exact PN]).
    + exists (map mk_v K0), (mk_v m1). split; [apply map_app|]. rewrite map_app. cbn [map]. rewrite <- near_place.
      unfold add_or_replace_vertex. cbn [vtx is_closed]. rewrite rev_unit, rev_involutive.
      destruct (v2fuzzy_eq_eps (pos (mk_v m1)) (pos (last L0 b)) eps); reflexivity.
  - left. destruct HR as (EK & _ & NE & EW & _).
    rewrite !usub_ok by lia. cbn [rbind].
    rewrite (at_ok _ _ _ LA).
    destruct (nth_error_some (vtx p) (vertex_count p - 2)) as [y HY]; [fold (vertex_count p); lia|].
    rewrite (at_ok _ _ _ HY). cbn [rbind].
    replace (2 + length L0 - 1) with (vertex_count p - 1) in * by lia.
    pose proof (firstn_snoc _ _ _ LA) as F1. replace (S (vertex_count p - 1)) with (vertex_count p) in F1 by lia.
    unfold vertex_count at 1 in F1. rewrite firstn_all in F1.
    pose proof (firstn_snoc _ _ _ HY) as F2. replace (S (vertex_count p - 2)) with (vertex_count p - 1) in F2 by lia.
    assert (NE' : needed eps (map marked (vtx p))).
    { rewrite F1, map_app, <- EK, <- app_assoc. exact NE. }
    assert (NR : same_place eps (last L0 b) y = false).
    { destruct (same_place eps (last L0 b) y) eqn:SP; [exfalso|reflexivity].
      rewrite F1, F2 in NE'.
      destruct (nth_error_some (vtx p) (vertex_count p - 3)) as [x HX]; [fold (vertex_count p); subst L0; cbn [length] in *; lia|].
      pose proof (firstn_snoc _ _ _ HX) as F3. replace (S (vertex_count p - 3)) with (vertex_count p - 2) in F3 by (subst L0; cbn [length] in *; lia).
      rewrite F3, !map_app in NE'. rewrite <- !app_assoc in NE'. cbn [map app] in NE'.
      eapply NE', drop1_intro, drops_repeat. exact SP. }
    replace (vfuzzy_eq_eps y (last L0 b) eps) with false; [split; [reflexivity|exact NE']|].
    symmetry. rewrite <- near_place in NR. unfold v2fuzzy_eq_eps in NR. unfold vfuzzy_eq_eps. cbn [pos vx vy] in NR.
    rewrite NR. reflexivity.
Qed.

(** After the last vertex of a closed polyline. *)
Lemma finish_closed_spec x0 mid m1 x1 z z1 p1 res :
  let K := x0 :: mid ++ [m1] in
  is_closed p = true -> hd_error (mid ++ [m1]) = Some x1 -> same_place eps (mk_v x0) (mk_v m1) = false ->
  flags m1 z1 p1 ->
  match res with Some r => r = PL (map mk_v K) true | None => vtx p = map mk_v K end ->
  let r := redundant_finish_closed p eps
             (RS (mk_v m1) z (mk_circle m1) z1 (bulge_is_zero z) p1 (bulge_is_pos z) res) in
  (r = Ret res /\ (forall m, drops eps m1 (marked z) (mk_v x1) m -> same_place eps (mk_v x1) z = true))
  \/ exists m, drops eps m1 (marked z) (mk_v x1) m /\ r = Ret (Some (PL (mk_v m :: map mk_v mid) true)).
Proof.
  intros K HC HX NS (FZ & FS) HR r.
  assert (EK : map mk_v K = (mk_v x0 :: map mk_v mid) ++ [mk_v m1]) by (subst K; cbn [map]; rewrite map_app; reflexivity).
  assert (N1 : nth_error (map mk_v K) 1 = Some (mk_v x1)).
  { subst K. cbn [map nth_error]. destruct mid; cbn [app hd_error] in HX; injection HX as ->; reflexivity. }
  set (pl := PL (map mk_v K) true).
  assert (GC : match res with Some pl => pl | None => PL (vtx p) (is_closed p) end = pl).
  { destruct res; [exact HR|]. rewrite HR, HC. reflexivity. }
  assert (LP : last_ pl = Ret (Some (mk_v m1))) by (unfold pl; rewrite EK; apply last_snoc_pline).
  assert (E1 : r = let! v3 := Ret (mk_v x1) in
    let get_or_copy := pl in
    if z1 && bulge_is_zero z && is_collinear_same_dir eps (mk_v m1) z v3 then
      let! vr := remove_last get_or_copy in let '(last, pl) := vr in let! pl := set_vertex pl 0 last in Ret (Some pl)
    else if negb z1 && negb (bulge_is_zero z) && Bool.eqb p1 (bulge_is_pos z) && negb (v2fuzzy_eq_eps (pos z) (pos v3) eps) then
      match merge_arcs eps (mk_v m1) z v3 p1 (mk_circle m1) with
      | (_, Some bulge) =>
        let! vr := remove_last get_or_copy in let '(last, pl) := vr in let! pl := set_vertex pl 0 (with_bulge last bulge) in Ret (Some pl)
      | (_, None) => Ret res
      end
    else Ret res).
  { subst r. unfold redundant_finish_closed. destruct res as [r|].
    - subst r. fold pl. rewrite LP. cbn [unwrap rbind]. rewrite (at_ok pl 0 (mk_v x0)) by reflexivity. cbn [rbind].
      rewrite near_place, NS. cbn [rbind]. rewrite (at_ok pl 1 _ N1). reflexivity.
    - assert (LP' : last_ p = Ret (Some (mk_v m1))).
      { destruct p as [vs c]. cbn [vtx is_closed] in *. subst c vs. exact LP. }
      rewrite LP'. cbn [unwrap rbind]. rewrite (at_ok p 0 (mk_v x0)) by (rewrite HR; reflexivity). cbn [rbind].
      rewrite near_place, NS. cbn [rbind]. rewrite (at_ok p 1 (mk_v x1)) by (rewrite HR; exact N1). cbn [rbind]. rewrite HR, HC. reflexivity. }
  assert (REM : remove_last pl = Ret (mk_v m1, PL (mk_v x0 :: map mk_v mid) true)) by (unfold pl; rewrite EK; apply remove_last_snoc).
  cbn [rbind] in E1. rewrite REM in E1. cbn [rbind] in E1.
  assert (SET : forall w, set_vertex (PL (mk_v x0 :: map mk_v mid) true) 0 w = Ret (PL (w :: map mk_v mid) true)) by reflexivity.
  rewrite !SET in E1. cbn [rbind] in E1. rewrite collinear_straight, near_place in E1.
  destruct (z1 && bulge_is_zero z) eqn:ZZ; cbn [andb] in E1.
  - apply andb_true_iff in ZZ as (Z1 & Z2).
    assert (T1 : mk_turn m1 = None). { rewrite Z1 in FZ. destruct (mk_turn m1); [discriminate|reflexivity]. }
    assert (T2 : turn_of z = None). { rewrite <- turn_zero in Z2. destruct (turn_of z); [discriminate|reflexivity]. }
    destruct (same_place eps (mk_v x1) z) eqn:SP; cbn [orb] in E1.
    + right. exists (MK (mk_v m1) (mk_turn m1) None). split; [now apply drops_repeat|exact E1].
    + destruct (straight eps (mk_v m1) z (mk_v x1)) eqn:ST.
      * right. exists (MK (mk_v m1) None None). split; [now apply drops_straight|exact E1].
      * left. rewrite Z1, Z2 in E1. cbn [negb andb] in E1. split; [exact E1|].
        intros m D. destruct D as [C|C D1 D2 D3|b C (s & D & _)]; cbn [marked mk_v] in *; congruence.
  - destruct (same_place eps (mk_v x1) z) eqn:SP.
    { left. rewrite andb_false_r in E1. split; [exact E1|auto]. }
    rewrite andb_true_r in E1.
    destruct (negb z1 && negb (bulge_is_zero z) && Bool.eqb p1 (bulge_is_pos z)) eqn:AA.
    + apply andb_true_iff in AA as (AA & ES). apply andb_true_iff in AA as (Z1 & Z2).
      apply negb_true_iff in Z1, Z2. apply eqb_prop in ES. specialize (FS Z1). subst p1.
      pose proof (turn_pos z Z2) as T2.
      destruct (merge_arcs_spec m1 (marked z) (mk_v x1) _ FS T2) as (M1 & M2). cbn [mk_v marked] in M1, M2.
      destruct (merge_arcs eps (mk_v m1) z (mk_v x1) (bulge_is_pos z) (mk_circle m1)) as [arc1 [b|]]; cbn [fst snd] in M1, M2.
      * right. eexists. split; [apply (drops_arc eps m1 (marked z) (mk_v x1) b); [exact SP|now apply M2]|]. exact E1.
      * left. split; [exact E1|]. intros m D. destruct D as [C|C D1 D2 D3|b C D]; cbn [marked mk_v mk_turn] in *; try congruence.
        apply M2 in D. discriminate.
    + left. split; [exact E1|]. intros m D. destruct D as [C|C D1 D2 D3|b C (s & D1 & D2 & _)]; cbn [marked mk_v mk_turn] in *; try congruence.
      * rewrite FZ, D1, <- turn_zero, D2 in ZZ. discriminate.
      * assert (Z1 : z1 = false) by (rewrite FZ, D1; reflexivity).
        assert (Z2 : bulge_is_zero z = false) by (rewrite <- turn_zero, D2; reflexivity).
        rewrite (turn_pos z Z2) in D2. rewrite (FS Z1) in D1. rewrite Z1, Z2 in AA. cbn [negb andb] in AA.
        assert (p1 = bulge_is_pos z) by congruence. subst p1. rewrite eqb_reflx in AA. discriminate.
Qed.

Lemma redundant_closed a run c rest :
  is_closed p = true -> vtx p = (a :: run) ++ c :: rest -> rest <> [] ->
  (forall w, In w run -> same_place eps w a = true) -> same_place eps c a = false ->
  let z := last run a in
  let W := Vtx (px a) (py a) (pbulge z) :: c :: rest ++ a :: run in
  exists K, dropped eps (map marked W) (K ++ [marked z])
    /\ (exists m, hd_error K = Some m /\ position (mk_v m) = position a)
    /\ forall x0 mid m1 x1, K = x0 :: mid ++ [m1] -> hd_error (mid ++ [m1]) = Some x1 ->
       same_place eps (mk_v x0) (mk_v m1) = false ->
       ((run = [] /\ K = map marked (vtx p) /\ needed eps (map marked W) /\ remove_redundant p eps = Ret None
         \/ (run <> [] \/ length K < vertex_count p) /\ remove_redundant p eps = Ret (Some (PL (map mk_v K) true)))
        /\ (forall m, drops eps m1 (marked z) (mk_v x1) m -> same_place eps (mk_v x1) z = true))
       \/ exists m, drops eps m1 (marked z) (mk_v x1) m
            /\ remove_redundant p eps = Ret (Some (PL (mk_v m :: map mk_v mid) true)).
Proof.
  intros HC HV NR HN NC z W.
  assert (VC : vertex_count p = length run + 2 + length rest).
  { unfold vertex_count. rewrite HV. cbn [app length]. rewrite app_length. cbn [length]. lia. }
  assert (RL : 1 <= length rest) by (destruct rest; [contradiction|cbn [length]; lia]).
  set (k := length run) in *.
  set (a' := Vtx (px a) (py a) (pbulge z)) in *.
  set (res0 := if Nat.eqb (k + 2) 2 then None else Some (PL [a'] true)).
  set (st0 := RS a' c None (bulge_is_zero a') (bulge_is_zero c) (bulge_is_pos a') (bulge_is_pos c) res0).
  assert (RUN : remove_redundant p eps =
    let! st := rfold (redundant_step p eps) (combine (seq (k + 2) (length (rest ++ a :: run))) (rest ++ a :: run)) st0 in
    redundant_finish_closed p eps st).
  { unfold remove_redundant. cbv zeta.
    destruct (Nat.ltb_spec (vertex_count p) 2) as [B|_]; [lia|].
    destruct (Nat.eqb_spec (vertex_count p) 2) as [B|_]; [lia|].
    rewrite (at_ok p 0 a) by (rewrite HV; reflexivity). cbn [rbind].
    assert (SL : exists v2, nth_error (vtx p) 1 = Some v2 /\ redundant_start_loop p eps (vertex_count p) 2 a v2 = Ret (a', c, k + 2)).
    { destruct run as [|w run].
      - exists c. split; [rewrite HV; reflexivity|]. replace (vertex_count p) with (S (vertex_count p - 1)) by lia.
        cbn [redundant_start_loop]. rewrite near_place, NC. subst a' z k. cbn [last length Nat.add]. destruct a; reflexivity.
      - exists w. split; [rewrite HV; reflexivity|]. rewrite (start_loop_run run) with (c := c).
        + subst a' z k. rewrite last_cons. cbn [length]. replace (2 + length run + 1) with (S (length run) + 2) by lia. reflexivity.
        + intros y Hy. apply HN. exact Hy.
        + intros m y Hm. rewrite HV. cbn [app nth_error Nat.add]. rewrite nth_error_app1 by (apply nth_error_Some; congruence). exact Hm.
        + rewrite HV. cbn [app nth_error Nat.add]. rewrite nth_error_app2, Nat.sub_diag by lia. reflexivity.
        + exact NC.
        + subst k. cbn [length] in *. lia. }
    destruct SL as (v2 & H1 & SL). rewrite (at_ok p 1 v2 H1). cbn [rbind]. rewrite SL. cbn [rbind].
    destruct (Nat.leb_spec (vertex_count p) (k + 2)) as [B|_]; [lia|]. rewrite HC.
    assert (LL : length (rest ++ a :: run) = vertex_count p - 1) by (rewrite app_length; cbn [length]; fold k; lia).
    rewrite <- LL, cycle_ok; [reflexivity|].
    intros m x Hm. assert (MB : m < length (rest ++ a :: run)) by (apply nth_error_Some; congruence).
    assert (HV' : vtx p = (a :: run ++ [c]) ++ rest) by (rewrite HV; cbn [app]; now rewrite <- app_assoc).
    destruct (Nat.lt_ge_cases m (length rest)) as [B|B].
    - rewrite nth_error_app1 in Hm by exact B. rewrite Nat.mod_small by lia. rewrite HV', nth_error_app2 by (cbn [length]; rewrite app_length; cbn [length]; fold k; lia).
      replace (k + 2 + m - length (a :: run ++ [c])) with m by (cbn [length]; rewrite app_length; cbn [length]; fold k; lia). exact Hm.
    - rewrite nth_error_app2 in Hm by exact B.
      replace (k + 2 + m) with (m - length rest + 1 * vertex_count p) by lia. rewrite Nat.mod_add by lia. rewrite Nat.mod_small by lia.
      rewrite HV, nth_error_app1; [exact Hm|]. apply nth_error_Some. congruence. }
  assert (I0 : inv (run <> []) W (k + 2) [] (marked a') c (rest ++ a :: run) st0).
  { split; [constructor|]. split; [lia|]. eexists _, _, _. split; [reflexivity|]. split; [apply flags_marked|].
    subst res0. destruct (Nat.eqb_spec (k + 2) 2) as [B|B].
    - destruct run; [|subst k; cbn [length] in B; lia]. assert (EA : a' = a) by (subst a' z; destruct a; reflexivity).
      rewrite B, HV. cbn [Nat.sub firstn app map]. rewrite EA. split; [reflexivity|]. split; [reflexivity|].
      split; [intros l'; apply drop1_short|]. split; [subst W; rewrite EA; reflexivity|].
      exists [a]. split; [subst W; rewrite EA; reflexivity|cbn [length]; lia].
    - rewrite HC. split; [reflexivity|]. left. intros ->. subst k. cbn in B. lia. }
  destruct (loop_inv _ _ _ _ _ _ _ _ I0) as (st & K0 & m1 & E & I); [left; exact HC|].
  assert (LZ : last (rest ++ a :: run) c = z).
  { clear. subst z. assert (G : forall (l : list (vertex T)) x d, last (l ++ x :: run) d = last run x).
    { induction l as [|y l IH]; intros x d; cbn [app]; [apply last_cons|]. rewrite last_cons. apply IH. }
    apply G. }
  rewrite LZ in I. destruct I as (D & _ & z1 & p1 & res & -> & F & HR). cbn [map] in D.
  exists (K0 ++ [m1]). split; [rewrite <- app_assoc; exact D|]. split.
  { subst W. cbn [map] in D. apply dropped_first in D as (n & t & EK & PN).
    destruct K0 as [|k0 K0]; cbn [app] in EK; injection EK as -> _; eexists; (split; [reflexivity|exact PN]). }
  intros x0 mid n1 x1 EK HX NS.
  assert (EK' : K0 = x0 :: mid /\ m1 = n1).
  { change (x0 :: mid ++ [n1]) with ((x0 :: mid) ++ [n1]) in EK. now apply app_inj_tail in EK. }
  destruct EK' as (-> & ->). rewrite RUN, E. cbn [rbind].
  assert (HJ : k + 2 + length (rest ++ a :: run) - 1 = k + vertex_count p) by (rewrite app_length; cbn [length]; fold k; lia).
  rewrite HJ in HR.
  assert (HR' : match res with Some r => r = PL (map mk_v ((x0 :: mid) ++ [n1])) true | None => vtx p = map mk_v ((x0 :: mid) ++ [n1]) end).
  { destruct res as [r|]; [rewrite HC in HR; apply HR|]. destruct HR as (EM & _ & _ & _). rewrite EM.
    rewrite firstn_all2 by (fold (vertex_count p); lia). rewrite map_map. cbn. now rewrite map_id. }
  destruct (finish_closed_spec x0 mid n1 x1 z z1 p1 res HC HX NS F HR') as [(R1 & R2)|R].
  - left. split; [|exact R2]. destruct res as [r|].
    + right. split; [|rewrite R1, HR'; reflexivity]. destruct HR as (_ & [HR|HR]); [now left|].
      destruct run as [|w run]; [right|left; discriminate]. subst W k. cbn [length app] in *. rewrite app_length in HR. rewrite app_length. cbn [length] in *. lia.
    + left. destruct HR as (EM & _ & NE & EW & E' & EW' & EL). rewrite firstn_all2 in EM, EW by (fold (vertex_count p); lia).
      assert (R0 : run = []).
      { destruct run as [|w run]; [reflexivity|]. exfalso. rewrite HV in EW. subst W. cbn [app] in EW.
        injection EW as _ EC _. rewrite <- EC in HN. rewrite (HN c (or_introl eq_refl)) in NC. discriminate. }
      split; [exact R0|]. split; [exact EM|]. split; [|exact R1].
      rewrite EW, map_app, <- EM, <- app_assoc. exact NE.
  - right. exact R.
Qed.

End Redundant.
