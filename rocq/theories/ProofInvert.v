(** Lemmas about [invert_direction_mut], [scale_mut] and [translate_mut] (C02, C40). *)
From Coq Require Import List Arith Bool ZArith Lia.
From Verif Require Import Num Res ModelMath ModelSeg ModelPline Spec SpecPline ProofBase ProofIter.
Import ListNotations.

Section Invert.
Context {T : Type} {N : Num T}.
Implicit Types p : pline T.

Lemma at_ok p i a : nth_error (vtx p) i = Some a -> at_ p i = Ret a.
Proof. apply index_ok. Qed.

Lemma set_vertex_ok p i v :
  i < vertex_count p -> set_vertex p i v = Ret (PL (list_set (vtx p) i v) (is_closed p)).
Proof. intros H. unfold set_vertex. rewrite set_index_ok by exact H. reflexivity. Qed.

Lemma vertex_count_set p i v c : vertex_count (PL (list_set (vtx p) i v) c) = vertex_count p.
Proof. apply list_set_length. Qed.

Lemma list_set_nth_lt {A} (l : list A) i a j :
  i < length l ->
  nth_error (list_set l i a) j = if Nat.eqb i j then Some a else nth_error l j.
Proof.
  intros H. rewrite list_set_nth. apply Nat.ltb_lt in H. rewrite H. reflexivity.
Qed.

Lemma invert_swap_loop_ok fuel : forall s e p,
  s + e = vertex_count p - 1 -> e < vertex_count p -> s <= e + 1 -> e + 1 - s <= fuel -> 0 < fuel ->
  exists p', invert_swap_loop fuel s e p = Ret p' /\ is_closed p' = is_closed p
    /\ vertex_count p' = vertex_count p
    /\ forall i, nth_error (vtx p') i =
                 if (s <=? i) && (i <=? e) then nth_error (vtx p) (vertex_count p - 1 - i)
                 else nth_error (vtx p) i.
Proof.
  induction fuel as [|f IH]; intros s e p Hse He Hs Hf Hf0; [lia|].
  cbn [invert_swap_loop]. destruct (Nat.ltb_spec s e) as [Hlt|Hge].
  - destruct (index_lt (vtx p) s) as (a & Ha & Ha'); [unfold vertex_count in *; lia|].
    destruct (index_lt (vtx p) e) as (b & Hb & Hb'); [unfold vertex_count in *; lia|].
    unfold at_. rewrite Ha', Hb'. cbn [rbind].
    rewrite set_vertex_ok by lia. cbn [rbind].
    rewrite set_vertex_ok by (rewrite vertex_count_set; lia). cbn [rbind vtx is_closed].
    rewrite usub_ok by lia. cbn [rbind].
    set (p2 := PL (list_set (list_set (vtx p) s b) e a) (is_closed p)).
    assert (Hvc : vertex_count p2 = vertex_count p).
    { unfold p2, vertex_count. cbn [vtx]. now rewrite !list_set_length. }
    destruct (IH (s + 1) (e - 1) p2) as (p' & H1 & H2 & H3 & H4); try (rewrite ?Hvc; lia).
    exists p'. rewrite H1, H2, H3, Hvc. repeat split; auto.
    intros i. rewrite H4, Hvc. unfold p2. cbn [vtx].
    assert (Hl : length (vtx p) = vertex_count p) by reflexivity.
    rewrite !(list_set_nth_lt (list_set (vtx p) s b)) by (rewrite list_set_length; lia).
    rewrite !list_set_nth_lt by lia.
    destruct (Nat.leb_spec (s + 1) i) as [G1|G1], (Nat.leb_spec i (e - 1)) as [G2|G2],
             (Nat.leb_spec s i) as [G3|G3], (Nat.leb_spec i e) as [G4|G4]; cbn [andb]; try lia.
    + destruct (Nat.eqb_spec e (vertex_count p - 1 - i)); [lia|].
      destruct (Nat.eqb_spec s (vertex_count p - 1 - i)); [lia|reflexivity].
    + (* i = e *) assert (i = e) by lia. subst i. rewrite Nat.eqb_refl.
      replace (vertex_count p - 1 - e) with s by lia. auto.
    + destruct (Nat.eqb_spec e i); [lia|]. destruct (Nat.eqb_spec s i); [lia|reflexivity].
    + (* i = s *) assert (i = s) by lia. subst i. rewrite Nat.eqb_refl.
      destruct (Nat.eqb_spec e s); [lia|]. replace (vertex_count p - 1 - s) with e by lia. auto.
    + destruct (Nat.eqb_spec e i); [lia|]. destruct (Nat.eqb_spec s i); [lia|reflexivity].
  - exists p. repeat split; auto. intros i.
    destruct (Nat.leb_spec s i), (Nat.leb_spec i e); cbn [andb]; try reflexivity.
    f_equal. lia.
Qed.

Definition invert_bulge_step : pline T -> nat -> res (pline T) := (fun p i =>
                let! v := at_ p i in
                let b := nneg (pbulge v) in
                let! i' := usub i 1 in
                let! w := at_ p i' in
                set_vertex p i' (with_bulge w b)).

Lemma invert_bulge_loop_ok : forall m k p,
  1 <= k -> k + m = vertex_count p ->
  exists p', rfold invert_bulge_step (seq k m) p = Ret p'
    /\ is_closed p' = is_closed p /\ vertex_count p' = vertex_count p
    /\ forall i, nth_error (vtx p') i =
        if (k - 1 <=? i) && (i <? vertex_count p - 1) then
          match nth_error (vtx p) i, nth_error (vtx p) (i + 1) with
          | Some w, Some v => Some (with_bulge w (nneg (pbulge v)))
          | _, _ => None
          end
        else nth_error (vtx p) i.
Proof.
  induction m as [|m IH]; intros k p Hk Hkm.
  - exists p. repeat split; auto. intros i.
    destruct (Nat.leb_spec (k - 1) i), (Nat.ltb_spec i (vertex_count p - 1)); cbn [andb]; auto; lia.
  - cbn [seq rfold]. unfold invert_bulge_step at 1.
    destruct (index_lt (vtx p) k) as (v & Hv & Hv'); [unfold vertex_count in *; lia|].
    destruct (index_lt (vtx p) (k - 1)) as (w & Hw & Hw'); [unfold vertex_count in *; lia|].
    rewrite (at_ok _ _ _ Hv). cbn [rbind]. rewrite usub_ok by lia. cbn [rbind].
    rewrite (at_ok _ _ _ Hw). cbn [rbind]. rewrite set_vertex_ok by lia. cbn [rbind].
    set (p2 := PL (list_set (vtx p) (k - 1) (with_bulge w (nneg (pbulge v)))) (is_closed p)).
    assert (Hvc : vertex_count p2 = vertex_count p) by apply list_set_length.
    destruct (IH (S k) p2) as (p' & H1 & H2 & H3 & H4); [lia|lia|].
    exists p'. rewrite H1, H2, H3, Hvc. repeat split; auto.
    intros i. rewrite H4, Hvc. unfold p2. cbn [vtx].
    assert (Hl : length (vtx p) = vertex_count p) by reflexivity.
    rewrite !list_set_nth_lt by lia.
    destruct (Nat.leb_spec (S k - 1) i), (Nat.ltb_spec i (vertex_count p - 1)),
             (Nat.leb_spec (k - 1) i); cbn [andb]; try lia.
    + destruct (Nat.eqb_spec (k - 1) i); [lia|].
      destruct (Nat.eqb_spec (k - 1) (i + 1)); [lia|reflexivity].
    + destruct (Nat.eqb_spec (k - 1) i); [lia|reflexivity].
    + assert (i = k - 1) by lia. subst i. rewrite Nat.eqb_refl, Hw.
      replace (k - 1 + 1) with k by lia. rewrite Hv. reflexivity.
    + destruct (Nat.eqb_spec (k - 1) i); [lia|reflexivity].
Qed.

(** Position i of the result. *)
Lemma invert_direction_nth p :
  2 <= vertex_count p ->
  exists p', invert_direction_mut p = Ret p' /\ is_closed p' = is_closed p
    /\ vertex_count p' = vertex_count p
    /\ forall i, i < vertex_count p ->
       exists a b, nth_error (vtx p) (vertex_count p - 1 - i) = Some a
         /\ nth_error (vtx p) (if i =? vertex_count p - 1 then vertex_count p - 1
                               else vertex_count p - 2 - i) = Some b
         /\ nth_error (vtx p') i =
            Some (if (i =? vertex_count p - 1) && negb (is_closed p) then a
                  else with_bulge a (nneg (pbulge b))).
Proof.
  intros H2. unfold invert_direction_mut.
  destruct (Nat.ltb_spec (vertex_count p) 2); [lia|].
  destruct (invert_swap_loop_ok (vertex_count p + 1) 0 (vertex_count p - 1) p)
    as (p1 & E1 & C1 & V1 & N1); try lia.
  rewrite E1. cbn [rbind].
  assert (N1' : forall i, i < vertex_count p ->
            nth_error (vtx p1) i = nth_error (vtx p) (vertex_count p - 1 - i)).
  { intros i Hi. rewrite N1. destruct (Nat.leb_spec 0 i), (Nat.leb_spec i (vertex_count p - 1)); cbn [andb]; auto; lia. }
  destruct (index_lt (vtx p1) 0) as (v0 & Hv0 & Hv0'); [unfold vertex_count in *; lia|].
  rewrite (at_ok _ _ _ Hv0). cbn [rbind].
  destruct (invert_bulge_loop_ok (vertex_count p - 1) 1 p1) as (p2 & E2 & C2 & V2 & N2); [lia|lia|].
  change (rfold _ (seq 1 (vertex_count p - 1)) p1) with (rfold invert_bulge_step (seq 1 (vertex_count p - 1)) p1).
  rewrite E2. cbn [rbind]. rewrite C2, C1.
  assert (G : forall i, i < vertex_count p ->
       exists a b, nth_error (vtx p) (vertex_count p - 1 - i) = Some a
         /\ nth_error (vtx p) (if i =? vertex_count p - 1 then vertex_count p - 1
                               else vertex_count p - 2 - i) = Some b
         /\ nth_error (vtx p2) i =
            Some (if (i =? vertex_count p - 1) then a else with_bulge a (nneg (pbulge b)))
         /\ (i = vertex_count p - 1 -> b = v0)).
  { intros i Hi.
    destruct (index_lt (vtx p) (vertex_count p - 1 - i)) as (a & Ha & _); [unfold vertex_count in *; lia|].
    exists a. rewrite N2, V1. destruct (Nat.eqb_spec i (vertex_count p - 1)) as [->|Hne].
    - exists v0. repeat split; auto.
      + rewrite <- Hv0. rewrite N1' by lia. f_equal. lia.
      + destruct (Nat.leb_spec (1 - 1) (vertex_count p - 1)), (Nat.ltb_spec (vertex_count p - 1) (vertex_count p - 1)); cbn [andb]; try lia.
        rewrite N1' by lia. exact Ha.
    - destruct (index_lt (vtx p) (vertex_count p - 2 - i)) as (b & Hb & _); [unfold vertex_count in *; lia|].
      exists b. repeat split; auto; [|lia].
      destruct (Nat.leb_spec (1 - 1) i), (Nat.ltb_spec i (vertex_count p - 1)); cbn [andb]; try lia.
      rewrite !N1' by lia. rewrite Ha. replace (vertex_count p - 1 - (i + 1)) with (vertex_count p - 2 - i) by lia.
      rewrite Hb. reflexivity. }
  destruct (is_closed p) eqn:C.
  - destruct (G (vertex_count p - 1)) as (a & b & Ga & Gb & Gc & Gd); [lia|].
    rewrite Nat.eqb_refl in Gc. unfold at_. rewrite (index_ok _ _ _ Gc). cbn [rbind].
    rewrite set_vertex_ok by lia. eexists. split; [reflexivity|]. cbn [is_closed].
    repeat split; [congruence|rewrite vertex_count_set; lia|].
    intros i Hi. destruct (G i Hi) as (a' & b' & Ha & Hb & Hc & Hd).
    exists a', b'. repeat split; auto. cbn [vtx negb]. rewrite andb_false_r.
    rewrite list_set_nth_lt by (unfold vertex_count in *; lia).
    destruct (Nat.eqb_spec (vertex_count p - 1) i) as [E|E].
    + subst i. rewrite <- (Hd eq_refl).
      assert (a = a') by congruence. now subst.
    + destruct (Nat.eqb_spec i (vertex_count p - 1)); [lia|exact Hc].
  - exists p2. repeat split; [congruence|lia|].
    intros i Hi. destruct (G i Hi) as (a' & b' & Ha & Hb & Hc & Hd).
    exists a', b'. cbn [negb]. rewrite andb_true_r. auto.
Qed.

Lemma rev_nth_error {A} (l : list A) i :
  i < length l -> nth_error (rev l) i = nth_error l (length l - 1 - i).
Proof.
  intros H. destruct (nth_error (rev l) i) as [a|] eqn:E.
  - pose proof (nth_error_nth _ _ a E) as E'. rewrite rev_nth in E' by lia.
    symmetry. rewrite <- E'. replace (length l - 1 - i) with (length l - S i) by lia.
    apply nth_error_nth'. lia.
  - apply nth_error_None in E. rewrite rev_length in E. lia.
Qed.

Lemma invert_direction_segments p :
  exists p', invert_direction_mut p = Ret p' /\ is_closed p' = is_closed p
    /\ vertex_count p' = vertex_count p
    /\ map position (vtx p') = rev (map position (vtx p))
    /\ map seg_data (spec_segs (vtx p') (is_closed p')) =
       spec_rotate (if is_closed p then 1 else 0)
         (rev (map (fun s => seg_reverse (seg_data s)) (spec_segs (vtx p) (is_closed p)))).
Proof.
  destruct (Nat.ltb_spec (vertex_count p) 2) as [H2|H2].
  - exists p. unfold invert_direction_mut. apply Nat.ltb_lt in H2. rewrite H2.
    unfold vertex_count in H2. repeat split; auto;
      (destruct (vtx p) as [|a [|b t]] eqn:E; [|  |exfalso; apply Nat.ltb_lt in H2; simpl in H2; lia]; destruct (is_closed p); reflexivity).
  - destruct (invert_direction_nth p H2) as (p' & H1 & HC & HV & HN).
    exists p'. repeat split; auto.
    + apply nth_error_ext. intros i.
      destruct (Nat.ltb_spec i (vertex_count p)) as [Hi|Hi].
      * rewrite rev_nth_error by (rewrite map_length; exact Hi). rewrite map_length.
        destruct (HN i Hi) as (a & b & Ha & Hb & Hc).
        fold (vertex_count p). rewrite (map_nth_error position _ _ Hc), (map_nth_error position _ _ Ha).
        destruct ((i =? vertex_count p - 1) && negb (is_closed p)); reflexivity.
      * rewrite (proj2 (nth_error_None _ i)) by (rewrite map_length; unfold vertex_count in *; lia).
        rewrite (proj2 (nth_error_None _ i)) by (rewrite rev_length, map_length; unfold vertex_count in *; lia).
        reflexivity.
    + set (n := vertex_count p) in *.
      set (sc := length (spec_segs (vtx p) (is_closed p))).
      assert (Hsc : sc = if is_closed p then n else n - 1).
      { unfold sc. rewrite spec_segs_length. fold (vertex_count p). fold n.
        destruct (Nat.ltb_spec n 2); [lia|reflexivity]. }
      assert (Hsc' : length (spec_segs (vtx p') (is_closed p')) = sc).
      { rewrite <- segment_count_spec. unfold segment_count. rewrite HV, HC, Hsc.
        destruct (Nat.ltb_spec n 2); [lia|reflexivity]. }
      apply nth_error_ext. intros i.
      destruct (Nat.ltb_spec i sc) as [Hi|Hi].
      2:{ rewrite (proj2 (nth_error_None _ i)) by (rewrite map_length; lia).
          rewrite (proj2 (nth_error_None _ i)); [reflexivity|].
          unfold spec_rotate. rewrite app_length, Nat.add_comm, <- app_length, firstn_skipn.
          rewrite rev_length, map_length. fold sc. lia. }
      destruct (spec_segs_nth (vtx p') (is_closed p') i) as (a & b & S1 & S2 & S3); [lia|].
      rewrite (map_nth_error seg_data _ _ S1).
      fold (vertex_count p') in S3. rewrite HV in S3. fold n in S3.
      (* right hand side index *)
      set (j := if is_closed p then (if i =? n - 1 then n - 1 else n - 2 - i) else n - 2 - i).
      assert (Hj : j < sc) by (unfold j; rewrite Hsc; destruct (is_closed p); [destruct (Nat.eqb_spec i (n-1))|]; lia).
      assert (HR : nth_error (spec_rotate (if is_closed p then 1 else 0)
                  (rev (map (fun s => seg_reverse (seg_data s)) (spec_segs (vtx p) (is_closed p))))) i
                = nth_error (map (fun s => seg_reverse (seg_data s)) (spec_segs (vtx p) (is_closed p))) j).
      { set (m := map (fun s => seg_reverse (seg_data s)) (spec_segs (vtx p) (is_closed p))).
        assert (Hm : length m = sc) by (unfold m; now rewrite map_length).
        unfold spec_rotate, j. destruct (is_closed p) eqn:C.
        - destruct (Nat.eqb_spec i (n - 1)) as [E|E].
          + rewrite nth_error_app2 by (rewrite skipn_length, rev_length; lia).
            rewrite skipn_length, rev_length.
            replace (i - (length m - 1)) with 0 by lia.
            destruct (rev m) as [|x xs] eqn:ER.
            { apply (f_equal (@length _)) in ER. rewrite rev_length in ER. simpl in ER. lia. }
            cbn [firstn nth_error].
            assert (HX : nth_error (rev m) 0 = Some x) by now rewrite ER.
            rewrite rev_nth_error in HX by lia. rewrite <- HX. f_equal. lia.
          + rewrite nth_error_app1 by (rewrite skipn_length, rev_length; lia).
            replace (nth_error (skipn 1 (rev m)) i) with (nth_error (rev m) (1 + i)).
            * rewrite rev_nth_error by lia. f_equal. lia.
            * destruct (rev m); [now destruct i|reflexivity].
        - cbn [skipn firstn]. rewrite app_nil_r. rewrite rev_nth_error by lia. f_equal. lia. }
      rewrite HR.
      destruct (spec_segs_nth (vtx p) (is_closed p) j) as (a' & b' & R1 & R2 & R3); [exact Hj|].
      rewrite (map_nth_error _ _ _ R1). f_equal.
      fold (vertex_count p) in R3. fold n in R3.
      assert (Hin : i < n) by (rewrite Hsc in Hi; destruct (is_closed p); lia).
      destruct (HN i Hin) as (x & y & X1 & X2 & X3). fold n in X1, X2, X3.
      rewrite S2 in X3. injection X3 as X3.
      assert (Hnz : n <> 0) by lia.
      pose proof (Nat.mod_upper_bound (i + 1) n Hnz) as Hmod.
      destruct (HN ((i + 1) mod n) Hmod) as (x2 & y2 & Y1 & Y2 & Y3). fold n in Y1, Y2, Y3.
      rewrite S3 in Y3. injection Y3 as Y3.
      unfold seg_data, seg_reverse. cbn [fst snd].
      (* identify x = b', x2 = a', y = a' *)
      assert (Ex : x = b').
      { enough (Some x = Some b') by congruence. rewrite <- X1, <- R3. f_equal.
        unfold j. destruct (is_closed p).
        - destruct (Nat.eqb_spec i (n - 1)) as [E|E].
          + replace (n - 1 + 1) with n by lia. rewrite Nat.mod_same by lia. lia.
          + rewrite Nat.mod_small by lia. lia.
        - rewrite Nat.mod_small by lia. lia. }
      assert (Ex2 : x2 = a').
      { enough (Some x2 = Some a') by congruence. rewrite <- Y1, <- R2. f_equal.
        unfold j. destruct (is_closed p).
        - destruct (Nat.eqb_spec i (n - 1)) as [E|E].
          + replace (i + 1) with n by lia. rewrite Nat.mod_same by lia. lia.
          + rewrite Nat.mod_small by lia. lia.
        - rewrite Nat.mod_small by lia. lia. }
      subst x x2.
      assert (Pa : position a = position b').
      { rewrite X3. destruct ((i =? n - 1) && negb (is_closed p)); reflexivity. }
      assert (Pb : position b = position a').
      { rewrite Y3. destruct (((i + 1) mod n =? n - 1) && negb (is_closed p)); reflexivity. }
      fold (position a) (position b) (position a') (position b'). rewrite Pa, Pb. f_equal.
      assert (Hcond : (i =? n - 1) && negb (is_closed p) = false).
      { destruct (is_closed p); [now rewrite andb_false_r|]. destruct (Nat.eqb_spec i (n-1)); [lia|reflexivity]. }
      rewrite X3, Hcond. cbn [with_bulge pbulge]. f_equal. f_equal.
      enough (Some y = Some a') by congruence. rewrite <- X2, <- R2. f_equal.
      unfold j. destruct (is_closed p); [reflexivity|].
      destruct (Nat.eqb_spec i (n - 1)); [lia|reflexivity].
Qed.

(** Twice. *)
Lemma invert_direction_twice p :
  (forall x : T, nneg (nneg x) = x) ->
  exists p' p'', invert_direction_mut p = Ret p' /\ invert_direction_mut p' = Ret p''
    /\ is_closed p'' = is_closed p
    /\ map position (vtx p'') = map position (vtx p)
    /\ (is_closed p = true -> vtx p'' = vtx p)
    /\ (forall i, i + 1 < vertex_count p -> nth_error (vtx p'') i = nth_error (vtx p) i).
Proof.
  intros Hneg.
  destruct (invert_direction_segments p) as (p' & H1 & C1 & V1 & P1 & _).
  destruct (invert_direction_segments p') as (p'' & H2 & C2 & V2 & P2 & _).
  exists p', p''. rewrite C2, C1. rewrite P2, P1, rev_involutive.
  assert (G : forall i, i < vertex_count p -> i + 1 < vertex_count p \/ is_closed p = true ->
              nth_error (vtx p'') i = nth_error (vtx p) i).
  { intros i Hi Hor. destruct (Nat.ltb_spec (vertex_count p) 2) as [L|L].
    - unfold invert_direction_mut in H1, H2. rewrite V1 in H2.
      apply Nat.ltb_lt in L. rewrite L in H1, H2. congruence.
    - destruct (invert_direction_nth p L) as (q' & Q1 & _ & _ & QN).
      assert (q' = p') by congruence. subst q'.
      assert (L' : 2 <= vertex_count p') by lia.
      destruct (invert_direction_nth p' L') as (q'' & R1 & _ & _ & RN).
      assert (q'' = p'') by congruence. subst q''.
      rewrite V1, C1 in RN. set (n := vertex_count p) in *.
      destruct (RN i Hi) as (a & b & Ha & Hb & Hc).
      destruct (QN (n - 1 - i)) as (a' & b' & Qa & Qb & Qc); [lia|].
      rewrite Hc. replace (n - 1 - (n - 1 - i)) with i in Qa by lia. rewrite Qa. f_equal.
      rewrite Ha in Qc. injection Qc as Qc.
      assert (Hcond : (i =? n - 1) && negb (is_closed p) = false).
      { destruct Hor as [Ho| ->]; [|apply andb_false_r]. destruct (Nat.eqb_spec i (n-1)); [lia|reflexivity]. }
      rewrite Hcond.
      assert (Hpos : pos a = pos a').
      { rewrite Qc. destruct ((n - 1 - i =? n - 1) && negb (is_closed p)); reflexivity. }
      (* b has bulge - bulge a' *)
      set (k := if i =? n - 1 then n - 1 else n - 2 - i) in *.
      destruct (QN k) as (a2 & b2 & Q2a & Q2b & Q2c); [unfold k; destruct (Nat.eqb_spec i (n-1)); lia|].
      rewrite Hb in Q2c. injection Q2c as Q2c.
      assert (Hcond2 : (k =? n - 1) && negb (is_closed p) = false).
      { unfold k. destruct Hor as [Ho| ->]; [|apply andb_false_r].
        destruct (Nat.eqb_spec i (n-1)); [lia|]. destruct (Nat.eqb_spec (n - 2 - i) (n - 1)); [lia|reflexivity]. }
      rewrite Hcond2 in Q2c.
      assert (Eb : b2 = a').
      { enough (Some b2 = Some a') by congruence. rewrite <- Q2b, <- Qa. f_equal. unfold k.
        destruct (Nat.eqb_spec i (n-1)) as [E|E].
        - rewrite Nat.eqb_refl. lia.
        - destruct (Nat.eqb_spec (n - 2 - i) (n - 1)); lia. }
      rewrite Q2c, Eb. cbn [with_bulge pbulge]. rewrite Hneg.
      unfold pos in Hpos. destruct a as [ax ay ab], a' as [a'x a'y a'b].
      cbn [px py pbulge with_bulge] in *. unfold with_bulge. cbn [px py]. congruence. }
  repeat split; auto.
  - intros HC. apply nth_error_ext. intros i.
    destruct (Nat.ltb_spec i (vertex_count p)) as [Hi|Hi]; [apply G; auto|].
    rewrite !(proj2 (nth_error_None _ i)); auto; unfold vertex_count in *; lia.
  - intros i Hi. apply G; auto. lia.
Qed.

(** ** scale / translate *)
Lemma map_loop_ok (f : vertex T -> vertex T) : forall m k p,
  k + m = vertex_count p ->
  rfold (fun p i => let! v := at_ p i in set_vertex p i (f v)) (seq k m) p
  = Ret (PL (firstn k (vtx p) ++ map f (skipn k (vtx p))) (is_closed p)).
Proof.
  induction m as [|m IH]; intros k p Hk.
  - cbn [seq rfold]. unfold vertex_count in Hk. rewrite skipn_all2 by lia. rewrite firstn_all2 by lia.
    simpl. rewrite app_nil_r. now destruct p.
  - cbn [seq rfold].
    destruct (index_lt (vtx p) k) as (v & Hv & Hv'); [unfold vertex_count in *; lia|].
    rewrite (at_ok _ _ _ Hv). cbn [rbind]. rewrite set_vertex_ok by lia. cbn [rbind].
    rewrite IH by (unfold vertex_count in *; cbn [vtx]; rewrite list_set_length; lia).
    cbn [vtx is_closed]. f_equal. f_equal.
    assert (E : list_set (vtx p) k (f v) = firstn k (vtx p) ++ f v :: skipn (S k) (vtx p)).
    { clear -Hv. revert k Hv. induction (vtx p) as [|h t IH]; intros [|k] Hv; simpl in *; try discriminate; [reflexivity|].
      f_equal. apply IH. exact Hv. }
    rewrite E.
    assert (Hlen : length (firstn k (vtx p)) = k) by (rewrite firstn_length; unfold vertex_count in Hk; lia).
    rewrite (skipn_nth_cons _ _ _ Hv). cbn [map].
    rewrite firstn_app, skipn_app, Hlen.
    replace (S k - k) with 1 by lia. rewrite firstn_all2 by lia. rewrite (skipn_all2 (firstn k (vtx p))) by lia.
    cbn [firstn skipn app]. rewrite <- app_assoc. reflexivity.
Qed.

Lemma scale_mut_spec p s :
  scale_mut p s = Ret (PL (map (fun v => Vtx (nmul s (px v)) (nmul s (py v)) (pbulge v)) (vtx p)) (is_closed p)).
Proof.
  unfold scale_mut.
  rewrite (map_loop_ok (fun v => Vtx (nmul s (px v)) (nmul s (py v)) (pbulge v))) by lia.
  reflexivity.
Qed.

Lemma translate_mut_spec p x y :
  translate_mut p x y = Ret (PL (map (fun v => Vtx (nadd (px v) x) (nadd (py v) y) (pbulge v)) (vtx p)) (is_closed p)).
Proof.
  unfold translate_mut.
  rewrite (map_loop_ok (fun v => Vtx (nadd (px v) x) (nadd (py v) y) (pbulge v))) by lia.
  reflexivity.
Qed.

End Invert.
