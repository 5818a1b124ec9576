(** Shapes (C37): the offset loops of the inputs. *)
From Coq Require Import List Bool Arith Permutation Sorted Lia.
From Verif Require Import Num Res ModelMath ModelSeg ModelPline ModelView ModelIndex ModelIntersects ModelBoolean ModelOffset ModelShape.
From Verif Require Import Spec SpecPline SpecView SpecIndex SpecChain SpecShape.
From Verif Require Import ProofBase ProofIter ProofIndex2 ProofOffsetTotal ProofShape.
Import ListNotations.

Definition numbered_from {A} (k : nat) (ls : list (list A)) : list (nat * A) :=
  flat_map (fun x => map (pair (fst x)) (snd x)) (combine (seq k (length ls)) ls).

Lemma numbered_from_cons {A} k (l : list A) ls : numbered_from k (l :: ls) = map (pair k) l ++ numbered_from (S k) ls.
Proof. reflexivity. Qed.

Lemma numbered_from_app {A} (l1 l2 : list (list A)) : forall k, numbered_from k (l1 ++ l2) = numbered_from k l1 ++ numbered_from (k + length l1) l2.
Proof.
  induction l1 as [|l l1 IH]; intros k; [cbn [app length]; now rewrite Nat.add_0_r|].
  cbn [app]. rewrite !numbered_from_cons, IH, app_assoc. cbn [length]. now replace (S k + length l1) with (k + S (length l1)) by lia.
Qed.

Lemma numbered_from_bound {A} (ls : list (list A)) : forall k x, In x (numbered_from k ls) -> k <= fst x < k + length ls.
Proof.
  induction ls as [|l ls IH]; intros k x H; [contradiction|]. rewrite numbered_from_cons in H. apply in_app_or in H as [H|H].
  - apply in_map_iff in H as (y & <- & _). cbn [fst length]. lia.
  - apply IH in H. cbn [length]. lia.
Qed.

Section Loops.
Context {T : Type} {N : Num T} (mk : list (aabb T) -> sindex T).
Hypothesis MK : makes_index mk.
Context (offset : T) (o : shape_options T).

Definition oview (l : offset_loop T) : nat * pline T := (ol_parent l, ip_pline (ol_pline l)).
Definition loops_are (ls : list (offset_loop T)) (xs : list (nat * pline T)) : Prop :=
  map oview ls = xs /\ Forall (fun l => has_index (ol_pline l)) ls.

Lemma loops_are_app l1 l2 x1 x2 : loops_are l1 x1 -> loops_are l2 x2 -> loops_are (l1 ++ l2) (x1 ++ x2).
Proof. intros (A & B) (C & D). split; [rewrite map_app, A, C; reflexivity|apply Forall_app; auto]. Qed.

Definition nonneg (x : nat * pline T) : bool := negb (negative (snd x)).
Definition neg (x : nat * pline T) : bool := negative (snd x).

Section Inv.
Context (inverted : T -> bool) (skip : nat * pline T -> bool) (n : nat -> Prop).
Hypothesis SK : forall k p a, n k -> area p = Ret a -> inverted a = skip (k, p).
Local Notation keep := (filter (fun x => negb (skip x))).

Lemma offsets_of_input_spec k ps : n k -> exists r, offsets_of_input mk inverted k ps = Ret r
  /\ loops_are (fst r) (filter nonneg (keep (map (pair k) ps))) /\ loops_are (snd r) (filter neg (keep (map (pair k) ps))).
Proof.
  intros Hk. unfold offsets_of_input.
  match goal with |- context [rfold ?F ps _] => set (f := F) end.
  assert (G : forall ps st xs ys, loops_are (fst st) xs -> loops_are (snd st) ys -> exists r, rfold f ps st = Ret r
    /\ loops_are (fst r) (xs ++ filter nonneg (keep (map (pair k) ps))) /\ loops_are (snd r) (ys ++ filter neg (keep (map (pair k) ps)))).
  { clear ps. induction ps as [|p ps IH]; intros st xs ys A B; [exists st; cbn; rewrite !app_nil_r; auto|].
    cbn [rfold map]. unfold f at 1. destruct (area_total p) as (a & E). rewrite E. cbn [rbind]. rewrite (SK k p a Hk E).
    cbn [filter]. destruct (skip (k, p)); cbn [negb]; [apply IH; assumption|].
    destruct (indexed_new_ok mk MK p) as (ip & -> & EP & I). cbn [rbind filter].
    assert (ON : nltb a nzero = neg (k, p)) by (unfold neg, negative; cbn [snd]; now rewrite E).
    assert (L1 : loops_are [OL k ip] [(k, p)]) by (split; [cbn; unfold oview; cbn; now rewrite EP|constructor; [exact I|constructor]]).
    rewrite ON. unfold nonneg at 1. fold (neg (k, p)). destruct (neg (k, p)); cbn [negb].
    - destruct (IH (fst st, snd st ++ [OL k ip]) xs (ys ++ [(k, p)])) as (r & E' & C & D); [exact A|apply loops_are_app; assumption|].
      exists r. rewrite <- app_assoc in D. auto.
    - destruct (IH (fst st ++ [OL k ip], snd st) (xs ++ [(k, p)]) ys) as (r & E' & C & D); [apply loops_are_app; assumption|exact B|].
      exists r. rewrite <- app_assoc in C. auto. }
  apply (G ps ([], []) [] []); split; constructor.
Qed.

Lemma offset_inputs_spec inputs rss : Forall2 (fun ip rs => parallel_offset_for_shape mk ip offset o = Ret rs) inputs rss ->
  forall k, (forall j, k <= j < k + length inputs -> n j) -> exists r, offset_inputs mk inverted offset o k inputs = Ret r
  /\ loops_are (fst r) (filter nonneg (keep (numbered_from k rss))) /\ loops_are (snd r) (filter neg (keep (numbered_from k rss))).
Proof.
  intros F. induction F as [|ip rs inputs rss E F IH]; intros k Hk; [exists ([], []); repeat split; constructor|].
  cbn [offset_inputs]. rewrite E. cbn [rbind]. cbn [length] in Hk.
  destruct (offsets_of_input_spec k rs) as (r & -> & A & B); [apply Hk; lia|]. cbn [rbind].
  destruct (IH (k + 1)) as (r' & -> & A' & B'); [intros j Hj; apply Hk; lia|]. cbn [rbind].
  eexists. split; [reflexivity|]. rewrite numbered_from_cons, !filter_app. replace (S k) with (k + 1) by lia. cbn [fst snd].
  split; apply loops_are_app; assumption.
Qed.
End Inv.

Lemma offset_for_shape_total ip : loop_ok ip -> exists rs, parallel_offset_for_shape mk ip offset o = Ret rs.
Proof.
  intros (I & L). unfold parallel_offset_for_shape.
  destruct (parallel_offset_stitched mk (ip_pline ip) (ip_index ip) _ offset
    (OO (so_pos_equal_eps o) (so_slice_join_eps o) (so_offset_dist_eps o) false) MK I (map_length _ _) L) as (raw & _ & [(_ & H)|(_ & sl & la & ch & Ks & H & _)]); eauto.
Qed.

Lemma inputs_total inputs : Forall loop_ok inputs -> exists rss, Forall2 (fun ip rs => parallel_offset_for_shape mk ip offset o = Ret rs) inputs rss.
Proof.
  intros F. induction F as [|ip l H F (rss & R)]; [exists []; constructor|]. destruct (offset_for_shape_total ip H) as (rs & E).
  exists (rs :: rss). now constructor.
Qed.

Lemma create_loops_spec (s : shape T) : Forall loop_ok (sh_ccw s ++ sh_cw s) ->
  exists rss ll, Forall2 (fun ip rs => parallel_offset_for_shape mk ip offset o = Ret rs) (sh_ccw s ++ sh_cw s) rss
  /\ create_offset_loops mk s offset o = Ret ll /\ loops_are (fst ll ++ snd ll) (outlines (length (sh_ccw s)) offset rss)
  /\ length (fst ll) = length (filter nonneg (outlines (length (sh_ccw s)) offset rss)).
Proof.
  intros F. apply Forall_app in F as (F1 & F2). destruct (inputs_total _ F1) as (r1 & R1). destruct (inputs_total _ F2) as (r2 & R2).
  unfold create_offset_loops. set (skip := turned_around (length (sh_ccw s)) offset).
  destruct (offset_inputs_spec (fun area => nltb nzero offset && nltb area nzero) skip (fun k => k < length (sh_ccw s))) with (inputs := sh_ccw s) (rss := r1) (k := 0)
    as (a & Ea & A1 & A2); [| exact R1 | intros; lia |].
  { intros k p a Hk E. unfold skip, turned_around. cbn [fst snd]. destruct (Nat.ltb_spec k (length (sh_ccw s))); [|lia]. unfold negative. now rewrite E. }
  destruct (offset_inputs_spec (fun area => nltb offset nzero && nltb nzero area) skip (fun k => length (sh_ccw s) <= k)) with (inputs := sh_cw s) (rss := r2) (k := length (sh_ccw s))
    as (b & Eb & B1 & B2); [| exact R2 | intros; lia |].
  { intros k p x Hk E. unfold skip, turned_around. cbn [fst snd]. destruct (Nat.ltb_spec k (length (sh_ccw s))); [lia|]. unfold positive. now rewrite E. }
  rewrite Ea. cbn [rbind]. rewrite Eb. cbn [rbind]. exists (r1 ++ r2). eexists. split; [now apply Forall2_app|]. split; [reflexivity|]. cbn [fst snd].
  assert (NB : numbered (r1 ++ r2) = numbered_from 0 r1 ++ numbered_from (length (sh_ccw s)) r2).
  { change (numbered (r1 ++ r2)) with (numbered_from 0 (r1 ++ r2)). rewrite numbered_from_app. replace (length r1) with (length (sh_ccw s)); [reflexivity|]. clear - R1. induction R1; cbn [length]; congruence. }
  assert (LA : loops_are ((fst a ++ fst b) ++ snd a ++ snd b) (outlines (length (sh_ccw s)) offset (r1 ++ r2))).
  { unfold outlines. rewrite NB. rewrite !filter_app. apply loops_are_app; apply loops_are_app; assumption. }
  split; [exact LA|].
  assert (FN : forall l, length (filter nonneg (filter nonneg l)) = length (filter nonneg l) /\ filter nonneg (filter neg l) = []).
  { intros l. split.
    - f_equal. induction l as [|x l IH]; [reflexivity|]. cbn [filter]. destruct (nonneg x) eqn:E; [cbn [filter]; rewrite E, IH; reflexivity|exact IH].
    - induction l as [|x l IH]; [reflexivity|]. cbn [filter]. destruct (neg x) eqn:E; [|exact IH]. cbn [filter].
      assert (E' : nonneg x = false) by (unfold nonneg; unfold neg in E; now rewrite E). rewrite E'. exact IH. }
  unfold outlines. rewrite filter_app. change (fun x => negb (negative (snd x))) with nonneg. change (fun x => negative (snd x)) with neg.
  fold skip. set (kept := filter (fun x => negb (skip x)) (numbered (r1 ++ r2))).
  destruct (FN kept) as (E1 & E2). rewrite E2, app_nil_r, E1. unfold kept. rewrite NB, !filter_app, !app_length.
  rewrite <- (proj1 A1), <- (proj1 B1), !map_length. reflexivity.
Qed.
End Loops.
