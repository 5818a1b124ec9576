(** The pieces between consecutive cut points make up the whole loop (C51). *)
From Coq Require Import Reals ZArith Bool List Arith Lra Lia Psatz Permutation Sorted.
From Verif Require Import Num RNum Res ModelMath ModelSeg ModelPline ModelView ModelIntersects ModelBoolean.
From Verif Require Import Spec SpecGeom SpecBox SpecView SpecPruneR.
Import ListNotations.
Local Open Scope R_scope.

(** ** Places in order *)
Definition plt (a b : nat * R) : Prop := (fst a < fst b)%nat \/ (fst a = fst b /\ snd a < snd b).
Definition spot (x : place) : nat * R := fst x.

Lemma plt_trans a b c : plt a b -> plt b c -> plt a c.
Proof. unfold plt. intros [H|(H & L)] [H'|(H' & L')]; [left; lia|left; lia|left; lia|right; split; [lia|lra]]. Qed.
Lemma plt_irrefl a : ~ plt a a.
Proof. unfold plt. intros [H|(_ & H)]; [lia|lra]. Qed.
Lemma plt_total a b : plt a b \/ a = b \/ plt b a.
Proof.
  destruct a as [i t], b as [j u]. unfold plt. cbn [fst snd]. destruct (lt_eq_lt_dec i j) as [[H| ->]|H]; [left; now left| |right; right; now left].
  destruct (Rtotal_order t u) as [H|[H|H]]; [left; right; auto|right; left; now subst|right; right; right; auto].
Qed.
Lemma plt_dec a b : {plt a b} + {~ plt a b}.
Proof.
  destruct a as [i t], b as [j u]. unfold plt. cbn [fst snd]. destruct (lt_eq_lt_dec i j) as [[H| ->]|H].
  - left. now left.
  - destruct (Rlt_dec t u) as [L|L]; [left; right; auto|right; intros [Q|(_ & Q)]; [lia|contradiction]].
  - right. intros [Q|(Q & _)]; lia.
Qed.

(** [z] comes strictly after [a] and before [b], going around. *)
Definition amid (a z b : nat * R) : Prop := if plt_dec a b then plt a z /\ plt z b else plt a z \/ plt z b.

Lemma along_plt x y : along x y <-> ~ plt (spot y) (spot x).
Proof.
  destruct x as [[k t] sp], y as [[j u] sq]. unfold along, spot, plt. cbn [fst snd]. split.
  - intros [H|(H & L)] [Q|(Q & M)]; try lia; lra.
  - intros H. destruct (lt_eq_lt_dec k j) as [[L|E]|L]; [now left|right; split; [exact E|]|exfalso; apply H; now left].
    apply Rnot_lt_le. intros M. apply H. right. auto.
Qed.

Lemma same_place_true x y : SpecPruneR.same_place x y = true <-> spot x = spot y.
Proof.
  destruct x as [[k t] sp], y as [[j u] sq]. unfold SpecPruneR.same_place, spot. cbn [fst].
  rewrite andb_true_iff, Nat.eqb_eq. destruct (Req_EM_T t u) as [E|E].
  - subst. split; [intros (-> & _); reflexivity|intros Q; injection Q as ->; auto].
  - split; [intros (_ & Q); discriminate|intros Q; injection Q as _ Q; contradiction].
Qed.

(** ** Sums over the gaps *)
Lemma gaps_to_sum (f : place -> R) (th : R) (g : place * place -> R) first l x :
  StronglySorted along (x :: l) -> (forall y, In y (x :: l) -> along first y) ->
  (forall a b, In a (x :: l) -> In b (x :: l) -> spot a = spot b -> f a = f b) ->
  (forall a b, In (a, b) (gaps_to first (x :: l)) -> g (a, b) = f b - f a + (if plt_dec (spot a) (spot b) then 0 else th)) ->
  rsum (map g (gaps_to first (x :: l))) = f first - f x + th.
Proof.
  revert x. induction l as [|y l IH]; intros x SS FI FE G.
  - cbn [gaps_to map rsum fold_right]. rewrite (G x first) by (left; reflexivity).
    destruct (plt_dec (spot x) (spot first)) as [P|P]; [|lra].
    exfalso. apply (proj1 (along_plt first x)) in P; [exact P|]. apply FI. now left.
  - inversion SS as [|? ? SS' FA]; subst. cbn [gaps_to]. rewrite map_app.
    assert (E : rsum (map g (gaps_to first (y :: l))) = f first - f y + th).
    { apply IH; auto.
      - intros z Iz. apply FI. now right.
      - intros a b Ia Ib. apply FE; now right.
      - intros a b I. apply G. cbn [gaps_to]. apply in_or_app. now right. }
    unfold rsum in *. rewrite fold_right_app. change (fold_right Rplus 0 (map g (match l with [] => [(y, first)] | _ => _ end))) with (fold_right Rplus 0 (map g (gaps_to first (y :: l)))).
    rewrite E. assert (AY : along x y) by (rewrite Forall_forall in FA; apply FA; now left).
    destruct (SpecPruneR.same_place x y) eqn:SP.
    + apply same_place_true in SP. cbn. rewrite (FE x y); auto; [now left|right; now left].
    + cbn [map fold_right]. rewrite (G x y) by (cbn [gaps_to]; rewrite SP; apply in_or_app; left; now left).
      destruct (plt_dec (spot x) (spot y)) as [P|P]; [lra|]. exfalso.
      destruct (plt_total (spot x) (spot y)) as [Q|[Q|Q]]; [contradiction| |].
      * apply same_place_true in Q. congruence.
      * apply along_plt in AY. contradiction.
Qed.

Lemma gaps_sum (f : place -> R) th g order : order <> [] -> StronglySorted along order ->
  (forall a b, In a order -> In b order -> spot a = spot b -> f a = f b) ->
  (forall a b, In (a, b) (gaps order) -> g (a, b) = f b - f a + (if plt_dec (spot a) (spot b) then 0 else th)) ->
  rsum (map g (gaps order)) = th.
Proof.
  intros NE SS FE G. destruct order as [|x l]; [contradiction|]. cbn [gaps] in *.
  rewrite (gaps_to_sum f th g x l x); auto; [lra|].
  inversion SS as [|? ? SS' FA]; subst. rewrite Forall_forall in FA. intros y [<-|I]; [|auto].
  apply along_plt, plt_irrefl.
Qed.

Lemma gaps_to_In first l x y : In (x, y) (gaps_to first l) -> In x l /\ (In y l \/ y = first).
Proof.
  induction l as [|a l IH]; [intros []|]. cbn [gaps_to]. destruct l as [|b l].
  - intros [H|[]]. injection H as <- <-. split; [now left|now right].
  - intros H. apply in_app_or in H as [H|H].
    + destruct (SpecPruneR.same_place a b); [contradiction|]. destruct H as [H|[]]. injection H as <- <-. split; [now left|left; right; now left].
    + destruct (IH H) as (P & Q). split; [now right|]. destruct Q; [left; now right|now right].
Qed.

Lemma gaps_In order x y : In (x, y) (gaps order) -> In x order /\ In y order.
Proof.
  destruct order as [|a l]; [intros []|]. cbn [gaps]. intros H. apply gaps_to_In in H as (P & [Q| ->]); auto. split; [exact P|now left].
Qed.

(** Nothing is cut inside a gap. *)
Lemma gaps_to_empty first l x : StronglySorted along (x :: l) -> (forall y, In y (x :: l) -> along first y) ->
  forall a b z, In (a, b) (gaps_to first (x :: l)) -> In z (x :: l) -> ~ amid (spot a) (spot z) (spot b).
Proof.
  revert x. induction l as [|y l IH]; intros x SS FI a b z I Iz.
  - cbn in I. destruct I as [I|[]]. injection I as <- <-. destruct Iz as [<-|[]]. unfold amid.
    pose proof (FI x (or_introl eq_refl)) as AL. apply along_plt in AL.
    destruct (plt_dec (spot x) (spot first)); [contradiction|]. intros [Q|Q]; [exact (plt_irrefl _ Q)|contradiction].
  - inversion SS as [|? ? SS' FA]; subst. rewrite Forall_forall in FA. cbn [gaps_to] in I. apply in_app_or in I as [I|I].
    + destruct (SpecPruneR.same_place x y) eqn:SP; [contradiction|]. destruct I as [I|[]]. injection I as <- <-.
      assert (P : plt (spot x) (spot y)).
      { destruct (plt_total (spot x) (spot y)) as [Q|[Q|Q]]; [exact Q| |].
        - apply same_place_true in Q. congruence.
        - pose proof (FA y (or_introl eq_refl)) as AL. apply along_plt in AL. contradiction. }
      unfold amid. destruct (plt_dec (spot x) (spot y)); [|contradiction]. intros (Q1 & Q2).
      destruct Iz as [<-|[<-|Iz]]; [exact (plt_irrefl _ Q1)|exact (plt_irrefl _ Q2)|].
      inversion SS' as [|? ? SS'' FA']; subst. rewrite Forall_forall in FA'. specialize (FA' z Iz). apply along_plt in FA'. contradiction.
    + destruct Iz as [<-|Iz].
      * (* z is the earlier one *)
        assert (Ia : In a (y :: l) /\ (In b (y :: l) \/ b = first)) by (apply (gaps_to_In first); exact I).
        destruct Ia as (Ia & Ib). pose proof (FA a Ia) as AL. apply along_plt in AL.
        unfold amid. destruct (plt_dec (spot a) (spot b)) as [P|P]; intros Q.
        -- destruct Q as (Q & _). contradiction.
        -- destruct Q as [Q|Q]; [contradiction|].
           assert (F : ~ plt (spot x) (spot first)) by (apply along_plt, FI; now left).
           destruct Ib as [Ib| ->]; [|contradiction].
           (* b within the list: then a before b *)
           clear IH. revert I Ia Ib P Q. clear - SS' FI F FA. revert y SS' FA FI.
           induction l as [|w l IH]; intros y SS' FA FI I Ia Ib P Q.
           ++ cbn in I. destruct I as [I|[]]. injection I as <- <-. contradiction.
           ++ cbn [gaps_to] in I. apply in_app_or in I as [I|I].
              ** destruct (SpecPruneR.same_place y w) eqn:SP; [contradiction|]. destruct I as [I|[]]. injection I as <- <-.
                 inversion SS' as [|? ? S2 FA2]; subst. rewrite Forall_forall in FA2. pose proof (FA2 w (or_introl eq_refl)) as AL. apply along_plt in AL.
                 destruct (plt_total (spot y) (spot w)) as [W|[W|W]]; [contradiction|apply same_place_true in W; congruence|contradiction].
              ** inversion SS' as [|? ? S2 FA2]; subst.
                 assert (Ia' : In a (w :: l) /\ (In b (w :: l) \/ b = first)) by (apply (gaps_to_In first); exact I). destruct Ia' as (Ia' & [Ib'| ->]); [|contradiction].
                 apply (IH w); auto.
                 --- intros z Iz. apply FA. now right.
                 --- intros z Iz. apply FI. destruct Iz as [<-|Iz]; [now left|right; now right].
      * apply (IH y SS'); auto. intros w Iw. apply FI. now right.
Qed.

Lemma gaps_empty order a b z : StronglySorted along order -> In (a, b) (gaps order) -> In z order -> ~ amid (spot a) (spot z) (spot b).
Proof.
  intros SS I Iz. destruct order as [|x l]; [destruct I|]. apply (gaps_to_empty x l x SS); auto.
  inversion SS as [|? ? SS' FA]; subst. rewrite Forall_forall in FA. intros y [<-|Iy]; [apply along_plt, plt_irrefl|auto].
Qed.

(** Every place is a cut or inside a gap. *)
Lemma gaps_to_cover first l x z : StronglySorted along (x :: l) -> (forall y, In y (x :: l) -> along first y) -> ~ plt z (spot x) ->
  (exists a b, In (a, b) (gaps_to first (x :: l)) /\ (z = spot a \/ amid (spot a) z (spot b))).
Proof.
  revert x. induction l as [|y l IH]; intros x SS FI NL.
  - exists x, first. split; [now left|]. destruct (plt_total z (spot x)) as [Q|[Q|Q]]; [contradiction|now left|right].
    pose proof (FI x (or_introl eq_refl)) as AL. apply along_plt in AL. unfold amid. destruct (plt_dec (spot x) (spot first)); [contradiction|now left].
  - inversion SS as [|? ? SS' FA]; subst. rewrite Forall_forall in FA. cbn [gaps_to].
    destruct (plt_dec z (spot y)) as [P|P].
    + assert (PX : plt (spot x) (spot y)).
      { destruct (plt_total (spot x) (spot y)) as [Q|[Q|Q]]; [exact Q| |].
        - rewrite Q in NL. contradiction.
        - pose proof (FA y (or_introl eq_refl)) as AL. apply along_plt in AL. contradiction. }
      exists x, y. split.
      * apply in_or_app. left. destruct (SpecPruneR.same_place x y) eqn:SP; [|now left].
        apply same_place_true in SP. rewrite SP in PX. exfalso. exact (plt_irrefl _ PX).
      * destruct (plt_total z (spot x)) as [Q|[Q|Q]]; [contradiction|now left|right]. unfold amid.
        destruct (plt_dec (spot x) (spot y)); [auto|contradiction].
    + destruct (IH y SS' (fun w Iw => FI w (or_intror Iw)) P) as (a & b & I & H). exists a, b. split; [|exact H].
      apply in_or_app. now right.
Qed.

(** The last gap, back to the first cut. *)
Lemma gaps_to_last first l x : StronglySorted along (x :: l) -> (forall y, In y (x :: l) -> along first y) ->
  exists a, In (a, first) (gaps_to first (x :: l)) /\ ~ plt (spot a) (spot first).
Proof.
  revert x. induction l as [|y l IH]; intros x SS FI.
  - exists x. split; [now left|]. apply along_plt, FI. now left.
  - inversion SS as [|? ? SS' FA]; subst. destruct (IH y SS' (fun w Iw => FI w (or_intror Iw))) as (a & I & H). exists a. split; [|exact H].
    cbn [gaps_to]. apply in_or_app. now right.
Qed.

Lemma gaps_cover order z : order <> [] -> StronglySorted along order -> exists a b, In (a, b) (gaps order) /\ (z = spot a \/ amid (spot a) z (spot b)).
Proof.
  intros NE SS. destruct order as [|x l]; [contradiction|]. cbn [gaps].
  assert (FI : forall y, In y (x :: l) -> along x y).
  { inversion SS as [|? ? SS' FA]; subst. rewrite Forall_forall in FA. intros y [<-|Iy]; [apply along_plt, plt_irrefl|auto]. }
  destruct (plt_dec z (spot x)) as [P|P].
  - destruct (gaps_to_last x l x SS FI) as (a & I & H). exists a, x. split; [exact I|right]. unfold amid.
    destruct (plt_dec (spot a) (spot x)); [contradiction|now right].
  - apply gaps_to_cover; auto.
Qed.

(** ** The pieces of a gap *)
Definition rest_pieces (n i : nat) (t : R) (j : nat) (u : R) : list (nat * R * R) :=
  (i, t, 1%R) :: map (fun k => ((i + 1 + k) mod n, 0%R, 1%R)) (seq 0 ((j + n - (i + 1)) mod n)) ++ (if Rlt_dec 0 u then [(j, 0%R, u)] else []).

Lemma slice_pieces_eq n i t j u : t < 1 -> slice_pieces n i t j u = if Nat.eqb i j then if Rlt_dec t u then [(i, t, u)] else rest_pieces n i t j u else rest_pieces n i t j u.
Proof. intros Ht. unfold slice_pieces, rest_pieces. destruct (Rlt_dec t 1); [reflexivity|contradiction]. Qed.

Lemma wrap_count n i j : (i < n)%nat -> (j < n)%nat ->
  ((i < j)%nat -> (j + n - (i + 1)) mod n = (j - i - 1)%nat) /\ ((j <= i)%nat -> (j + n - (i + 1)) mod n = (j + n - i - 1)%nat).
Proof.
  intros Hi Hj. split; intros H.
  - replace (j + n - (i + 1))%nat with ((j - i - 1) + 1 * n)%nat by lia. rewrite Nat.mod_add by lia. apply Nat.mod_small. lia.
  - rewrite Nat.mod_small by lia. lia.
Qed.

Lemma mod_wrap n a : (n <= a)%nat -> (a < 2 * n)%nat -> a mod n = (a - n)%nat.
Proof. intros H1 H2. replace a with ((a - n) + 1 * n)%nat at 1 by lia. rewrite Nat.mod_add by lia. apply Nat.mod_small. lia. Qed.

Lemma slice_pieces_In n i t j u k a b : (i < n)%nat -> (j < n)%nat -> 0 <= t < 1 -> 0 <= u < 1 -> In (k, a, b) (slice_pieces n i t j u) ->
  (k < n)%nat /\ 0 <= a /\ a < b /\ b <= 1 /\ (forall s, a < s < b -> amid (i, t) (k, s) (j, u)).
Proof.
  intros Hi Hj Ht Hu I. rewrite slice_pieces_eq in I by lra.
  assert (Rest : ~ plt (i, t) (j, u) \/ (i < j)%nat -> In (k, a, b) (rest_pieces n i t j u) ->
    (k < n)%nat /\ 0 <= a /\ a < b /\ b <= 1 /\ (forall s, a < s < b -> amid (i, t) (k, s) (j, u))).
  { intros NP [E|E].
    - injection E as <- <- <-. repeat split; try lia; try lra. intros s Hs. unfold amid. destruct (plt_dec (i, t) (j, u)) as [P|P].
      + destruct NP as [NP|NP]; [contradiction|]. split; [right; cbn; split; [reflexivity|lra]|left; exact NP].
      + left. right. cbn. split; [reflexivity|lra].
    - apply in_app_or in E as [E|E].
      + apply in_map_iff in E as (m & E & Im). injection E as <- <- <-. apply in_seq in Im. destruct (wrap_count n i j Hi Hj) as (W1 & W2).
        split; [apply Nat.mod_upper_bound; lia|]. repeat split; try lra. intros s Hs. unfold amid.
        destruct (plt_dec (i, t) (j, u)) as [P|P].
        * destruct NP as [NP|NP]; [contradiction|]. rewrite W1 in Im by exact NP. rewrite Nat.mod_small by lia. split; left; cbn; lia.
        * assert (L : (j <= i)%nat) by (apply Nat.nlt_ge; intros Q; apply P; now left). rewrite W2 in Im by exact L.
          destruct (le_lt_dec n (i + 1 + m)) as [G|G].
          -- rewrite mod_wrap by lia. right. left. cbn. lia.
          -- rewrite Nat.mod_small by lia. left. left. cbn. lia.
      + destruct (Rlt_dec 0 u) as [P0|]; [|contradiction]. destruct E as [E|[]]. injection E as <- <- <-. repeat split; try lia; try lra.
        intros s Hs. unfold amid. destruct (plt_dec (i, t) (j, u)) as [P|P].
        * destruct NP as [NP|NP]; [contradiction|]. split; [left; exact NP|right; cbn; split; [reflexivity|lra]].
        * right. right. cbn. split; [reflexivity|lra]. }
  destruct (Nat.eqb_spec i j) as [E|E].
  - subst j. destruct (Rlt_dec t u) as [L|L].
    + destruct I as [I|[]]. injection I as <- <- <-. repeat split; try lia; try lra. intros s Hs. unfold amid.
      destruct (plt_dec (i, t) (i, u)) as [P|P]; [|exfalso; apply P; right; cbn; auto].
      split; right; cbn; (split; [reflexivity|lra]).
    + apply Rest; [|exact I]. left. intros [Q|(_ & Q)]; cbn in Q; [lia|lra].
  - apply Rest; [|exact I]. destruct (lt_dec i j) as [L|L]; [now right|left]. intros [Q|(Q & _)]; cbn in Q; lia.
Qed.

(** Conversely. *)
Lemma slice_pieces_amid n i t j u k s : (i < n)%nat -> (j < n)%nat -> (k < n)%nat -> 0 <= t < 1 -> 0 <= u < 1 -> 0 <= s < 1 ->
  (k, s) = (i, t) \/ amid (i, t) (k, s) (j, u) -> exists a b, In (k, a, b) (slice_pieces n i t j u) /\ a <= s <= b.
Proof.
  intros Hi Hj Hk Ht Hu Hs H. rewrite slice_pieces_eq by lra. destruct (wrap_count n i j Hi Hj) as (W1 & W2).
  assert (Rest : ~ plt (i, t) (j, u) \/ (i < j)%nat -> exists a b, In (k, a, b) (rest_pieces n i t j u) /\ a <= s <= b).
  { intros NP. destruct H as [H|H].
    - injection H as -> ->. exists t, 1. split; [now left|lra].
    - unfold rest_pieces.
      assert (Mid : forall m, (m < (j + n - (i + 1)) mod n)%nat -> k = ((i + 1 + m) mod n)%nat ->
        exists a b, In (k, a, b) ((i, t, 1%R) :: map (fun k => ((i + 1 + k) mod n, 0%R, 1%R)) (seq 0 ((j + n - (i + 1)) mod n)) ++ (if Rlt_dec 0 u then [(j, 0%R, u)] else [])) /\ a <= s <= b).
      { intros m Lm ->. exists 0, 1. split; [|lra]. right. apply in_or_app. left. apply in_map_iff. exists m. split; [reflexivity|]. apply in_seq. lia. }
      assert (First : k = i -> t <= s -> exists a b, In (k, a, b) ((i, t, 1%R) :: map (fun k => ((i + 1 + k) mod n, 0%R, 1%R)) (seq 0 ((j + n - (i + 1)) mod n)) ++ (if Rlt_dec 0 u then [(j, 0%R, u)] else [])) /\ a <= s <= b).
      { intros -> L. exists t, 1. split; [now left|lra]. }
      assert (Last : k = j -> s < u -> exists a b, In (k, a, b) ((i, t, 1%R) :: map (fun k => ((i + 1 + k) mod n, 0%R, 1%R)) (seq 0 ((j + n - (i + 1)) mod n)) ++ (if Rlt_dec 0 u then [(j, 0%R, u)] else [])) /\ a <= s <= b).
      { intros -> L. exists 0, u. split; [|lra]. right. apply in_or_app. right. destruct (Rlt_dec 0 u); [now left|lra]. }
      unfold amid in H. destruct (plt_dec (i, t) (j, u)) as [P|P].
      + destruct NP as [NP|NP]; [contradiction|]. destruct H as ([H1|(H1 & H1')] & [H2|(H2 & H2')]); cbn [fst snd] in *.
        * apply (Mid (k - i - 1)%nat); [rewrite W1 by exact NP; lia|]. rewrite Nat.mod_small; lia.
        * apply Last; [exact H2|lra].
        * apply First; [lia|lra].
        * apply Last; [lia|lra].
      + assert (L : (j <= i)%nat) by (apply Nat.nlt_ge; intros Q; apply P; now left).
        destruct H as [[H|(H & H')]|[H|(H & H')]]; cbn [fst snd] in *.
        * apply (Mid (k - i - 1)%nat); [rewrite W2 by exact L; lia|]. rewrite Nat.mod_small; lia.
        * apply First; [lia|lra].
        * apply (Mid (k + n - i - 1)%nat); [rewrite W2 by exact L; lia|]. rewrite mod_wrap; lia.
        * apply Last; [lia|lra]. }
  destruct (Nat.eqb_spec i j) as [E|E].
  - subst j. destruct (Rlt_dec t u) as [L|L].
    + exists t, u. destruct H as [H|H].
      * injection H as -> ->. split; [now left|lra].
      * unfold amid in H. destruct (plt_dec (i, t) (i, u)) as [P|P]; [|exfalso; apply P; right; cbn; auto].
        destruct H as ([H1|(H1 & H1')] & [H2|(H2 & H2')]); cbn [fst snd] in *; try lia. subst k. split; [now left|lra].
    + apply Rest. left. intros [Q|(_ & Q)]; cbn in Q; [lia|lra].
  - apply Rest. destruct (lt_dec i j) as [L|L]; [now right|left]. intros [Q|(Q & _)]; cbn in Q; lia.
Qed.

(** Consecutive pieces join at vertexes inside the gap. *)
Fixpoint linked (n : nat) (ok : nat -> Prop) (l : list (nat * R * R)) : Prop :=
  match l with
  | (k, t, u) :: l' => match l' with
                       | [] => True
                       | (k', t', u') :: _ => u = 1 /\ t' = 0 /\ k' = ((k + 1) mod n)%nat /\ ok k' /\ linked n ok l'
                       end
  | [] => True
  end.

Lemma linked_mid n (ok : nat -> Prop) c m tail : (0 < n)%nat -> (forall x, (x < m)%nat -> ok ((c + x) mod n)) ->
  (match tail with [] => True | (j, a, b) :: tl => a = 0 /\ j = ((c + m) mod n)%nat /\ ok j /\ tl = [] end) ->
  linked n ok (map (fun k => ((c + k) mod n, 0%R, 1%R)) (seq 0 m) ++ tail).
Proof.
  intros Hn. revert c. induction m as [|m IH]; intros c Ho Ht.
  - cbn. destruct tail as [|[[j a] b] tl]; [exact I|]. destruct Ht as (_ & _ & _ & ->). exact I.
  - cbn [seq map app]. rewrite <- seq_shift, map_map.
    assert (E : map (fun x => ((c + S x) mod n, 0%R, 1%R)) (seq 0 m) = map (fun k => ((S c + k) mod n, 0%R, 1%R)) (seq 0 m)).
    { apply map_ext. intros x. do 3 f_equal. lia. }
    rewrite E.
    assert (L : linked n ok (map (fun k => ((S c + k) mod n, 0%R, 1%R)) (seq 0 m) ++ tail)).
    { apply IH.
      - intros x Hx. replace (S c + x)%nat with (c + S x)%nat by lia. apply Ho. lia.
      - destruct tail as [|[[j a] b] tl]; [exact I|]. destruct Ht as (A & B & C & D). repeat split; auto. rewrite B. f_equal. lia. }
    destruct m as [|m].
    + cbn [seq map app] in *. destruct tail as [|[[j a] b] tl]; [exact I|]. destruct Ht as (A & B & C & D). cbn [linked]. repeat split; auto.
      rewrite B. replace (c + 0)%nat with c by lia. rewrite Nat.add_mod_idemp_l by lia. reflexivity.
    + cbn [seq map app] in *. cbn [linked]. repeat split; auto.
      * replace (c + 0)%nat with c by lia. rewrite Nat.add_mod_idemp_l by lia. f_equal. lia.
      * replace (S c + 0)%nat with (c + 1)%nat by lia. apply Ho. lia.
Qed.

Lemma slice_linked n i t j u : (i < n)%nat -> (j < n)%nat -> 0 <= t < 1 -> 0 <= u < 1 ->
  linked n (fun k => amid (i, t) (k, 0) (j, u)) (slice_pieces n i t j u).
Proof.
  intros Hi Hj Ht Hu. rewrite slice_pieces_eq by lra. destruct (wrap_count n i j Hi Hj) as (W1 & W2).
  assert (Rest : ~ plt (i, t) (j, u) \/ (i < j)%nat -> linked n (fun k => amid (i, t) (k, 0) (j, u)) (rest_pieces n i t j u)).
  { intros NP. unfold rest_pieces. set (m := ((j + n - (i + 1)) mod n)%nat) in *.
    assert (EJ : ((i + 1 + m) mod n)%nat = j).
    { destruct (le_lt_dec j i) as [L|L].
      - rewrite (W2 L). replace (i + 1 + (j + n - i - 1))%nat with (j + 1 * n)%nat by lia. rewrite Nat.mod_add by lia. now apply Nat.mod_small.
      - rewrite (W1 L). replace (i + 1 + (j - i - 1))%nat with j by lia. now apply Nat.mod_small. }
    assert (Ho : forall x, (x < m)%nat -> amid (i, t) (((i + 1 + x) mod n)%nat, 0) (j, u)).
    { intros x Hx. unfold amid. destruct (plt_dec (i, t) (j, u)) as [P|P].
      - destruct NP as [NP|NP]; [contradiction|]. rewrite (W1 NP) in Hx. rewrite Nat.mod_small by lia. split; left; cbn; lia.
      - assert (L : (j <= i)%nat) by (apply Nat.nlt_ge; intros Q; apply P; now left). rewrite (W2 L) in Hx.
        destruct (le_lt_dec n (i + 1 + x)) as [G|G].
        + rewrite mod_wrap by lia. right. left. cbn. lia.
        + rewrite Nat.mod_small by lia. left. left. cbn. lia. }
    assert (Hl : 0 < u -> amid (i, t) (j, 0) (j, u)).
    { intros P0. unfold amid. destruct (plt_dec (i, t) (j, u)) as [P|P].
      - destruct NP as [NP|NP]; [contradiction|]. split; [left; exact NP|right; cbn; auto].
      - right. right. cbn. auto. }
    assert (LM : linked n (fun k => amid (i, t) (k, 0) (j, u)) (map (fun k => ((i + 1 + k) mod n, 0%R, 1%R)) (seq 0 m) ++ (if Rlt_dec 0 u then [(j, 0%R, u)] else []))).
    { apply linked_mid; [lia|exact Ho|]. destruct (Rlt_dec 0 u) as [P0|P0]; [|exact I]. repeat split; auto. }
    destruct m as [|m'] eqn:Em.
    - cbn [seq map app] in *. destruct (Rlt_dec 0 u) as [P0|P0]; [|exact I]. cbn [linked]. repeat split; auto.
      rewrite <- EJ. f_equal. lia.
    - cbn [seq map app] in *. cbn [linked]. split; [reflexivity|]. split; [reflexivity|]. split; [|split; [apply (Ho 0%nat); lia|exact LM]].
      replace (i + 1 + 0)%nat with (i + 1)%nat by lia. reflexivity. }
  destruct (Nat.eqb_spec i j) as [E|E].
  - subst j. destruct (Rlt_dec t u) as [L|L]; [exact I|]. apply Rest. left. intros [Q|(_ & Q)]; cbn in Q; [lia|lra].
  - apply Rest. destruct (lt_dec i j) as [L|L]; [now right|left]. intros [Q|(Q & _)]; cbn in Q; lia.
Qed.

(** ** Adding up along the pieces *)
Section Potential.
Variables (F : nat -> R -> R) (n : nat).
Definition whole (k : nat) : R := F k 1 - F k 0.
Definition base (k : nat) : R := rsum (map (fun x => whole (x mod n)) (seq 0 k)).
Definition Phi (z : nat * R) : R := base (fst z) + F (fst z) (snd z) - F (fst z) 0.

Lemma rsum_app a b : rsum (a ++ b) = rsum a + rsum b.
Proof. unfold rsum. induction a as [|x a IH]; cbn [app fold_right]; [ring|]. rewrite IH. ring. Qed.

Lemma base_add k m : base (k + m) = base k + rsum (map (fun x => whole ((k + x) mod n)) (seq 0 m)).
Proof.
  unfold base. rewrite seq_app, map_app, rsum_app. f_equal. f_equal. rewrite Nat.add_0_l.
  replace (seq k m) with (map (fun x => (k + x)%nat) (seq 0 m)); [now rewrite map_map|].
  clear. revert k. induction m as [|m IH]; intros k; [reflexivity|]. cbn [seq map]. f_equal; [lia|].
  rewrite <- (IH (S k)), <- seq_shift, map_map. apply map_ext. intros. lia.
Qed.

Lemma base_wrap k : (0 < n)%nat -> base (n + k) = base n + base k.
Proof.
  intros Hn. rewrite base_add. f_equal. unfold base. f_equal. apply map_ext. intros x. f_equal.
  replace (n + x)%nat with (x + 1 * n)%nat by lia. now rewrite Nat.mod_add by lia.
Qed.

Lemma base_S k : (k < n)%nat -> base (k + 1) = base k + whole k.
Proof. intros Hk. rewrite base_add. cbn. rewrite Nat.add_0_r, Nat.mod_small by exact Hk. ring. Qed.

Lemma pieces_sum i t j u : (i < n)%nat -> (j < n)%nat -> 0 <= t < 1 -> 0 <= u < 1 ->
  rsum (map (fun e => F (fst (fst e)) (snd e) - F (fst (fst e)) (snd (fst e))) (slice_pieces n i t j u))
  = Phi (j, u) - Phi (i, t) + (if plt_dec (i, t) (j, u) then 0 else base n).
Proof.
  intros Hi Hj Ht Hu. rewrite slice_pieces_eq by lra. destruct (wrap_count n i j Hi Hj) as (W1 & W2).
  assert (Rest : rsum (map (fun e => F (fst (fst e)) (snd e) - F (fst (fst e)) (snd (fst e))) (rest_pieces n i t j u))
    = F i 1 - F i t + (base (i + 1 + (j + n - (i + 1)) mod n) - base (i + 1)) + (F j u - F j 0)).
  { unfold rest_pieces. cbn [map rsum fold_right fst snd]. fold (rsum (map (fun e : nat * R * R => F (fst (fst e)) (snd e) - F (fst (fst e)) (snd (fst e)))
      (map (fun k => ((i + 1 + k) mod n, 0%R, 1%R)) (seq 0 ((j + n - (i + 1)) mod n)) ++ (if Rlt_dec 0 u then [(j, 0%R, u)] else [])))).
    rewrite map_app, rsum_app, map_map. cbn [fst snd]. rewrite base_add. unfold whole.
    destruct (Rlt_dec 0 u) as [P|P]; cbn [map rsum fold_right fst snd]; [ring|]. assert (u = 0) by lra. subst u. ring. }
  assert (R1 : (i < j)%nat -> F i 1 - F i t + (base (i + 1 + (j + n - (i + 1)) mod n) - base (i + 1)) + (F j u - F j 0) = Phi (j, u) - Phi (i, t)).
  { intros L. rewrite (W1 L). replace (i + 1 + (j - i - 1))%nat with j by lia. rewrite base_S by exact Hi. unfold Phi, whole. cbn [fst snd]. ring. }
  assert (R2 : (j <= i)%nat -> F i 1 - F i t + (base (i + 1 + (j + n - (i + 1)) mod n) - base (i + 1)) + (F j u - F j 0) = Phi (j, u) - Phi (i, t) + base n).
  { intros L. rewrite (W2 L). replace (i + 1 + (j + n - i - 1))%nat with (n + j)%nat by lia. rewrite base_wrap by lia. rewrite base_S by exact Hi. unfold Phi, whole. cbn [fst snd]. ring. }
  destruct (Nat.eqb_spec i j) as [E|E].
  - subst j. destruct (Rlt_dec t u) as [L|L].
    + destruct (plt_dec (i, t) (i, u)) as [P|P]; [|exfalso; apply P; right; cbn; auto]. cbn. unfold Phi. cbn [fst snd]. ring.
    + destruct (plt_dec (i, t) (i, u)) as [[P|(_ & P)]|P]; cbn in P; [lia|lra|]. rewrite Rest. apply R2. lia.
  - rewrite Rest. destruct (plt_dec (i, t) (j, u)) as [P|P].
    + rewrite Rplus_0_r. apply R1. destruct P as [P|(P & _)]; cbn in P; lia.
    + apply R2. apply Nat.nlt_ge. intros Q. apply P. now left.
Qed.
End Potential.
