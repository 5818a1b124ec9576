(** Stitching balanced slices uses them all, and nothing is added or lost (C51). *)
From Coq Require Import Reals ZArith Bool List Arith Lra Lia Psatz Permutation Sorted.
From Verif Require Import Num RNum Res ModelMath ModelSeg ModelPline ModelView ModelIntersects ModelBoolean.
From Verif Require Import Spec SpecPline SpecGeom SpecBox SpecWinding SpecView SpecStitch.
From Verif Require Import ProofR ProofIter ProofRepeat ProofSlice ProofWinding7 ProofRegion ProofRegion2 ProofRegion5.
Import ListNotations.
Local Open Scope R_scope.

(** ** Neighbours *)
Definition pairs {A} (l : list A) : list (A * A) := combine l (tl l).

Lemma spec_segs_pairs {A} (l : list A) : spec_segs l false = pairs l.
Proof. destruct l as [|a [|b l]]; [reflexivity|reflexivity|]. unfold spec_segs, pairs. now rewrite app_nil_r. Qed.

Lemma pairs_cons {A} (a b : A) l : pairs (a :: b :: l) = (a, b) :: pairs (b :: l).
Proof. reflexivity. Qed.

Lemma pairs_app {A} (l1 : list A) a l2 : pairs (l1 ++ a :: l2) = pairs (l1 ++ [a]) ++ pairs (a :: l2).
Proof.
  induction l1 as [|x l1 IH]; [reflexivity|]. destruct l1 as [|y l1].
  - cbn [app]. rewrite !pairs_cons. reflexivity.
  - cbn [app] in *. rewrite !pairs_cons, IH. reflexivity.
Qed.

Lemma pairs_loop {A} (a : A) l : l <> [] -> spec_segs (a :: l) true = pairs ((a :: l) ++ [a]).
Proof.
  destruct l as [|b l]; [congruence|]. intros _. unfold spec_segs, pairs. cbn [tl app].
  assert (G : forall (z : A) (l l' : list A), length l = length l' -> combine (l ++ [z]) l' = combine l l').
  { intros z l0. induction l0 as [|w l0 IH]; intros [|w' l'] L; try discriminate; [reflexivity|]. cbn. f_equal. apply IH. now injection L. }
  change (a :: b :: l ++ [a]) with ((a :: b :: l) ++ [a]). rewrite (G a (a :: b :: l)); [reflexivity|].
  cbn. rewrite app_length. cbn. lia.
Qed.

Lemma pairs_snoc_data (K : list (vertex R)) a v : pos a = pos v -> map seg_data (pairs (K ++ [a])) = map seg_data (pairs (K ++ [v])).
Proof.
  intros E. assert (D : forall x, seg_data (x, a) = seg_data (x, v)).
  { intros x. unfold seg_data. cbn [fst snd]. injection E as E1 E2. now rewrite E1, E2. }
  induction K as [|x K IH]; [reflexivity|]. destruct K as [|y K].
  - cbn [app]. rewrite !pairs_cons. cbn [map]. now rewrite D.
  - cbn [app] in *. rewrite !pairs_cons. cbn [map]. now rewrite IH.
Qed.

Lemma all_pairs_no_repeat {A} (close : A -> A -> bool) l : (forall pr, In pr (pairs l) -> close (fst pr) (snd pr) = false) -> no_repeat close l.
Proof.
  intros H. induction l as [|x l IH]; [intros [|i] a b E; discriminate|]. destruct l as [|y l].
  - intros [|i] a b E1 E2; [discriminate|destruct i; discriminate].
  - rewrite pairs_cons in H. intros [|i] a b E1 E2.
    + injection E1 as <-. injection E2 as <-. apply (H (x, y)). now left.
    + apply (IH (fun pr I => H pr (or_intror I)) i a b E1 E2).
Qed.

Lemma runs_single (close : vertex R -> vertex R -> bool) l rs : no_repeat close l -> is_runs close l rs -> flat_map run_rep rs = l.
Proof.
  intros NR HR.
  assert (E : rs = map (fun v => [v]) l).
  { apply (runs_unique close l); [exact HR|]. split; [|split].
    - clear. induction l as [|a l IH]; [reflexivity|]. cbn. now rewrite IH.
    - intros r I. apply in_map_iff in I as (v & <- & _). exists v, []. split; [reflexivity|]. intros x [].
    - intros i h1 t1 h2 t2 E1 E2. rewrite nth_error_map in E1, E2. destruct (nth_error l i) eqn:N1; [|discriminate]. destruct (nth_error l (S i)) eqn:N2; [|discriminate].
      cbn in E1, E2. injection E1 as <- <-. injection E2 as <- <-. eapply NR; eassumption. }
  subst rs. clear. induction l as [|a l IH]; [reflexivity|]. cbn. rewrite IH. destruct a. reflexivity.
Qed.

(** ** Stitching *)
Section Stitch.
Variables (path : boolean_slice R -> list (vertex R) -> Prop) (slices : list (boolean_slice R))
  (select : nat -> list nat -> res (option nat)) (eps : R) (g : seg -> Z) (G : boolean_slice R -> Z) (Q : seg -> Prop).
Hypothesis epos : 0 < eps.
Hypothesis gdata : forall s s' : seg, seg_data s = seg_data s' -> g s = g s'.
Hypothesis Qdata : forall s s' : seg, seg_data s = seg_data s' -> Q s -> Q s'.
Hypothesis pathok : forall i s l, nth_error slices i = Some s -> path s l ->
  exists a m z, l = a :: m ++ [z] /\ pos a = slice_begin s /\ pos z = slice_end s
  /\ (forall pr, In pr (pairs l) -> close_by eps (fst pr) (snd pr) = false /\ Q pr) /\ zsum (map g (pairs l)) = G s.
Hypothesis apart : forall s s', In s slices -> In s' slices -> within eps (slice_end s) (slice_begin s') = true -> slice_end s = slice_begin s'.
Hypothesis atself : forall s s', In s slices -> In s' slices -> slice_end s = slice_begin s' -> within eps (slice_end s) (slice_begin s') = true.
Definition at_i (h : boolean_slice R -> Z) (i : nat) : Z := match nth_error slices i with Some s => h s | None => 0%Z end.
Definition bal (c : vec2 R) (s : boolean_slice R) : Z := (here c (slice_end s) - here c (slice_begin s))%Z.
Hypothesis balanced : forall c, zsum (map (bal c) slices) = 0%Z.
Hypothesis selects : forall cur avail, (cur < length slices)%nat -> (forall i, In i avail -> (i < length slices)%nat) -> avail <> [] ->
  exists b, select cur avail = Ret (Some b) /\ In b avail.

Definition Q' (pr : seg) : Prop := close_by eps (fst pr) (snd pr) = false /\ Q pr.

Lemma Q'data s s' : seg_data s = seg_data s' -> Q' s -> Q' s'.
Proof.
  intros E (H1 & H2). split; [|now apply (Qdata s)]. rewrite <- H1. unfold close_by. destruct s as [a b], s' as [a' b']. cbn [fst snd].
  injection E as E1 E2 E3 E4 E5. unfold pos. now rewrite E1, E2, E3, E4.
Qed.

Lemma data_sum (l l' : list seg) : map seg_data l = map seg_data l' -> zsum (map g l) = zsum (map g l') /\ ((forall pr, In pr l -> Q' pr) -> forall pr, In pr l' -> Q' pr).
Proof.
  revert l'. induction l as [|s l IH]; intros [|s' l'] E; try discriminate; [split; [reflexivity|auto]|]. cbn [map] in E.
  assert (ED : seg_data s = seg_data s') by exact (f_equal (hd (seg_data s)) E).
  destruct (IH l' (f_equal (@tl _) E)) as (I1 & I2). split.
  - cbn [map zsum fold_right]. fold (zsum (map g l)) (zsum (map g l')). rewrite I1. f_equal. now apply gdata.
  - intros H pr [<-|I]; [apply (Q'data s); [exact ED|apply H; now left]|]. apply I2; [|exact I]. intros x Ix. apply H. now right.
Qed.

Definition sumi (h : boolean_slice R -> Z) (c : list nat) : Z := zsum (map (at_i h) c).

Lemma sumi_app h c d : sumi h (c ++ d) = (sumi h c + sumi h d)%Z.
Proof. unfold sumi. now rewrite map_app, zsum_app. Qed.
Lemma sumi_one h i s : nth_error slices i = Some s -> sumi h [i] = h s.
Proof. intros E. unfold sumi, at_i. cbn. rewrite E. lia. Qed.

Lemma sumi_all h : sumi h (seq 0 (length slices)) = zsum (map h slices).
Proof.
  clear - slices.
  unfold sumi. f_equal.
  assert (K : forall l k, (forall i, (i < length l)%nat -> nth_error slices (k + i) = nth_error l i) -> map (at_i h) (seq k (length l)) = map h l).
  { induction l as [|s l IH]; intros k H; [reflexivity|]. cbn [length seq map]. f_equal.
    - unfold at_i. specialize (H 0%nat). rewrite Nat.add_0_r in H. rewrite H by (cbn; lia). reflexivity.
    - apply IH. intros i L. specialize (H (S i)). rewrite Nat.add_succ_comm in *. apply H. cbn. lia. }
  apply K. reflexivity.
Qed.

Lemma zsum_perm (l l' : list Z) : Permutation l l' -> zsum l = zsum l'.
Proof. unfold zsum. induction 1; cbn [fold_right] in *; lia. Qed.

Lemma sumi_perm h c d : Permutation c d -> sumi h c = sumi h d.
Proof. intros P. unfold sumi. apply zsum_perm. now apply Permutation_map. Qed.

Lemma nodup_app {X} (a b : list X) : NoDup a -> NoDup b -> (forall x, In x a -> ~ In x b) -> NoDup (a ++ b).
Proof.
  induction a as [|x a IH]; intros HA HB D; [exact HB|]. inversion HA as [|? ? N HA']; subst. cbn. constructor.
  - rewrite in_app_iff. intros [I|I]; [contradiction|]. apply (D x); [now left|exact I].
  - apply IH; auto. intros y Iy. apply D. now right.
Qed.

Lemma rest_of (l : list nat) m : NoDup l -> (forall i, In i l -> (i < m)%nat) ->
  exists rest, Permutation (seq 0 m) (l ++ rest) /\ forall i, In i rest -> (i < m)%nat /\ ~ In i l.
Proof.
  intros ND R. set (f := fun i => if in_dec Nat.eq_dec i l then false else true). exists (filter f (seq 0 m)).
  assert (F : forall i, In i (filter f (seq 0 m)) <-> (i < m)%nat /\ ~ In i l).
  { intros i. rewrite filter_In, in_seq. unfold f. destruct (in_dec Nat.eq_dec i l); split; intros (H1 & H2); try discriminate; try contradiction; split; auto; lia. }
  split; [|intros i; apply F]. apply NoDup_Permutation; [apply seq_NoDup| |].
  - apply nodup_app; [exact ND|apply NoDup_filter, seq_NoDup|]. intros x Ix I. apply F in I. tauto.
  - intros i. rewrite in_app_iff, F, in_seq. destruct (in_dec Nat.eq_dec i l) as [I|I]; split; intros H; try (split; [lia|]; destruct H as [H|H]; [apply R in H|]; lia).
    + now left.
    + right. split; [lia|exact I].
Qed.

Definition chain_ok (used : list nat) (first : nat) (c : list nat) (K' : list (vertex R)) : Prop :=
  exists s0 a K v c' cur sc, nth_error slices first = Some s0 /\ K' = (a :: K) ++ [v] /\ pos a = slice_begin s0
  /\ c = c' ++ [cur] /\ nth_error slices cur = Some sc /\ pos v = slice_end sc
  /\ (forall pr, In pr (pairs K') -> Q' pr) /\ zsum (map g (pairs K')) = sumi G c
  /\ (forall q, sumi (bal q) c = (here q (pos v) - here q (pos a))%Z)
  /\ NoDup c /\ (forall i, In i c -> (i < length slices)%nat /\ ~ In i used) /\ In first c.

Lemma stitched_ok used first c K' : ~ In first used -> stitched path slices select eps used first c K' -> chain_ok used first c K'.
Proof.
  intros NF H. induction H as [s l rs E P R|c cur K v avail b s l rs H IH OF NE SE NB E P R].
  - destruct (pathok first s l E P) as (a & m & z & El & Ea & Ez & HQ & HG).
    assert (RL : flat_map run_rep rs = l).
    { apply (runs_single (close_by eps)); [|exact R]. apply all_pairs_no_repeat. intros pr I. apply HQ, I. }
    rewrite RL. exists s, a, m, z, [], first, s. split; [exact E|]. split; [exact El|]. split; [exact Ea|]. split; [reflexivity|]. split; [exact E|]. split; [exact Ez|].
    split; [exact HQ|]. split; [rewrite (sumi_one G first s E); exact HG|]. split; [intros q; rewrite (sumi_one _ first s E); unfold bal; now rewrite Ea, Ez|].
    split; [repeat constructor; intros []|]. split; [|now left]. intros i [<-|[]]. split; [apply nth_error_Some; congruence|exact NF].
  - destruct IH as (s0 & a & K0 & v0 & c' & cur' & sc & E0 & EK & Ea & Ec & Ecur & Ev & HQ & HG & HB & ND & RG & IF).
    apply app_inj_tail in EK as (EK & <-). apply app_inj_tail in Ec as (_ & <-). subst K.
    assert (Lcur : (cur < length slices)%nat) by (apply nth_error_Some; congruence).
    destruct (selects cur avail Lcur) as (b' & SE' & Ib); [|exact NE|].
    { intros i Ii. apply OF in Ii as (si & Ei & _). apply nth_error_Some. congruence. }
    rewrite SE in SE'. injection SE' as <-.
    destruct (proj1 (OF b) Ib) as (sb & Eb & Wb & [X|NU]); [contradiction|]. rewrite E in Eb. injection Eb as <-.
    assert (Evs : pos v = slice_begin s).
    { rewrite Ev in Wb |- *. apply apart; [eapply nth_error_In; exact Ecur|eapply nth_error_In; exact E|exact Wb]. }
    destruct (pathok b s l E P) as (w & m & z & El & Ew & Ez & HQl & HGl).
    assert (EP : pairs ((a :: K0) ++ l) = pairs ((a :: K0) ++ [w]) ++ pairs l) by (rewrite El at 1; rewrite pairs_app; now rewrite <- El).
    change (@eq (list seg) (pairs ((a :: K0) ++ l)) (@app seg (pairs ((a :: K0) ++ [w])) (pairs l))) in EP.
    assert (ED : map seg_data (pairs ((a :: K0) ++ [v])) = map seg_data (pairs ((a :: K0) ++ [w]))) by (apply pairs_snoc_data; congruence).
    destruct (data_sum _ _ ED) as (S1 & S2).
    assert (HQn : forall pr, In pr (pairs ((a :: K0) ++ l)) -> Q' pr).
    { intros pr I. rewrite EP in I. apply in_app_or in I as [I|I]; [apply (S2 HQ pr I)|apply HQl, I]. }
    assert (RL : flat_map run_rep rs = (a :: K0) ++ l).
    { apply (runs_single (close_by eps)); [|exact R]. apply all_pairs_no_repeat. intros pr I. apply HQn, I. }
    rewrite RL. exists s0, a, (K0 ++ w :: m), z, (c ++ [cur]), b, s.
    split; [exact E0|]. split; [rewrite El; cbn; now rewrite <- app_assoc|]. split; [exact Ea|]. split; [reflexivity|]. split; [exact E|]. split; [exact Ez|].
    split; [exact HQn|]. split; [rewrite EP, map_app, zsum_app, HGl, (sumi_app G (c ++ [cur])), (sumi_one G b s E), <- HG; f_equal; symmetry; exact S1|].
    split.
    { intros q. rewrite sumi_app, HB, (sumi_one _ b s E). unfold bal. rewrite Evs, Ez. lia. }
    split; [apply nodup_app; [exact ND|repeat constructor; intros []|]|].
    { intros i Ii [<-|[]]. apply NU. apply in_or_app. now right. }
    split; [|apply in_or_app; now left]. intros i Ii. apply in_app_or in Ii as [Ii|[<-|[]]]; [now apply RG|].
    split; [apply nth_error_Some; congruence|]. intros I. apply NU. apply in_or_app. now left.
Qed.

(** What remains has the opposite imbalance. *)
Lemma goes_on used first c K' : NoDup used -> (forall i, In i used -> (i < length slices)%nat) -> (forall q, sumi (bal q) used = 0%Z) ->
  chain_ok used first c K' -> forall K v avail, K' = K ++ [v] -> offered slices eps (used ++ c) first (pos v) avail -> avail <> [].
Proof.
  intros NDu Ru Bu (s0 & a & K0 & v0 & c' & cur & sc & E0 & EK & Ea & Ec & Ecur & Ev & HQ & HG & HB & ND & RG & IF) K v avail EK' OF Eav.
  rewrite EK in EK'. apply app_inj_tail in EK' as (_ & <-).
  destruct (rest_of (used ++ c) (length slices)) as (rest & PM & HR).
  { apply nodup_app; auto. intros i Iu Ic. apply (RG i Ic). exact Iu. }
  { intros i I. apply in_app_or in I as [I|I]; [now apply Ru|apply (RG i I)]. }
  assert (W : forall i s, nth_error slices i = Some s -> slice_begin s = pos v0 -> (i = first \/ ~ In i (used ++ c)) -> False).
  { intros i s Ei Es Hi. assert (In i avail) as I; [|rewrite Eav in I; destruct I].
    apply OF. exists s. split; [exact Ei|]. split; [|exact Hi]. rewrite Ev. apply atself; [eapply nth_error_In; exact Ecur|eapply nth_error_In; exact Ei|].
    rewrite <- Ev. now symmetry. }
  assert (N0 : pos v0 <> pos a) by (intros Q0; apply (W first s0 E0); [rewrite <- Ea; now symmetry|now left]).
  set (q := pos v0) in *.
  assert (HS : forall x y, here x y = (if Req_EM_T (vx y) (vx x) then if Req_EM_T (vy y) (vy x) then 1 else 0 else 0)%Z) by reflexivity.
  assert (H1 : here q q = 1%Z).
  { rewrite HS. destruct (Req_EM_T (vx q) (vx q)); [|congruence]. destruct (Req_EM_T (vy q) (vy q)); [reflexivity|congruence]. }
  assert (H01 : forall y, (here q y = 0 \/ here q y = 1)%Z) by (intros y; rewrite HS; destruct (Req_EM_T _ _); [destruct (Req_EM_T _ _)|]; auto).
  assert (H0 : forall y, y <> q -> here q y = 0%Z).
  { intros y N. rewrite HS. destruct (Req_EM_T (vx y) (vx q)) as [X|]; [|reflexivity]. destruct (Req_EM_T (vy y) (vy q)) as [Y|]; [|reflexivity]. exfalso. apply N. destruct y, q. cbn in *. congruence. }
  pose proof (balanced q) as B. rewrite <- sumi_all, (sumi_perm _ _ _ PM), !sumi_app, Bu, HB, H1, (H0 (pos a)) in B by congruence.
  assert (P : (0 <= sumi (bal q) rest)%Z).
  { unfold sumi. clear PM B. induction rest as [|i rest IH]; [cbn; lia|]. cbn [map zsum fold_right]. fold (zsum (map (at_i (bal q)) rest)).
    assert (0 <= zsum (map (at_i (bal q)) rest))%Z by (apply IH; intros j Ij; apply HR; now right).
    assert (0 <= at_i (bal q) i)%Z; [|lia]. unfold at_i. destruct (nth_error slices i) as [s|] eqn:Ei; [|lia]. unfold bal.
    rewrite (H0 (slice_begin s)).
    - destruct (H01 (slice_end s)) as [-> | ->]; lia.
    - intros X. apply (W i s Ei X). right. apply HR. now left. }
  lia.
Qed.

Definition result_ok (r : boolean_result_pline R) : Prop :=
  is_closed (brp_pline r) = true /\ (2 <= vertex_count (brp_pline r))%nat /\ forall pr, In pr (spec_segs (vtx (brp_pline r)) true) -> Q pr.

Lemma stitching_ok chains rs : stitching path slices select eps chains rs ->
  NoDup (concat chains) /\ (forall i, In i (concat chains) -> (i < length slices)%nat) /\ (forall q, sumi (bal q) (concat chains) = 0%Z)
  /\ zsum (map (fun r => zsum (map g (spec_segs (vtx (brp_pline r)) true))) rs) = sumi G (concat chains) /\ Forall result_ok rs.
Proof.
  intros H. induction H as [|chains rs first c K' out H IH NF _ ST FI].
  - split; [constructor|]. split; [intros i []|]. split; [reflexivity|]. split; [reflexivity|constructor].
  - destruct IH as (ND & RG & BA & SU & RO). pose proof (stitched_ok _ _ _ _ NF ST) as CO.
    pose proof (goes_on _ _ _ _ ND RG BA CO) as GO.
    destruct CO as (s0 & a & K0 & v0 & c' & cur & sc & E0 & EK & Ea & Ec & Ecur & Ev & HQ & HG & HB & NDc & RGc & IF).
    assert (Lcur : (cur < length slices)%nat) by (apply nth_error_Some; congruence).
    rewrite concat_app. cbn [concat]. rewrite app_nil_r.
    assert (CL : forall avail, offered slices eps (concat chains ++ c) first (pos v0) avail -> select cur avail = Ret (Some first) -> pos v0 = pos a).
    { intros avail OF SE. destruct (selects cur avail Lcur) as (b & SE' & Ib).
      - intros i Ii. apply OF in Ii as (si & Ei & _). apply nth_error_Some. congruence.
      - apply (GO (a :: K0) v0 avail EK OF).
      - rewrite SE in SE'. injection SE' as <-. apply OF in Ib as (si & Ei & W & _). rewrite E0 in Ei. injection Ei as <-.
        rewrite Ea. rewrite Ev in W |- *. apply apart; [eapply nth_error_In; exact Ecur|eapply nth_error_In; exact E0|exact W]. }
    assert (FIN : pos v0 = pos a -> (1 <= length K0)%nat -> out = [BRP (PL (a :: K0) true) (match out with [r] => brp_subslices r | _ => [] end)] ->
      NoDup (concat chains ++ c) /\ (forall i, In i (concat chains ++ c) -> (i < length slices)%nat) /\ (forall q, sumi (bal q) (concat chains ++ c) = 0%Z)
      /\ zsum (map (fun r => zsum (map g (spec_segs (vtx (brp_pline r)) true))) (rs ++ out)) = sumi G (concat chains ++ c) /\ Forall result_ok (rs ++ out)).
    { intros EV LK EO. set (sb := match out with [r] => brp_subslices r | _ => [] end) in EO. clearbody sb. subst out.
      assert (K0 <> []) as NK by (destruct K0; [cbn in LK; lia|congruence]).
      assert (ED : map seg_data (pairs ((a :: K0) ++ [v0])) = map seg_data (pairs ((a :: K0) ++ [a]))) by (apply pairs_snoc_data; exact EV).
      rewrite EK in HQ, HG. destruct (data_sum _ _ ED) as (S1 & S2).
      split; [apply nodup_app; auto; intros i Iu Ic; apply (RGc i Ic); exact Iu|].
      split; [intros i I; apply in_app_or in I as [I|I]; [now apply RG|apply (RGc i I)]|].
      split; [intros q; rewrite sumi_app, BA, HB, EV; lia|].
      split.
      - rewrite map_app, zsum_app, SU, sumi_app. f_equal. cbn [map zsum fold_right brp_pline vtx]. rewrite pairs_loop by exact NK. rewrite <- HG, Z.add_0_r. symmetry. exact S1.
      - apply Forall_app. split; [exact RO|]. constructor; [|constructor]. split; [reflexivity|]. split.
        + unfold vertex_count. cbn. lia.
        + intros pr I. cbn [brp_pline vtx] in I. rewrite pairs_loop in I by exact NK. apply (S2 HQ pr I). }
    inversion FI as [c0 cur0 K1 v1 avail OF HA EC EK1|c0 cur0 K1 v1 avail OF HA SE LK EC EK1|c0 cur0 K1 v1 avail sub OF HA SE LK ES EC EK1]; subst out.
    + exfalso. rewrite Ec in EC. apply app_inj_tail in EC as (EC & ->). rewrite EK in EK1. apply app_inj_tail in EK1 as (_ & ->).
      assert (OF' : offered slices eps (concat chains ++ c) first (pos v0) avail) by (rewrite Ec, <- EC; exact OF).
      pose proof (GO (a :: K0) v0 avail EK OF') as NA. destruct HA as [HA|HA]; [contradiction|].
      destruct (selects cur avail Lcur) as (b & SE' & _); [|exact NA|congruence].
      intros i Ii. apply OF in Ii as (si & Ei & _). apply nth_error_Some. congruence.
    + exfalso. rewrite Ec in EC. apply app_inj_tail in EC as (EC & ->). rewrite EK in EK1. apply app_inj_tail in EK1 as (EK1 & ->). subst K1.
      assert (OF' : offered slices eps (concat chains ++ c) first (pos v0) avail) by (rewrite Ec, <- EC; exact OF).
      pose proof (CL avail OF' SE) as EV. destruct K0 as [|x K0]; [|cbn in LK; lia].
      destruct (HQ (a, v0)) as (NC & _); [rewrite EK; now left|]. cbn [fst snd] in NC.
      unfold close_by in NC. rewrite EV, fuzzy_refl in NC by exact epos. discriminate.
    + rewrite Ec in EC. apply app_inj_tail in EC as (EC & ->). rewrite EK in EK1. apply app_inj_tail in EK1 as (EK1 & ->). subst K1.
      assert (OF' : offered slices eps (concat chains ++ c) first (pos v0) avail) by (rewrite Ec, <- EC; exact OF).
      replace (c0 ++ [cur]) with c by congruence. apply FIN; [exact (CL avail OF' SE)|cbn in LK; lia|reflexivity].
Qed.
End Stitch.
