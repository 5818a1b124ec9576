(** Slices with as many beginning as ending at every point are put together to closed loops (C76). *)
From Coq Require Import Reals ZArith Bool List Arith Lra Lia Psatz Permutation.
From Verif Require Import Num RNum Res ModelMath ModelSeg ModelPline ModelView ModelOffset.
From Verif Require Import Spec SpecPline SpecGeom SpecBox SpecView SpecStitch SpecChain SpecWinding.
From Verif Require Import ProofR ProofBase ProofIter ProofStitch ProofWinding6 ProofWinding7 ProofRegion ProofRegion2 ProofRegion7 ProofWinding4 ProofChain.
Import ListNotations.
Local Open Scope R_scope.

Definition slice_from (d : view_data R) : vec2 R := pos (vd_updated_start d).
Definition slice_to (d : view_data R) : vec2 R := vd_end_point d.

Lemma others_of (l : list nat) m : NoDup l -> (forall i, In i l -> (i < m)%nat) ->
  exists rest, Permutation (seq 0 m) (l ++ rest) /\ forall i, In i rest -> (i < m)%nat /\ ~ In i l.
Proof.
  intros ND RR. set (f := fun i => if in_dec Nat.eq_dec i l then false else true). exists (filter f (seq 0 m)).
  assert (F : forall i, In i (filter f (seq 0 m)) <-> (i < m)%nat /\ ~ In i l).
  { intros i. rewrite filter_In, in_seq. unfold f. destruct (in_dec Nat.eq_dec i l); split; intros (H1 & H2); try discriminate; try contradiction; split; auto; lia. }
  split; [|intros i; apply F]. apply NoDup_Permutation; [apply seq_NoDup| |].
  - apply nodup_app; [exact ND|apply NoDup_filter, seq_NoDup|]. intros x Ix I. apply F in I. tauto.
  - intros i. rewrite in_app_iff, F, in_seq. destruct (in_dec Nat.eq_dec i l) as [I|I]; split; intros H; try (split; [lia|]; destruct H as [H|H]; [apply RR in H|]; lia).
    + now left.
    + right. split; [lia|exact I].
Qed.

Section OffStitch.
Variables (raw : pline R) (slices : list (view_data R)) (choice : nat -> nat -> list nat -> nat -> Prop) (eps join : R)
  (g : seg -> Z) (G : view_data R -> Z) (Q : seg -> Prop).
Hypothesis epos : 0 < eps.
Hypothesis jpos : 0 < join.
Hypothesis gdata : forall s s' : seg, SpecPline.seg_data s = SpecPline.seg_data s' -> g s = g s'.
Hypothesis Qdata : forall s s' : seg, SpecPline.seg_data s = SpecPline.seg_data s' -> Q s -> Q s'.
Hypothesis pathok : forall d, In d slices -> let l := view_path_of raw d in
  exists a m z, l = a :: m ++ [z] /\ pos a = slice_from d /\ pos z = slice_to d
  /\ (forall pr, In pr (pairs l) -> close_by eps (fst pr) (snd pr) = false /\ Q pr) /\ zsum (map g (pairs l)) = G d.
Hypothesis apart : forall s s', In s slices -> In s' slices -> reaches join (slice_to s) (slice_from s') = true <-> slice_to s = slice_from s'.
Definition off_bal (c : vec2 R) (s : view_data R) : Z := (here c (slice_to s) - here c (slice_from s))%Z.
Hypothesis balanced : forall c, zsum (map (off_bal c) slices) = 0%Z.
Hypothesis chooses : forall first cur avail b, choice first cur avail b -> In b avail.

Local Notation Q2 := (fun pr : seg => close_by eps (fst pr) (snd pr) = false /\ Q pr).

Lemma off_Qdata s s' : SpecPline.seg_data s = SpecPline.seg_data s' -> Q2 s -> Q2 s'.
Proof.
  intros E (H1 & H2). split; [|now apply (Qdata s)]. rewrite <- H1. unfold close_by. destruct s as [a b], s' as [a' b']. cbn [fst snd].
  injection E as E1 E2 E3 E4 E5. unfold pos. now rewrite E1, E2, E3, E4.
Qed.

Lemma off_data_sum (l l' : list seg) : map SpecPline.seg_data l = map SpecPline.seg_data l' -> zsum (map g l) = zsum (map g l') /\ ((forall pr, In pr l -> Q2 pr) -> forall pr, In pr l' -> Q2 pr).
Proof.
  revert l'. induction l as [|s l IH]; intros [|s' l'] E; try discriminate; [split; [reflexivity|auto]|]. cbn [map] in E.
  assert (ED : SpecPline.seg_data s = SpecPline.seg_data s') by exact (f_equal (hd (SpecPline.seg_data s)) E).
  destruct (IH l' (f_equal (@tl _) E)) as (I1 & I2). split.
  - cbn [map zsum fold_right]. fold (zsum (map g l)) (zsum (map g l')). rewrite I1. f_equal. now apply gdata.
  - intros H pr [<-|I]; [apply (off_Qdata s); [exact ED|apply H; now left]|]. apply I2; [|exact I]. intros x Ix. apply H. now right.
Qed.

Definition off_at (h : view_data R -> Z) (i : nat) : Z := match nth_error slices i with Some s => h s | None => 0%Z end.
Definition off_sum (h : view_data R -> Z) (c : list nat) : Z := zsum (map (off_at h) c).

Lemma off_sum_app h c d : off_sum h (c ++ d) = (off_sum h c + off_sum h d)%Z.
Proof. unfold off_sum. now rewrite map_app, zsum_app. Qed.
Lemma off_sum_one h i s : nth_error slices i = Some s -> off_sum h [i] = h s.
Proof. intros E. unfold off_sum, off_at. cbn. rewrite E. lia. Qed.

Lemma off_sum_all h : off_sum h (seq 0 (length slices)) = zsum (map h slices).
Proof.
  clear - slices.
  unfold off_sum. f_equal.
  assert (K : forall l k, (forall i, (i < length l)%nat -> nth_error slices (k + i) = nth_error l i) -> map (off_at h) (seq k (length l)) = map h l).
  { induction l as [|s l IH]; intros k H; [reflexivity|]. cbn [length seq map]. f_equal.
    - unfold off_at. specialize (H 0%nat). rewrite Nat.add_0_r in H. rewrite H by (cbn; lia). reflexivity.
    - apply IH. intros i L. specialize (H (S i)). rewrite Nat.add_succ_comm in *. apply H. cbn. lia. }
  apply K. reflexivity.
Qed.

Lemma off_sum_perm h c d : Permutation c d -> off_sum h c = off_sum h d.
Proof. intros P. unfold off_sum. apply zsum_perm. now apply Permutation_map. Qed.

Local Notation path := (path_at raw slices).
Local Notation next := (next_at slices join).

Definition off_chain (used : list nat) (first : nat) (c : list nat) (K' : list (vertex R)) : Prop :=
  exists s0 a K v c' cur sc, nth_error slices first = Some s0 /\ K' = (a :: K) ++ [v] /\ pos a = slice_from s0
  /\ c = c' ++ [cur] /\ nth_error slices cur = Some sc /\ pos v = slice_to sc
  /\ (forall pr, In pr (pairs K') -> Q2 pr) /\ zsum (map g (pairs K')) = off_sum G c
  /\ (forall q, off_sum (off_bal q) c = (here q (pos v) - here q (pos a))%Z)
  /\ NoDup c /\ (forall i, In i c -> (i < length slices)%nat /\ ~ In i used).

Lemma chained_ok used first c K' : ~ In first used -> chained path next choice true eps used first c K' -> off_chain used first c K'.
Proof.
  intros NF H. induction H as [l rs P R|c cur K v avail b l rs H IH CA CH P R].
  - destruct P as (d & E & ->). destruct (pathok d (nth_error_In _ _ E)) as (a & m & z & El & Ea & Ez & HQ & HG).
    assert (RL : flat_map run_rep rs = view_path_of raw d).
    { apply (runs_single (close_by eps)); [|exact R]. apply all_pairs_no_repeat. intros pr I. apply HQ, I. }
    rewrite RL. exists d, a, m, z, [], first, d. split; [exact E|]. split; [exact El|]. split; [exact Ea|]. split; [reflexivity|]. split; [exact E|]. split; [exact Ez|].
    split; [exact HQ|]. split; [rewrite (off_sum_one G first d E); exact HG|]. split; [intros q; rewrite (off_sum_one _ first d E); unfold off_bal; now rewrite Ea, Ez|].
    split; [repeat constructor; intros []|]. intros i [<-|[]]. split; [apply nth_error_Some; congruence|exact NF].
  - destruct IH as (s0 & a & K0 & v0 & c' & cur' & sc & E0 & EK & Ea & Ec & Ecur & Ev & HQ & HG & HB & ND & RG).
    apply app_inj_tail in EK as (EK & <-). apply app_inj_tail in Ec as (_ & <-). subst K.
    apply chooses in CH. apply CA in CH as ((d1 & s & E1 & E & Wb) & NU). rewrite Ecur in E1. injection E1 as <-.
    destruct P as (s' & E' & ->). rewrite E in E'. injection E' as <-.
    assert (Evs : pos v = slice_from s).
    { rewrite Ev. apply apart; [eapply nth_error_In; exact Ecur|eapply nth_error_In; exact E|exact Wb]. }
    destruct (pathok s (nth_error_In _ _ E)) as (w & m & z & El & Ew & Ez & HQl & HGl).
    set (l := view_path_of raw s) in *.
    assert (EP : pairs ((a :: K0) ++ l) = pairs ((a :: K0) ++ [w]) ++ pairs l) by (rewrite El at 1; rewrite pairs_app; now rewrite <- El).
    change (@eq (list seg) (pairs ((a :: K0) ++ l)) (@app seg (pairs ((a :: K0) ++ [w])) (pairs l))) in EP.
    assert (ED : map SpecPline.seg_data (pairs ((a :: K0) ++ [v])) = map SpecPline.seg_data (pairs ((a :: K0) ++ [w]))) by (apply pairs_snoc_data; congruence).
    destruct (off_data_sum _ _ ED) as (S1 & S2).
    assert (HQn : forall pr, In pr (pairs ((a :: K0) ++ l)) -> Q2 pr).
    { intros pr I. rewrite EP in I. apply in_app_or in I as [I|I]; [apply (S2 HQ pr I)|apply HQl, I]. }
    assert (RL : flat_map run_rep rs = (a :: K0) ++ l).
    { apply (runs_single (close_by eps)); [|exact R]. apply all_pairs_no_repeat. intros pr I. apply HQn, I. }
    rewrite RL. exists s0, a, (K0 ++ w :: m), z, (c ++ [cur]), b, s.
    split; [exact E0|]. split; [rewrite El; cbn; now rewrite <- app_assoc|]. split; [exact Ea|]. split; [reflexivity|]. split; [exact E|]. split; [exact Ez|].
    split; [exact HQn|]. split; [rewrite EP, map_app, zsum_app, HGl, (off_sum_app G (c ++ [cur])), (off_sum_one G b s E), <- HG; f_equal; symmetry; exact S1|].
    split.
    { intros q. rewrite off_sum_app, HB, (off_sum_one _ b s E). unfold off_bal. rewrite Evs, Ez. lia. }
    split; [apply nodup_app; [exact ND|repeat constructor; intros []|]|].
    { intros i Ii [<-|[]]. apply NU. apply in_or_app. now right. }
    intros i Ii. apply in_app_or in Ii as [Ii|[<-|[]]]; [now apply RG|].
    split; [apply nth_error_Some; congruence|]. intros I. apply NU. apply in_or_app. now left.
Qed.

(** A chain ends only where it began. *)
Lemma chain_closes used first c K' : NoDup used -> (forall i, In i used -> (i < length slices)%nat) -> (forall q, off_sum (off_bal q) used = 0%Z) ->
  off_chain used first c K' -> forall c' cur, c = c' ++ [cur] -> candidates next (used ++ c) cur [] ->
  exists a K v, K' = (a :: K) ++ [v] /\ pos v = pos a.
Proof.
  intros NDu Ru Bu (s0 & a & K0 & v0 & c' & cur & sc & E0 & EK & Ea & Ec & Ecur & Ev & HQ & HG & HB & ND & RG) c'' cur'' Ec'' CA.
  rewrite Ec in Ec''. apply app_inj_tail in Ec'' as (_ & <-).
  exists a, K0, v0. split; [exact EK|].
  destruct (others_of (used ++ c) (length slices)) as (rest & PM & HR).
  { apply nodup_app; auto. intros i Iu Ic. apply (RG i Ic). exact Iu. }
  { intros i I. apply in_app_or in I as [I|I]; [now apply Ru|apply (RG i I)]. }
  assert (W : forall i s, nth_error slices i = Some s -> slice_from s = pos v0 -> ~ In i (used ++ c) -> False).
  { intros i s Ei Es Hi. destruct CA as (_ & CA). apply (proj2 (CA i)). split; [|exact Hi]. exists sc, s. split; [exact Ecur|]. split; [exact Ei|].
    apply apart; [eapply nth_error_In; exact Ecur|eapply nth_error_In; exact Ei|]. now rewrite Es. }
  set (q := pos v0) in *. destruct (Classical_Prop.classic (q = pos a)) as [?|N0]; [assumption|exfalso].
  assert (HS : forall x y, here x y = (if Req_EM_T (vx y) (vx x) then if Req_EM_T (vy y) (vy x) then 1 else 0 else 0)%Z) by reflexivity.
  assert (H1 : here q q = 1%Z).
  { rewrite HS. destruct (Req_EM_T (vx q) (vx q)); [|congruence]. destruct (Req_EM_T (vy q) (vy q)); [reflexivity|congruence]. }
  assert (H01 : forall y, (here q y = 0 \/ here q y = 1)%Z) by (intros y; rewrite HS; destruct (Req_EM_T _ _); [destruct (Req_EM_T _ _)|]; auto).
  assert (H0 : forall y, y <> q -> here q y = 0%Z).
  { intros y N. rewrite HS. destruct (Req_EM_T (vx y) (vx q)) as [X|]; [|reflexivity]. destruct (Req_EM_T (vy y) (vy q)) as [Y|]; [|reflexivity]. exfalso. apply N. destruct y, q. cbn in *. congruence. }
  pose proof (balanced q) as B. rewrite <- off_sum_all, (off_sum_perm _ _ _ PM), !off_sum_app, Bu, HB, H1, (H0 (pos a)) in B by congruence.
  assert (P : (0 <= off_sum (off_bal q) rest)%Z).
  { unfold off_sum. clear PM B. induction rest as [|i rest IH]; [cbn; lia|]. cbn [map zsum fold_right]. fold (zsum (map (off_at (off_bal q)) rest)).
    assert (0 <= zsum (map (off_at (off_bal q)) rest))%Z by (apply IH; intros j Ij; apply HR; now right).
    assert (0 <= off_at (off_bal q) i)%Z; [|lia]. unfold off_at. destruct (nth_error slices i) as [s|] eqn:Ei; [|lia]. unfold off_bal.
    rewrite (H0 (slice_from s)).
    - destruct (H01 (slice_to s)) as [-> | ->]; lia.
    - intros X. apply (W i s Ei X). apply HR. now left. }
  lia.
Qed.

(** The loop of a chain. *)
Definition loop_made (K : list (vertex R)) (r : pline R) : Prop :=
  is_closed r = true /\ (2 <= vertex_count r)%nat /\ (forall pr, In pr (spec_segs (vtx r) true) -> Q pr)
  /\ zsum (map g (spec_segs (vtx r) true)) = zsum (map g (pairs K)).

Lemma close_made a K v e : 0 < e -> pos v = pos a -> (forall pr, In pr (pairs ((a :: K) ++ [v])) -> Q2 pr) ->
  loop_made ((a :: K) ++ [v]) (close_path true e ((a :: K) ++ [v])) /\ offset_result true eps ((a :: K) ++ [v]) = [close_path true eps ((a :: K) ++ [v])].
Proof.
  intros He Ev HQ. assert (NK : K <> []).
  { intros ->. destruct (HQ (a, v)) as (NC & _); [now left|]. cbn [fst snd] in NC. unfold close_by in NC. rewrite Ev, v2fuzzy_refl in NC by exact epos. discriminate. }
  split.
  - unfold close_path. rewrite rev_unit. cbn [app hd_error]. rewrite Ev, v2fuzzy_refl by exact He. cbn [andb].
    change (a :: K ++ [v]) with ((a :: K) ++ [v]). rewrite removelast_last.
    assert (ED : map SpecPline.seg_data (pairs ((a :: K) ++ [v])) = map SpecPline.seg_data (pairs ((a :: K) ++ [a]))) by (apply pairs_snoc_data; exact Ev).
    destruct (off_data_sum _ _ ED) as (S1 & S2). split; [reflexivity|]. split; [|split].
    + unfold vertex_count. cbn. destruct K; [contradiction|cbn; lia].
    + intros pr I. cbn [vtx] in I. rewrite pairs_loop in I by exact NK. apply (S2 HQ pr I).
    + cbn [vtx]. rewrite pairs_loop by exact NK. symmetry. exact S1.
  - unfold offset_result. rewrite app_length. cbn [length]. destruct (Nat.leb_spec 2 (S (length K) + 1)); [reflexivity|destruct K; [contradiction|cbn in *; lia]].
Qed.

Lemma all_chained_ok chains Ks : all_chained path next choice true eps chains Ks ->
  NoDup (concat chains) /\ (forall i, In i (concat chains) -> (i < length slices)%nat) /\ (forall q, off_sum (off_bal q) (concat chains) = 0%Z)
  /\ zsum (map (fun K => zsum (map g (pairs K))) Ks) = off_sum G (concat chains)
  /\ (forall K, In K Ks -> exists a K0 v, K = (a :: K0) ++ [v] /\ pos v = pos a /\ forall pr, In pr (pairs K) -> Q2 pr).
Proof.
  intros H. induction H as [|chains Ks first c cur K H IH NF _ CH CA].
  - split; [constructor|]. split; [intros i []|]. split; [reflexivity|]. split; [reflexivity|]. intros K [].
  - destruct IH as (ND & RG & BA & SU & RO). pose proof (chained_ok _ _ _ _ NF CH) as CO.
    destruct (chain_closes _ _ _ _ ND RG BA CO c cur eq_refl CA) as (a & K0 & v & EK & EV).
    destruct CO as (s0 & a' & K0' & v' & c' & cur' & sc & E0 & EK' & Ea & Ec & Ecur & Ev & HQ & HG & HB & NDc & RGc).
    rewrite EK in EK'. apply app_inj_tail in EK' as (EK' & <-). injection EK' as <- <-.
    rewrite concat_app. cbn [concat]. rewrite app_nil_r.
    split; [apply nodup_app; auto; intros i Iu Ic; apply (RGc i Ic); exact Iu|].
    split; [intros i I; apply in_app_or in I as [I|I]; [now apply RG|apply (RGc i I)]|].
    split; [intros q; rewrite off_sum_app, BA, HB, EV; lia|].
    split.
    + rewrite map_app, zsum_app, SU, off_sum_app. f_equal. cbn [map zsum fold_right]. rewrite Z.add_0_r. exact HG.
    + intros K' I. apply in_app_or in I as [I|[<-|[]]]; [now apply RO|]. exists a, K0, v. auto.
Qed.

(** All results are closed, and sums over their segments are those over all slices. *)
Theorem stitched_loops chains Ks : all_chained path next choice true eps chains Ks -> Permutation (concat chains) (seq 0 (length slices)) ->
  let rs := offset_results slices true eps join Ks in
  Forall (fun r => is_closed r = true /\ (2 <= vertex_count r)%nat /\ forall pr, In pr (spec_segs (vtx r) true) -> Q pr) rs
  /\ zsum (map (fun r => zsum (map g (spec_segs (vtx r) true))) rs) = zsum (map G slices).
Proof.
  intros H P rs. destruct (all_chained_ok chains Ks H) as (_ & _ & _ & SU & HK). rewrite (off_sum_perm _ _ _ P), off_sum_all in SU. rewrite <- SU.
  assert (X : exists e, 0 < e /\ rs = map (close_path true e) Ks).
  { assert (Y : forall l, incl l Ks -> flat_map (offset_result true eps) l = map (close_path true eps) l).
    { induction l as [|K l IH]; intros Il; [reflexivity|]. cbn [flat_map map]. rewrite IH by (intros x Ix; apply Il; now right).
      destruct (HK K (Il K (or_introl eq_refl))) as (a & K0 & v & -> & EV & HQ). rewrite (proj2 (close_made a K0 v eps epos EV HQ)). reflexivity. }
    unfold rs, offset_results. destruct slices as [|d [|d' t]].
    - exists eps. split; [exact epos|]. apply Y. apply incl_refl.
    - exists join. split; [exact jpos|reflexivity].
    - exists eps. split; [exact epos|]. apply Y. apply incl_refl. }
  destruct X as (e & He & ->). clear SU H P. split.
  - apply Forall_map, Forall_forall. intros K I. destruct (HK K I) as (a & K0 & v & -> & EV & HQ).
    destruct (proj1 (close_made a K0 v e He EV HQ)) as (A & B & C & _). auto.
  - induction Ks as [|K l IH]; [reflexivity|]. cbn [map zsum fold_right].
    fold (zsum (map (fun r => zsum (map g (spec_segs (vtx r) true))) (map (close_path true e) l))) (zsum (map (fun K => zsum (map g (pairs K))) l)).
    rewrite IH by (intros x Ix; apply HK; now right). f_equal.
    destruct (HK K (or_introl eq_refl)) as (a & K0 & v & -> & EV & HQ).
    destruct (proj1 (close_made a K0 v e He EV HQ)) as (_ & _ & _ & D). exact D.
Qed.
End OffStitch.
