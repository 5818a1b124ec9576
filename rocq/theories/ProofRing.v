(** Offsets of shapes whose offset loops do not meet (C73). *)
From Coq Require Import List Bool Arith Permutation Lia.
From Verif Require Import Num Res ModelMath ModelSeg ModelPline ModelView ModelIndex ModelIntersects ModelBoolean ModelOffset ModelShape.
From Verif Require Import Spec SpecPline SpecView SpecIndex SpecStitch SpecIntersects SpecChain SpecShape SpecRing.
From Verif Require Import ProofBase ProofView ProofView2 ProofIndex2 ProofShape ProofShape2 ProofShape3 ProofShape4 ProofShape5 ProofShape6.
Import ListNotations.

Section Apart.
Context {T : Type} {N : Num T}.

Lemma chains_of_none path next choice replace (eps : T) chains Ks : all_chained path next choice replace eps chains Ks ->
  concat chains = [] -> Ks = [].
Proof. intros H E. inversion H as [|ch Ks' first c cur K H1 H2 H3 H4 H5]; [reflexivity|]. subst. rewrite concat_app in E. cbn [concat] in E. rewrite app_nil_r in E. apply app_eq_nil in E as (_ & E). destruct c; discriminate. Qed.

Lemma seg_midpoint_data (v0 v1 w0 w1 : vertex T) : seg_data (v0, v1) = seg_data (w0, w1) -> seg_midpoint v0 v1 = seg_midpoint w0 w1.
Proof. destruct v0, v1, w0, w1. unfold seg_data. cbn. intros E. injection E as -> -> -> -> ->. reflexivity. Qed.

(** The whole view of a loop begins with its first segment. *)
Lemma entire_first (p : pline T) d v0 v1 t : 2 <= vertex_count p -> view_from_entire_pline p = Ret d -> view_path_of p d = v0 :: v1 :: t ->
  exists w0 w1 t', spec_segs (vtx p) (is_closed p) = (w0, w1) :: t' /\ seg_midpoint v0 v1 = seg_midpoint w0 w1.
Proof.
  intros H2 E V. destruct (entire_view_spec p H2) as (d' & l & E' & VL & F1 & F2 & F3 & F4 & F5). rewrite E in E'. injection E' as <-.
  destruct (view_forward_spec d p F1 F2 F3) as (G & VV & L).
  assert (EL : l = view_path_of p d) by (rewrite VV in VL; injection VL as <-; reflexivity).
  rewrite EL, V in F5. destruct (spec_segs (vtx p) (is_closed p)) as [|(w0, w1) t'] eqn:ES.
  - cbn in F5. discriminate.
  - exists w0, w1, t'. split; [reflexivity|]. apply seg_midpoint_data. cbn in F5. injection F5 as A B. unfold seg_data. cbn [fst snd]. congruence.
Qed.

Lemma passes_whole inputs offset o (x : nat * pline T) d b : 2 <= vertex_count (snd x) -> view_from_entire_pline (snd x) = Ret d ->
  passes inputs offset o (snd x) (fst x) d b -> (b = true <-> clear_start inputs offset o x).
Proof.
  intros H2 E (v0 & v1 & t & V & B). destruct (entire_first (snd x) d v0 v1 t H2 E V) as (w0 & w1 & t' & ES & EM). rewrite B, EM.
  split; intros H.
  - intros a0 a1 t0 k ip E0 Hk NK. rewrite ES in E0. injection E0 as <- <- <-. now apply (H k).
  - intros k ip Hk NK. now apply (H w0 w1 t' k ip).
Qed.

Lemma cuts_none (meet : nat -> nat -> list (basic_intr T)) n i : i < n -> (forall i j, i < n -> j < n -> i <> j -> meet i j = []) -> cuts_of meet n i = [].
Proof.
  intros Hi H. unfold cuts_of. assert (G : forall l, (forall j, In j l -> j < n) -> flat_map (fun j => if j <? i then map (fun b => (bi_index2 b, bi_point b)) (meet j i)
     else if i <? j then map (fun b => (bi_index1 b, bi_point b)) (meet i j) else []) l = []).
  { induction l as [|j l IH]; intros L; [reflexivity|]. cbn [flat_map]. rewrite IH by (intros; apply L; now right). rewrite app_nil_r.
    pose proof (L j (or_introl eq_refl)). destruct (Nat.ltb_spec j i); [rewrite H by lia; reflexivity|]. destruct (Nat.ltb_spec i j); [rewrite H by lia; reflexivity|reflexivity]. }
  apply G. intros j I. apply in_seq in I. lia.
Qed.

Lemma numbered_none {A} (ls : list (list A)) : Forall (fun l => l = []) ls -> numbered ls = [].
Proof.
  intros H. change (@numbered A) with (@numbered_from A 0). generalize 0. induction H as [|l ls E F IH]; intros k; [reflexivity|]. rewrite numbered_from_cons, E. cbn. apply IH.
Qed.

Lemma marked_snd {A B} (l : list (A * B)) fs : map snd (marked l fs) = marked (map snd l) fs.
Proof.
  unfold marked. revert fs. induction l as [|a l IH]; intros [|f fs]; [reflexivity..|]. cbn [combine map filter snd]. destruct f; cbn [map fst]; [f_equal|]; apply IH.
Qed.

Lemma whole_marked (outs : list (nat * pline T)) rs : whole_loops outs rs = marked (map snd outs) (map fst rs).
Proof.
  unfold whole_loops, marked. revert rs. induction outs as [|a l IH]; intros [|f fs]; [reflexivity..|]. cbn [combine map filter snd fst]. destruct (fst f); cbn [map fst]; [f_equal|]; apply IH.
Qed.

Lemma forall2_nth {A B} (P : A -> B -> Prop) l m : length l = length m -> (forall i a b, nth_error l i = Some a -> nth_error m i = Some b -> P a b) -> Forall2 P l m.
Proof.
  revert m. induction l as [|a l IH]; intros [|b m] E H; try discriminate; constructor.
  - apply (H 0); reflexivity.
  - apply IH; [now injection E|]. intros i x y Hx Hy. apply (H (S i)); assumption.
Qed.

Theorem shape_apart mk (s : shape T) offset o rss : makes_index mk -> shape_ok s ->
  Forall2 (fun ip rs => parallel_offset mk (ip_pline ip) (ip_index ip) offset
      (OO (so_pos_equal_eps o) (so_slice_join_eps o) (so_offset_dist_eps o) false) = Ret rs) (sh_ccw s ++ sh_cw s) rss ->
  let outs := outlines (length (sh_ccw s)) offset rss in
  Forall (fun x => 2 <= vertex_count (snd x)) outs -> never_meet (so_pos_equal_eps o) (map snd outs) ->
  exists fs r, Forall2 (fun x f => f = true <-> clear_start (sh_ccw s ++ sh_cw s) offset o x) outs fs
  /\ shape_parallel_offset mk s offset o = Ret r /\ shape_ok r
  /\ map ip_pline (sh_ccw r) = filter (fun p => negb (negative p)) (marked (map snd outs) fs)
  /\ map ip_pline (sh_cw r) = filter negative (marked (map snd outs) fs).
Proof.
  intros MK OK F outs TWO NM. destruct (shape_offset_spec mk MK s offset o (proj1 OK)) as (rss' & F' & SP). cbv zeta in SP.
  assert (rss' = rss) as ->.
  { clear - F F'. revert rss F. induction F' as [|ip rs l rs' E F' IH]; intros rss F; inversion F; subst; [reflexivity|]. f_equal; [congruence|]. now apply IH. }
  fold outs in SP. destruct SP as (S0 & _ & S2). destruct outs as [|x0 outs'] eqn:EO.
  - destruct (S0 eq_refl) as (r & E & K & E1 & E2). exists [], r. split; [constructor|]. split; [exact E|]. split; [exact K|]. rewrite E1, E2. split; reflexivity.
  - rewrite <- EO in *. assert (NE : outs <> []) by (rewrite EO; discriminate). destruct (S2 NE TWO) as (rs & Ks & (loops & meet & chains & FL & MT & LR & RES & AC & PM) & _ & RET).
    assert (NOM : forall i j, i < length outs -> j < length outs -> i <> j -> meet i j = []).
    { intros i j Hi Hj NEij. destruct (MT i j Hi Hj) as (li & lj & bi & bj & Ei & Ej & _ & _ & M). destruct (aabb_overlaps bj bi); [|exact M]. destruct M as (bs & os & FI & ->).
      destruct (nth_error outs i) as [xi|] eqn:Xi; [|apply nth_error_None in Xi; lia]. destruct (nth_error outs j) as [xj|] eqn:Xj; [|apply nth_error_None in Xj; lia].
      assert (AT : forall k x l, nth_error outs k = Some x -> nth_error loops k = Some l -> ip_pline l = snd x /\ loop_ok l).
      { intros k x l Hx Hl. clear - FL Hx Hl. revert k Hx Hl. induction FL as [|a b l1 l2 H FL IH]; intros [|k] Hx Hl; try discriminate; cbn in Hx, Hl; [injection Hx as <-; injection Hl as <-; exact H|eauto]. }
      destruct (AT i xi li Xi Ei) as (Pi & (Ii & _)). destruct (AT j xj lj Xj Ej) as (Pj & _). 
      pose proof (NM i j (snd xi) (snd xj) (ip_index li) (map_nth_error snd i outs Xi) (map_nth_error snd j outs Xj) NEij) as Q. rewrite <- Pi, <- Pj in Q. rewrite (Q Ii) in FI. injection FI as <- <-. reflexivity. }
    assert (RES' : forall i x r, nth_error outs i = Some x -> nth_error rs i = Some r -> snd r = [] /\ (fst r = true <-> clear_start (sh_ccw s ++ sh_cw s) offset o x)).
    { intros i x r Hx Hr. assert (Hi : i < length outs) by (apply nth_error_Some; congruence). specialize (RES i x r Hx Hr). unfold loop_result in RES. rewrite (cuts_none meet (length outs) i Hi NOM) in RES.
      destruct RES as (E & d & EV & PS). split; [exact E|]. eapply passes_whole; [|exact EV|exact PS]. rewrite Forall_forall in TWO. apply TWO. eapply nth_error_In; exact Hx. }
    assert (SN : numbered (map snd rs) = []).
    { apply numbered_none. apply Forall_forall. intros l I. apply in_map_iff in I as (r & <- & I). apply In_nth_error in I as (i & Hi).
      assert (Li : i < length outs) by (rewrite <- LR; apply nth_error_Some; congruence). destruct (nth_error outs i) as [x|] eqn:Ex; [|apply nth_error_None in Ex; lia]. apply (RES' i x r Ex Hi). }
    cbv zeta in AC, PM. rewrite SN in AC, PM. cbn [length seq] in PM. apply Permutation_sym, Permutation_nil in PM. pose proof (chains_of_none _ _ _ _ _ _ _ AC PM) as ->.
    destruct (RET (Forall_nil _)) as (r & E & K & S1 & S3). exists (map fst rs), r. split; [|split; [exact E|split; [exact K|]]].
    + apply forall2_nth; [now rewrite map_length|]. intros i x f Hx Hf. rewrite nth_error_map in Hf. destruct (nth_error rs i) as [rr|] eqn:Er; [|discriminate]. injection Hf as <-. apply (RES' i x rr Hx Er).
    + rewrite S1, S3. cbn [map filter]. rewrite !app_nil_r, whole_marked. split; reflexivity.
Qed.
End Apart.
