(** Boolean operations on loops that do not cross (C30). *)
From Coq Require Import List Bool Arith ZArith Lia.
From Verif Require Import Num Res ModelMath ModelSeg ModelPline ModelView ModelIndex ModelIntersects ModelBoolean.
From Verif Require Import Spec SpecIndex SpecIntersects SpecJoin SpecBoolean.
From Verif Require Import ProofBase ProofIter ProofRepeat2 ProofSelf ProofFind ProofJoin.
Import ListNotations.

Section Boolean.
Context {T : Type} {N : Num T}.
Context (mk : list (aabb T) -> sindex T) (p1 p2 : pline T) (op : boolean_op) (idx : sindex T) (eps : T).

Lemma boolean_invalid : ~ (valid_loop p1 /\ valid_loop p2) ->
  polyline_boolean mk p1 p2 op idx eps = Ret (BR [] [] InvalidInput).
Proof.
  unfold valid_loop, polyline_boolean. intros H.
  destruct (Nat.ltb_spec (vertex_count p1) 2); [reflexivity|]. destruct (is_closed p1); [|reflexivity].
  destruct (Nat.ltb_spec (vertex_count p2) 2); [reflexivity|]. destruct (is_closed p2); [|reflexivity].
  exfalso. apply H. auto.
Qed.

Lemma overlap_in_range o : overlap_ok p1 p2 eps o -> in_range p1 p2 o.
Proof.
  intros (v1 & v2 & u1 & u2 & E1 & E2 & _). split.
  - destruct (seg_at_index p1 (oi_index1 o)) as (? & ? & ? & ? & ? & L); [apply nth_error_Some; congruence|exact L].
  - destruct (seg_at_index p2 (oi_index2 o)) as (? & ? & ? & ? & ? & L); [apply nth_error_Some; congruence|exact L].
Qed.

Context (boxes : list (aabb T)).
Hypothesis IO : index_of boxes idx.
Hypothesis BL : length boxes = length (spec_segs (vtx p1) (is_closed p1)).

Lemma process_total : exists bs os slices o1 o2, find_intersects p1 p2 idx eps = Ret (bs, os)
  /\ sort_and_join_overlapping_intersects os p1 p2 eps = Ret slices
  /\ orientation p1 = Ret o1 /\ orientation p2 = Ret o2
  /\ process_for_boolean p1 p2 idx eps = Ret (BInfo slices bs o1 o2).
Proof.
  destruct (find_intersects_each p1 p2 eps boxes idx IO BL) as (bs & os & E & _ & FO).
  destruct (sort_join_spec p1 p2 eps os) as (sorted & _ & _ & runs & slices & result & EJ & _).
  { eapply Forall_impl; [exact overlap_in_range|exact FO]. }
  destruct (accessors_total p1 eps (V2 eps eps)) as (_ & _ & _ & _ & _ & (o1 & E1) & _).
  destruct (accessors_total p2 eps (V2 eps eps)) as (_ & _ & _ & _ & _ & (o2 & E2) & _).
  exists bs, os, result, o1, o2. split; [exact E|]. split; [exact EJ|]. split; [exact E1|]. split; [exact E2|].
  unfold process_for_boolean. rewrite E. cbn [rbind snd fst]. rewrite EJ, E1, E2. reflexivity.
Qed.

Lemma is_in_spec (p q : pline T) v : nth_error (vtx p) 0 = Some v -> exists w, winding_number q (pos v) = Ret w
  /\ is_in p q = Ret (negb (Z.eqb w 0)).
Proof.
  intros E. destruct (accessors_total q eps (pos v)) as (_ & _ & _ & (w & W) & _). exists w. split; [exact W|].
  unfold is_in, at_, index. rewrite E. cbn [rbind]. unfold point_in_pline. rewrite W. reflexivity.
Qed.

Lemma boolean_whole : valid_loop p1 -> valid_loop p2 ->
  exists bs os slices v1 v2 w12 w21, find_intersects p1 p2 idx eps = Ret (bs, os)
  /\ sort_and_join_overlapping_intersects os p1 p2 eps = Ret slices
  /\ nth_error (vtx p1) 0 = Some v1 /\ nth_error (vtx p2) 0 = Some v2
  /\ winding_number p2 (pos v1) = Ret w12 /\ winding_number p1 (pos v2) = Ret w21
  /\ let result info := let '(ps, ns) := whole_loops op info p1 p2 in
       Ret (BR (map (fun p => BRP p []) ps) (map (fun p => BRP p []) ns) info) in
     (forall s, slices = [s] -> os_is_loop s = true -> polyline_boolean mk p1 p2 op idx eps = result Overlapping)
  /\ (bs = [] -> slices = [] -> polyline_boolean mk p1 p2 op idx eps = result (relation w12 w21)).
Proof.
  intros [V1 C1] [V2 C2]. destruct process_total as (bs & os & slices & o1 & o2 & E & EJ & _ & _ & EP).
  destruct (vtx_lt p1 0) as [v1 E1]; [lia|]. destruct (vtx_lt p2 0) as [v2 E2]; [lia|].
  destruct (is_in_spec p1 p2 v1 E1) as (w12 & W12 & I12). destruct (is_in_spec p2 p1 v2 E2) as (w21 & W21 & I21).
  exists bs, os, slices, v1, v2, w12, w21. split; [exact E|]. split; [exact EJ|]. split; [exact E1|]. split; [exact E2|].
  split; [exact W12|]. split; [exact W21|]. cbv zeta.
  unfold polyline_boolean. rewrite C1, C2.
  destruct (Nat.ltb_spec (vertex_count p1) 2); [lia|]. destruct (Nat.ltb_spec (vertex_count p2) 2); [lia|]. cbn [orb negb].
  rewrite EP. cbn [rbind]. split.
  - intros s -> L. unfold completely_overlapping. cbn [bn_overlapping]. rewrite L. destruct op; reflexivity.
  - intros -> ->. unfold completely_overlapping, any_intersects. cbn [bn_overlapping bn_intersects negb].
    rewrite I12, I21. unfold relation.
    destruct op; cbn [rbind]; destruct (negb (Z.eqb w12 0)); cbn [rbind]; try reflexivity;
    destruct (negb (Z.eqb w21 0)); reflexivity.
Qed.
End Boolean.

(** The prescribed loops give the region of the operation. *)
Lemma whole_region {T P} (ins : pline T -> P -> Prop) (op : boolean_op) info (p1 p2 : pline T) :
  related ins info p1 p2 ->
  forall x, (ins p1 x \/ ~ ins p1 x) -> (ins p2 x \/ ~ ins p2 x) ->
  (region ins (let '(ps, ns) := whole_loops op info p1 p2 in
               BR (map (fun p => BRP p []) ps) (map (fun p => BRP p []) ns) info) x
   <-> operation op (ins p1 x) (ins p2 x)).
Proof.
  intros R x D1 D2. unfold region.
  assert (EX : forall l : list (pline T), (exists a, In a (map (fun p => BRP p []) l) /\ ins (brp_pline a) x) <-> exists p, In p l /\ ins p x).
  { intros l. split.
    - intros (a & H & I). apply in_map_iff in H as (p & <- & H). eauto.
    - intros (p & H & I). exists (BRP p []). split; [apply in_map_iff; eauto|exact I]. }
  assert (O1 : forall p : pline T, (exists q, In q [p] /\ ins q x) <-> ins p x).
  { intros p. split; [intros (q & [<-|[]] & I); exact I|]. intros I. exists p. cbn. auto. }
  assert (O2 : forall p q : pline T, (exists r, In r [p; q] /\ ins r x) <-> ins p x \/ ins q x).
  { intros p q. split; [intros (r & [<-|[<-|[]]] & I); auto|]. intros [I|I]; eexists; cbn; eauto. }
  assert (O0 : (exists p : pline T, In p [] /\ ins p x) <-> False).
  { split; [intros (p & [] & _)|intros []]. }
  destruct info; cbn [related] in R; try contradiction; destruct op; cbn [whole_loops br_pos br_neg operation];
    rewrite !EX, ?O1, ?O2, ?O0; try (specialize (R x)); tauto.
Qed.
