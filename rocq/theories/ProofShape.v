(** Shapes (C37): building and index bounds. *)
From Coq Require Import List Bool Arith Permutation Sorted Lia.
From Verif Require Import Num Res ModelMath ModelSeg ModelPline ModelView ModelIndex ModelIntersects ModelBoolean ModelOffset ModelShape.
From Verif Require Import Spec SpecPline SpecView SpecIndex SpecChain SpecShape.
From Verif Require Import ProofBase ProofIter ProofIndex2 ProofOffsetTotal.
Import ListNotations.

Section Shape.
Context {T : Type} {N : Num T}.

Lemma spec_segs_none {A} (l : list A) c : spec_segs l c = [] <-> length l < 2.
Proof.
  destruct l as [|a [|b t]]; cbn; split; intros; try lia; try reflexivity; try discriminate.
Qed.

Lemma area_total (p : pline T) : exists a, area p = Ret a.
Proof.
  unfold area. rewrite iter_segments_spec. cbn [rbind]. destruct (is_closed p); cbn [negb]; eexists; reflexivity.
Qed.

Lemma orientation_ccw (p : pline T) : exists o, orientation p = Ret o /\ orientation_eqb o CounterClockwise = loop_ccw p.
Proof.
  unfold orientation, loop_ccw, negative. destruct (is_closed p); [|exists Open; split; reflexivity]. cbn [negb andb].
  destruct (area_total p) as (a & ->). cbn [rbind]. destruct (nltb a nzero); eexists; split; reflexivity.
Qed.

Lemma bounds_none (ip : indexed_pline T) : has_index ip -> index_bounds (ip_index ip) = None <-> vertex_count (ip_pline ip) < 2.
Proof.
  intros (E & _). unfold index_bounds. rewrite E. unfold vertex_count. rewrite <- (spec_segs_none _ (is_closed (ip_pline ip))).
  destruct (spec_segs _ _); cbn [map]; split; intros; try reflexivity; discriminate.
Qed.

Lemma bounds_some (ip : indexed_pline T) : loop_ok ip -> exists b, index_bounds (ip_index ip) = Some b.
Proof.
  intros (I & L). destruct (index_bounds (ip_index ip)) as [b|] eqn:E; [eauto|]. apply (bounds_none ip I) in E. lia.
Qed.

Section Mk.
Context (mk : list (aabb T) -> sindex T).
Hypothesis MK : makes_index mk.

Lemma indexed_new_ok (p : pline T) : exists ip, indexed_new mk p = Ret ip /\ ip_pline ip = p /\ has_index ip.
Proof.
  unfold indexed_new. unfold create_approx_aabb_index. rewrite create_index_spec. cbn [rbind]. eexists. split; [reflexivity|].
  split; [reflexivity|]. unfold has_index, pline_index. cbn [ip_pline ip_index]. apply MK.
Qed.

Lemma partition_spec (l : list (pline T)) : exists r, partition_plines mk l = Ret r
  /\ map ip_pline (fst r) = filter (fun p => (2 <=? vertex_count p) && loop_ccw p) l
  /\ map ip_pline (snd r) = filter (fun p => (2 <=? vertex_count p) && negb (loop_ccw p)) l
  /\ Forall loop_ok (fst r) /\ Forall loop_ok (snd r).
Proof.
  induction l as [|p l (r & E & E1 & E2 & F1 & F2)]; [exists ([], []); repeat split; constructor|].
  cbn [partition_plines filter]. change (1 <? vertex_count p) with (2 <=? vertex_count p).
  destruct (Nat.leb_spec 2 (vertex_count p)) as [L|L]; cbn [andb]; [|exists r; auto].
  destruct (orientation_ccw p) as (o & -> & O). destruct (indexed_new_ok p) as (ip & -> & EP & I). cbn [rbind]. rewrite E. cbn [rbind]. rewrite O.
  assert (OK : loop_ok ip) by (split; [exact I|now rewrite EP]).
  destruct (loop_ccw p); cbn [negb].
  - exists (ip :: fst r, snd r). cbn [fst snd map]. rewrite EP, E1, E2. split; [reflexivity|]. split; [reflexivity|]. split; [reflexivity|]. split; [now constructor|exact F2].
  - exists (fst r, ip :: snd r). cbn [fst snd map]. rewrite EP, E1, E2. split; [reflexivity|]. split; [reflexivity|]. split; [reflexivity|]. split; [exact F1|now constructor].
Qed.

Lemma index_of_bounds_ok (l : list (indexed_pline T)) : Forall loop_ok l ->
  exists boxes, index_of_bounds mk l = Ret (mk boxes) /\ Forall2 (fun ip b => index_bounds (ip_index ip) = Some b) l boxes.
Proof.
  intros F. unfold index_of_bounds.
  assert (G : exists boxes, rmapM (fun ip => unwrap (index_bounds (ip_index ip))) l = Ret boxes /\ Forall2 (fun ip b => index_bounds (ip_index ip) = Some b) l boxes).
  { induction F as [|ip l H F (boxes & E & R)]; [exists []; split; [reflexivity|constructor]|].
    destruct (bounds_some ip H) as (b & B). cbn [rmapM]. rewrite B. cbn [unwrap rbind]. rewrite E. cbn [rbind]. eexists. split; [reflexivity|]. constructor; auto. }
  destruct G as (boxes & -> & R). cbn [rbind]. eauto.
Qed.

Lemma index_of_bounds_panics (l : list (indexed_pline T)) : Forall has_index l -> Exists (fun ip => vertex_count (ip_pline ip) < 2) l ->
  index_of_bounds mk l = Panic UnwrapNone.
Proof.
  intros F X. unfold index_of_bounds.
  assert (G : rmapM (fun ip => unwrap (index_bounds (ip_index ip))) l = Panic UnwrapNone); [|now rewrite G].
  induction F as [|ip l H F IH]; [inversion X|]. cbn [rmapM].
  destruct (index_bounds (ip_index ip)) as [b|] eqn:B; [|reflexivity]. cbn [unwrap rbind]. rewrite IH; [reflexivity|].
  inversion X; subst; [|assumption]. apply (bounds_none ip H) in H1. congruence.
Qed.

Lemma from_plines_spec (l : list (pline T)) : exists s, shape_from_plines mk l = Ret s
  /\ map ip_pline (sh_ccw s) = filter (fun p => (2 <=? vertex_count p) && loop_ccw p) l
  /\ map ip_pline (sh_cw s) = filter (fun p => (2 <=? vertex_count p) && negb (loop_ccw p)) l
  /\ shape_ok s.
Proof.
  unfold shape_from_plines. destruct (partition_spec l) as (r & -> & E1 & E2 & F1 & F2). cbn [rbind].
  destruct (index_of_bounds_ok (fst r ++ snd r)) as (boxes & -> & B); [apply Forall_app; auto|]. cbn [rbind].
  eexists. split; [reflexivity|]. split; [exact E1|]. split; [exact E2|]. split; cbn [sh_ccw sh_cw sh_index]; [apply Forall_app; auto|].
  exists boxes. split; [exact B|apply MK].
Qed.
End Mk.
End Shape.
