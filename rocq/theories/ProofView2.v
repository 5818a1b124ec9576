(** Lemmas about whole-polyline and new-start views (C27). *)
From Coq Require Import List Arith Bool Lia.
From Verif Require Import Num Res ModelMath ModelSeg ModelPline ModelView Spec SpecPline SpecView
  ProofBase ProofIter ProofInvert ProofView.
Import ListNotations.

Section View2.
Context {T : Type} {N : Num T}.
Implicit Types p : pline T.

Lemma seg_data_ext (l l' : list (vertex T)) c c' :
  length (spec_segs l c) = length (spec_segs l' c') ->
  (forall i, i < length (spec_segs l c) -> exists a b a' b',
     nth_error l i = Some a /\ nth_error l ((i + 1) mod length l) = Some b
     /\ nth_error l' i = Some a' /\ nth_error l' ((i + 1) mod length l') = Some b'
     /\ position a = position a' /\ pbulge a = pbulge a' /\ position b = position b') ->
  map seg_data (spec_segs l c) = map seg_data (spec_segs l' c').
Proof.
  intros HL H. apply nth_error_ext. intros i.
  destruct (Nat.ltb_spec i (length (spec_segs l c))) as [Hi|Hi].
  2:{ rewrite !(proj2 (nth_error_None _ i)) by (rewrite map_length; lia). reflexivity. }
  destruct (H i Hi) as (a & b & a' & b' & A1 & B1 & A2 & B2 & P1 & P2 & P3).
  destruct (spec_segs_nth l c i Hi) as (x & y & X1 & X2 & X3).
  destruct (spec_segs_nth l' c' i) as (x' & y' & Y1 & Y2 & Y3); [lia|].
  rewrite (map_nth_error _ _ _ X1), (map_nth_error _ _ _ Y1). f_equal.
  assert (x = a) by congruence. assert (y = b) by congruence.
  assert (x' = a') by congruence. assert (y' = b') by congruence. subst.
  unfold seg_data. cbn [fst snd]. unfold position in *. congruence.
Qed.

Lemma entire_view_spec p : 2 <= vertex_count p ->
  exists d l, view_from_entire_pline p = Ret d /\ view_vertexes d p = Ret l
    /\ vd_start_index d < vertex_count p /\ vd_end_index_offset d <= vertex_count p
    /\ vd_inverted d = false
    /\ (vd_end_index_offset d = 0 -> vd_updated_end_bulge d = pbulge (vd_updated_start d))
    /\ map seg_data (spec_segs l false) = map seg_data (spec_segs (vtx p) (is_closed p)).
Proof.
  intros H2. unfold view_from_entire_pline.
  destruct (Nat.ltb_spec (vertex_count p) 2); [lia|].
  set (n := vertex_count p) in *.
  destruct (nth_error_some (vtx p) 0) as [v0 H0]; [fold (vertex_count p); lia|].
  destruct (nth_error_some (vtx p) (n - 1)) as [vl Hl]; [fold (vertex_count p); lia|].
  destruct (nth_error_some (vtx p) (n - 2)) as [vk Hk]; [fold (vertex_count p); lia|].
  rewrite (at_ok p 0 v0 H0). cbn [rbind].
  assert (HS := spec_segs_length (vtx p) (is_closed p)). fold (vertex_count p) in HS. fold n in HS.
  destruct (Nat.ltb_spec n 2); [lia|].
  destruct (is_closed p) eqn:C.
  - unfold last_. rewrite usub_ok by (fold n; lia). cbn [rbind]. unfold get. fold n. rewrite Hl.
    cbn [unwrap rbind].
    set (d := VD 0 (n - 1) v0 (pbulge vl) (pos v0) false).
    destruct (view_forward_spec d p) as (_ & HV & HLen); [simpl; fold n; lia|simpl; fold n; lia|reflexivity|].
    exists d, (fwd_list d p).
    split; [reflexivity|]. split; [exact HV|]. split; [simpl; fold n; lia|]. split; [simpl; fold n; lia|].
    split; [reflexivity|]. split; [cbn [d vd_end_index_offset]; lia|]. cbn [vd_end_index_offset d] in HLen.
    assert (HS' := spec_segs_length (fwd_list d p) false). rewrite HLen in HS'.
    destruct (Nat.ltb_spec (n - 1 + 2) 2); [lia|].
    assert (HN : forall i, nth_error (fwd_list d p) i = _)
      by (intros i; apply fwd_list_nth; simpl; fold n; lia).
    cbn [vd_start_index vd_end_index_offset vd_updated_start vd_updated_end_bulge vd_end_point d] in HN. fold n in HN.
    assert (HE : forall i v, i < n -> nth_error (vtx p) i = Some v ->
              exists v', nth_error (fwd_list d p) i = Some v' /\ v' = v).
    { intros i v Hi Hv. rewrite HN. destruct (Nat.eqb_spec i 0) as [->|E].
      - exists v0. split; congruence.
      - destruct (Nat.leb_spec i (n - 1)); [|lia]. simpl Nat.add. rewrite Nat.mod_small, Hv by lia.
        destruct (Nat.eqb_spec i (n - 1)) as [E2|E2]; eexists; split; [reflexivity| |reflexivity|reflexivity].
        assert (v = vl) by congruence. subst v. destruct vl; reflexivity. }
    apply seg_data_ext; [lia|]. intros i Hi. rewrite HS' in Hi.
    destruct (nth_error_some (vtx p) i) as [a Ha]; [fold (vertex_count p); fold n; lia|].
    destruct (HE i a) as (a' & Ha' & ->); [lia|exact Ha|].
    rewrite HLen. fold (vertex_count p). fold n.
    rewrite (Nat.mod_small (i + 1) (n - 1 + 2)) by lia.
    destruct (Nat.eq_dec (i + 1) n) as [E|E].
    + exists a, (Vtx (px v0) (py v0) nzero), a, v0.
      split; [exact Ha'|]. split.
      { rewrite HN. destruct (Nat.eqb_spec (i + 1) 0); [lia|]. destruct (Nat.leb_spec (i + 1) (n - 1)); [lia|].
        destruct (Nat.eqb_spec (i + 1) (n - 1 + 1)); [reflexivity|lia]. }
      split; [exact Ha|]. split; [rewrite E, Nat.mod_same by lia; exact H0|]. repeat split.
    + destruct (nth_error_some (vtx p) (i + 1)) as [b Hb]; [fold (vertex_count p); fold n; lia|].
      destruct (HE (i + 1) b) as (b' & Hb' & ->); [lia|exact Hb|].
      exists a, b, a, b. rewrite Nat.mod_small by lia. auto 10.
  - rewrite (at_ok p _ vk Hk). cbn [rbind]. rewrite (at_ok p _ vl Hl). cbn [rbind].
    set (d := VD 0 (n - 2) v0 (pbulge vk) (pos vl) false).
    destruct (view_forward_spec d p) as (_ & HV & HLen); [simpl; fold n; lia|simpl; fold n; lia|reflexivity|].
    exists d, (fwd_list d p).
    split; [reflexivity|]. split; [exact HV|]. split; [simpl; fold n; lia|]. split; [simpl; fold n; lia|].
    split; [reflexivity|]. split; [intros Z0; cbn [d vd_end_index_offset vd_updated_end_bulge vd_updated_start] in *; replace (n - 2) with 0 in Hk by lia; congruence|]. cbn [vd_end_index_offset d] in HLen.
    assert (HS' := spec_segs_length (fwd_list d p) false). rewrite HLen in HS'.
    destruct (Nat.ltb_spec (n - 2 + 2) 2); [lia|].
    assert (HN : forall i, nth_error (fwd_list d p) i = _)
      by (intros i; apply fwd_list_nth; simpl; fold n; lia).
    cbn [vd_start_index vd_end_index_offset vd_updated_start vd_updated_end_bulge vd_end_point d] in HN. fold n in HN.
    assert (HE : forall i v, i < n - 1 -> nth_error (vtx p) i = Some v ->
              exists v', nth_error (fwd_list d p) i = Some v' /\ v' = v).
    { intros i v Hi Hv. rewrite HN. destruct (Nat.eqb_spec i 0) as [->|E].
      - exists v0. split; congruence.
      - destruct (Nat.leb_spec i (n - 2)); [|lia]. simpl Nat.add. rewrite Nat.mod_small, Hv by lia.
        destruct (Nat.eqb_spec i (n - 2)) as [E2|E2]; eexists; split; [reflexivity| |reflexivity|reflexivity].
        assert (v = vk) by congruence. subst v. destruct vk; reflexivity. }
    apply seg_data_ext; [lia|]. intros i Hi. rewrite HS' in Hi.
    destruct (nth_error_some (vtx p) i) as [a Ha]; [fold (vertex_count p); fold n; lia|].
    destruct (HE i a) as (a' & Ha' & ->); [lia|exact Ha|].
    rewrite HLen. fold (vertex_count p). fold n.
    rewrite (Nat.mod_small (i + 1) (n - 2 + 2)), (Nat.mod_small (i + 1) n) by lia.
    destruct (Nat.eq_dec (i + 1) (n - 1)) as [E|E].
    + exists a, (Vtx (px vl) (py vl) nzero), a, vl.
      split; [exact Ha'|]. split.
      { rewrite HN. destruct (Nat.eqb_spec (i + 1) 0); [lia|]. destruct (Nat.leb_spec (i + 1) (n - 2)); [lia|].
        destruct (Nat.eqb_spec (i + 1) (n - 2 + 1)); [reflexivity|lia]. }
      split; [exact Ha|]. split; [rewrite E; exact Hl|]. repeat split.
    + destruct (nth_error_some (vtx p) (i + 1)) as [b Hb]; [fold (vertex_count p); fold n; lia|].
      destruct (HE (i + 1) b) as (b' & Hb' & ->); [lia|exact Hb|].
      exists a, b, a, b. auto 10.
Qed.

End View2.
