(** What offsetting takes and gives (C36). *)
From Coq Require Import Bool List Arith Lia PrimFloat.
From Verif Require Import Num FNum Res ModelMath ModelSeg ModelPline ModelView ModelIndex ModelOffset.
From Verif Require Import Spec SpecPline SpecIndex SpecStitch SpecChain.
From Verif Require Import ProofBase ProofRepeat ProofIndex2 ProofStitch ProofOffset2 ProofChain ProofOffsetTotal TestUtil.
Import ListNotations.
Set Warnings "-inexact-float".

Section Contract.
Context {T : Type} {N : Num T}.

Lemma all_chained_paths (path : nat -> list (vertex T) -> Prop) next choice replace eps chains Ks : (forall i l, path i l -> l <> []) ->
  all_chained (T := T) path next choice replace eps chains Ks ->
  Forall (fun K => (exists K' v, K = K' ++ [v]) /\ no_repeat (close_by eps) K) Ks /\ length Ks = length chains.
Proof.
  intros NE H. induction H as [|chains Ks first c cur K H [IH IL] NI LT CH CA]; [split; [constructor|reflexivity]|].
  split; [|rewrite !app_length, IL; reflexivity].
  apply Forall_app. split; [exact IH|]. constructor; [|constructor]. eapply chained_ends; [exact NE|exact CH].
Qed.

Lemma path_at_nonempty (raw : pline T) slices i l : path_at raw slices i l -> l <> [].
Proof. intros (d & _ & ->). apply view_path_nonempty. Qed.

(** Closing a path: it stays open for open input, keeps its vertexes but perhaps the last. *)
Lemma close_path_facts closed eps K' (v : vertex T) : let r := close_path closed eps (K' ++ [v]) in
  (closed = false -> is_closed r = false) /\ (vtx r = K' ++ [v] \/ (vtx r = K' /\ is_closed r = true /\
     exists a, hd_error (K' ++ [v]) = Some a /\ v2fuzzy_eq_eps (pos a) (pos v) eps = true)).
Proof.
  cbv zeta. unfold close_path. rewrite rev_unit. cbn [hd_error]. destruct (hd_error (K' ++ [v])) as [a|] eqn:E; [|cbn; auto].
  destruct closed; cbn [andb]; [|cbn; auto]. destruct (v2fuzzy_eq_eps _ _ _) eqn:F; [|cbn; auto]. cbn [vtx is_closed]. split; [discriminate|].
  right. rewrite removelast_snoc. split; [reflexivity|]. split; [reflexivity|]. exists a. auto.
Qed.

Lemma close_path_two closed eps K' (v : vertex T) : no_repeat (close_by eps) (K' ++ [v]) -> 2 <= length (K' ++ [v]) ->
  2 <= vertex_count (close_path closed eps (K' ++ [v])).
Proof.
  intros NR L. destruct (close_path_facts closed eps K' v) as (_ & [E|(E & _ & a & HA & F)]); unfold vertex_count; rewrite E; [exact L|].
  rewrite app_length in L. cbn in L. destruct K' as [|x [|y t]]; cbn in L |- *; try lia.
  cbn in HA. injection HA as ->. specialize (NR 0 a v eq_refl eq_refl). unfold close_by in NR. congruence.
Qed.

Lemma no_repeat_closed closed eps e2 K' (v : vertex T) : no_repeat (close_by eps) (K' ++ [v]) -> no_repeat (close_by eps) (vtx (close_path closed e2 (K' ++ [v]))).
Proof.
  intros NR. destruct (close_path_facts closed e2 K' v) as (_ & [E|(E & _)]); rewrite E; [exact NR|]. eapply no_repeat_front; exact NR.
Qed.

Lemma offset_results_ok (slices : list (view_data T)) closed eps join (Ks : list (list (vertex T))) :
  Forall (fun K => (exists K' v, K = K' ++ [v]) /\ no_repeat (close_by eps) K) Ks -> (length slices = 1 -> length Ks <= 1) ->
  forall r, In r (offset_results slices closed eps join Ks) ->
    (closed = false -> is_closed r = false) /\ no_repeat (close_by eps) (vtx r)
    /\ (2 <= vertex_count r \/ offset_results slices closed eps join Ks = [r]).
Proof.
  intros F ONE r Hr. rewrite Forall_forall in F. unfold offset_results in *.
  assert (G : In r (flat_map (offset_result closed eps) Ks) ->
    (closed = false -> is_closed r = false) /\ no_repeat (close_by eps) (vtx r) /\ 2 <= vertex_count r).
  { intros H. apply in_flat_map in H as (K & HK & H). destruct (F K HK) as ((K' & v & ->) & NR).
    unfold offset_result in H. destruct (Nat.leb_spec 2 (length (K' ++ [v]))) as [L|L]; [|destruct H]. destruct H as [<-|[]].
    split; [apply (close_path_facts closed eps K' v)|]. split; [now apply no_repeat_closed|now apply close_path_two]. }
  destruct slices as [|s [|s2 t]].
  - destruct (G Hr) as (A & B & C). auto.
  - specialize (ONE eq_refl). destruct Ks as [|K [|K2 Kt]]; [destruct Hr| |cbn in ONE; lia].
    cbn [map] in *. destruct Hr as [<-|[]]. destruct (F K (or_introl eq_refl)) as ((K' & v & ->) & NR).
    split; [apply (close_path_facts closed join K' v)|]. split; [now apply no_repeat_closed|auto].
  - destruct (G Hr) as (A & B & C). auto.
Qed.


Lemma chained_nonempty path next choice replace eps chains Ks : all_chained (T := T) path next choice replace eps chains Ks -> Forall (fun c => 0 < length c) chains.
Proof.
  induction 1 as [|chains Ks first c cur K H IH NI LT CH CA]; [constructor|]. apply Forall_app. split; [exact IH|].
  constructor; [|constructor]. rewrite app_length. cbn. lia.
Qed.

Lemma concat_len (chains : list (list nat)) : Forall (fun c => 0 < length c) chains -> length chains <= length (concat chains).
Proof. induction 1 as [|c t H F IH]; cbn; [lia|]. rewrite app_length. lia. Qed.

Lemma parallel_offset_contract mk (p : pline T) boxes idx offset o : makes_index mk -> index_of boxes idx ->
  length boxes = length (spec_segs (vtx p) (is_closed p)) ->
  exists rs, parallel_offset mk p idx offset o = Ret rs
  /\ (vertex_count p < 2 -> rs = [])
  /\ (create_raw_offset_polyline p offset (oo_pos_equal_eps o) = Ret empty_pline -> rs = [])
  /\ forall r, In r rs -> (is_closed p = false -> is_closed r = false)
       /\ no_repeat (close_by (oo_pos_equal_eps o)) (vtx r)
       /\ (2 <= vertex_count r \/ rs = [r]).
Proof.
  intros MK IO BL. destruct (Nat.ltb_spec (vertex_count p) 2) as [L|L].
  { exists []. unfold parallel_offset. destruct (Nat.ltb_spec (vertex_count p) 2); [|lia]. repeat split; auto; intros; contradiction. }
  destruct (parallel_offset_stitched mk p idx boxes offset o MK IO BL L) as (raw & ER & [(R0 & E)|(R2 & slices & last & chains & Ks & E & C & P & _)]).
  { exists []. split; [exact E|]. repeat split; auto; intros; contradiction. }
  exists (offset_results slices (is_closed p) (oo_pos_equal_eps o) (oo_slice_join_eps o) Ks). split; [exact E|].
  split; [lia|]. split; [intros X; rewrite ER in X; injection X as ->; cbn in R2; lia|].
  destruct (all_chained_paths _ _ _ _ _ _ _ (path_at_nonempty raw slices) C) as [F FL].
  apply offset_results_ok; [exact F|]. intros O. rewrite FL. apply Permutation.Permutation_length in P. rewrite seq_length, O in P.
  pose proof (concat_len chains (chained_nonempty _ _ _ _ _ _ _ C)). lia.
Qed.

Lemma parallel_offset_constructed_contract mk (p : pline T) offset o : makes_index mk ->
  exists rs, parallel_offset_constructed mk p offset o = Ret rs
  /\ (vertex_count p < 2 -> rs = [])
  /\ (create_raw_offset_polyline p offset (oo_pos_equal_eps o) = Ret empty_pline -> rs = [])
  /\ forall r, In r rs -> (is_closed p = false -> is_closed r = false)
       /\ no_repeat (close_by (oo_pos_equal_eps o)) (vtx r)
       /\ (2 <= vertex_count r \/ rs = [r]).
Proof.
  intros MK. unfold parallel_offset_constructed, create_approx_aabb_index. rewrite create_index_spec. cbn [rbind].
  destruct (Nat.ltb_spec (vertex_count p) 2) as [L|L]; [exists []; repeat split; auto; intros; contradiction|].
  eapply parallel_offset_contract; [exact MK|apply MK|apply map_length].
Qed.
End Contract.

(** ** Polylines with too few vertexes *)
Section Few.
Local Open Scope float_scope.

(** A single slice whose ends are within the join epsilon of each other is closed, and loses its last vertex. *)
Definition few_one : pline float := PL [Vtx 0 5 0; Vtx 6 8 (-1); Vtx 7 8 0.5; Vtx 1 1 1] true.
Lemma few_one_run : (let! rs := parallel_offset_constructed (@list_index float _) few_one (-0.25) (OO 1e-5 0.5 0 false) in
  Ret (map (fun r => (vertex_count r, is_closed r)) rs)) = Ret [(1%nat, true)].
Proof. vm_compute. reflexivity. Qed.

Definition few_none : pline float := PL [Vtx 8 3 (-1); Vtx 8 6 0; Vtx 7 2 0] true.
Lemma few_none_run : (let! rs := parallel_offset_constructed (@list_index float _) few_none (-1) (OO 1 1e-4 0.5 false) in
  Ret (map (fun r => (vertex_count r, is_closed r)) rs)) = Ret [(0%nat, true)].
Proof. vm_compute. reflexivity. Qed.

(** The last vertex of a closed result may be at the position of the first, within the epsilon. *)
Definition few_wrap : pline float := PL [Vtx 6 5 0; Vtx 5 5 0; Vtx 6 0 (-1); Vtx 5 6 0; Vtx 2 1 0.25; Vtx 0 0 0] true.
Lemma few_wrap_run : (let! rs := parallel_offset_constructed (@list_index float _) few_wrap 3 (OO 0.25 1e-4 0.5 true) in
  Ret (map (fun r => match vtx r, rev (vtx r) with a :: _ :: _, z :: _ => is_closed r && v2fuzzy_eq_eps (pos z) (pos a) 0.25 | _, _ => false end) rs)) = Ret [false; false; true; false; false].
Proof. vm_compute. reflexivity. Qed.
End Few.

Lemma rmap_In {A B} (m : res (list A)) (f : A -> B) l b : (let! rs := m in Ret (map f rs)) = Ret l -> In b l ->
  exists rs r, m = Ret rs /\ In r rs /\ f r = b.
Proof.
  destruct m as [rs|]; cbn [rbind]; [|discriminate]. intros [= <-] H. apply in_map_iff in H as (r & E & H). eauto.
Qed.

Lemma few_refuted : exists (p : pline float) offset o rs r,
  parallel_offset_constructed (@list_index float _) p offset o = Ret rs /\ In r rs /\ vertex_count r = 1 /\ is_closed r = true.
Proof.
  exists few_one, (-0.25)%float, (OO 1e-5 0.5 0 false)%float.
  destruct (rmap_In _ _ _ (1, true) few_one_run (or_introl eq_refl)) as (rs & r & E & H & F). injection F as F1 F2.
  exists rs, r. split; [exact E|]. split; [exact H|]. split; [exact F1|exact F2].
Qed.

Lemma none_refuted : exists (p : pline float) offset o rs r,
  parallel_offset_constructed (@list_index float _) p offset o = Ret rs /\ In r rs /\ vertex_count r = 0 /\ is_closed r = true.
Proof.
  exists few_none, (-1)%float, (OO 1 1e-4 0.5 false)%float.
  destruct (rmap_In _ _ _ (0, true) few_none_run (or_introl eq_refl)) as (rs & r & E & H & F). injection F as F1 F2.
  exists rs, r. split; [exact E|]. split; [exact H|]. split; [exact F1|exact F2].
Qed.

Lemma wrap_refuted : exists (p : pline float) offset o rs r a b t,
  parallel_offset_constructed (@list_index float _) p offset o = Ret rs /\ In r rs /\ is_closed r = true
  /\ vtx r = a :: b :: t /\ v2fuzzy_eq_eps (pos (last t b)) (pos a) (oo_pos_equal_eps o) = true.
Proof.
  exists few_wrap, 3%float, (OO 0.25 1e-4 0.5 true)%float.
  destruct (rmap_In _ _ _ true few_wrap_run (or_intror (or_intror (or_introl eq_refl)))) as (rs & r & E & H & F).
  destruct (vtx r) as [|a [|b t]] eqn:V; [discriminate F|discriminate F|]. 
  destruct (rev (a :: b :: t)) as [|z u] eqn:RV; [discriminate F|].
  apply andb_prop in F as [F1 F2]. exists rs, r, a, b, t.
  split; [exact E|]. split; [exact H|]. split; [exact F1|]. split; [exact V|].
  assert (X : last (a :: b :: t) a = z).
  { rewrite <- (rev_involutive (a :: b :: t)), RV. cbn [rev]. apply last_app1. }
  cbn [oo_pos_equal_eps]. replace (last t b) with z; [exact F2|]. rewrite <- X. clear. revert a b. induction t as [|c t IH]; intros a b; [reflexivity|].
  change (last (a :: b :: c :: t) a) with (last (b :: c :: t) a). change (last (c :: t) b) with (match t with [] => c | _ => last t b end).
  specialize (IH b c). destruct t as [|d t]; [reflexivity|]. change (last (b :: c :: d :: t) a) with (last (d :: t) a).
  clear. revert d a b. induction t as [|e t IH]; intros d a b; [reflexivity|]. apply (IH e a b).
Qed.
