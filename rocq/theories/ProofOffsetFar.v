(** Offset results keep the distance (C46). *)
From Coq Require Import Reals Lra Bool List Arith Lia.
From Verif Require Import Num RNum Res ModelMath ModelSeg ModelPline ModelView ModelIndex ModelOffset.
From Verif Require Import Spec SpecPline SpecGeom SpecBox SpecClosest SpecView SpecIndex SpecStitch SpecChain SpecOffset2.
From Verif Require Import ProofBase ProofRepeat ProofView ProofIndex2 ProofStitch ProofOffset2 ProofOffset3 ProofChain ProofOffsetTotal ProofOffsetContract.
Import ListNotations.

Section Positions.
Context {T : Type} {N : Num T}.

Lemma runs_positions eps (l : list (vertex T)) rs v : is_runs (close_by eps) l rs -> In v (flat_map run_rep rs) -> exists w, In w l /\ pos w = pos v.
Proof.
  intros (<- & _) H. apply in_flat_map in H as (r & Hr & H). destruct r as [|h t]; cbn [run_rep] in H; [destruct H|].
  destruct H as [<-|[]]. exists h. split; [|reflexivity]. apply in_concat. exists (h :: t). split; [exact Hr|now left].
Qed.

(** The positions of a chain are positions of its slices. *)
Lemma chained_positions (path : nat -> list (vertex T) -> Prop) next choice replace eps used first c K v :
  chained path next choice replace eps used first c K -> In v K -> exists i l w, In i c /\ path i l /\ In w l /\ pos w = pos v.
Proof.
  intros H. revert v. induction H as [l rs P R|c cur K v avail b l rs S IH CA CH P R]; intros u Hu.
  - destruct (runs_positions _ _ _ _ R Hu) as (w & Hw & E). exists first, l, w. repeat split; auto. now left.
  - destruct (runs_positions _ _ _ _ R Hu) as (w & Hw & E). apply in_app_iff in Hw as [Hw|Hw].
    + assert (HK : In w (K ++ [v])) by (destruct replace; [apply in_or_app; now left|exact Hw]).
      destruct (IH w HK) as (i & l' & w' & Hi & Pi & Hw' & E'). exists i, l', w'. repeat split; auto; [|congruence]. apply in_or_app. now left.
    + exists b, l, w. repeat split; auto. apply in_or_app. right. now left.
Qed.

Lemma all_chained_positions (path : nat -> list (vertex T) -> Prop) next choice replace eps chains Ks K v :
  all_chained path next choice replace eps chains Ks -> In K Ks -> In v K -> exists i l w, path i l /\ In w l /\ pos w = pos v.
Proof.
  induction 1 as [|chains Ks first c cur K0 H IH NI LT CH CA]; intros HK Hv; [destruct HK|].
  apply in_app_iff in HK as [HK|[->|[]]]; [now apply IH|].
  destruct (chained_positions _ _ _ _ _ _ _ _ _ _ CH Hv) as (i & l & w & _ & A & B & C). exists i, l, w. auto.
Qed.

Lemma close_path_incl closed eps (K : list (vertex T)) v : In v (vtx (close_path closed eps K)) -> In v K.
Proof.
  unfold close_path. destruct (hd_error K) as [a|]; [|cbn; auto]. destruct (hd_error (rev K)) as [z|]; [|cbn; auto].
  destruct (_ && _); cbn [vtx]; [|auto]. intros H. destruct K as [|x t] using rev_ind; [destruct H|]. rewrite removelast_snoc in H. apply in_or_app. now left.
Qed.

Lemma offset_results_from (slices : list (view_data T)) closed eps join Ks r v :
  In r (offset_results slices closed eps join Ks) -> In v (vtx r) -> exists K, In K Ks /\ In v K.
Proof.
  intros H Hv. assert (G : In r (flat_map (offset_result closed eps) Ks) -> exists K, In K Ks /\ In v K).
  { intros H'. apply in_flat_map in H' as (K & HK & H'). unfold offset_result in H'. destruct (2 <=? length K); [|destruct H'].
    destruct H' as [<-|[]]. exists K. split; [exact HK|]. eapply close_path_incl; exact Hv. }
  unfold offset_results in H. destruct slices as [|s [|s2 t]]; [now apply G| |now apply G].
  apply in_map_iff in H as (K & <- & HK). exists K. split; [exact HK|]. eapply close_path_incl; exact Hv.
Qed.

Lemma entire_path (raw : pline T) d w : view_from_entire_pline raw = Ret d -> In w (view_path_of raw d) -> exists u, In u (vtx raw) /\ pos u = pos w.
Proof.
  intros E H. pose proof (entire_shape raw d E) as (A & B & C).
  assert (S1 : exists u, In u (vtx raw) /\ pos u = pos (vd_updated_start d)).
  { unfold view_from_entire_pline in E. destruct (Nat.ltb_spec (vertex_count raw) 2) as [L|L]; [discriminate|].
    destruct (at_lt raw 0) as (v0 & N0 & E0); [lia|]. rewrite E0 in E. cbn [rbind] in E.
    exists v0. split; [eapply nth_error_In; exact N0|]. destruct (is_closed raw).
    - destruct (last_ raw) as [[l|]|]; cbn [rbind unwrap] in E; try discriminate. injection E as <-. reflexivity.
    - destruct (at_lt raw (vertex_count raw - 2)) as (a & _ & Ea); [lia|]. destruct (at_lt raw (vertex_count raw - 1)) as (b & _ & Eb); [lia|].
      rewrite Ea, Eb in E. cbn [rbind] in E. injection E as <-. reflexivity. }
  assert (S2 : exists u, In u (vtx raw) /\ pos u = vd_end_point d).
  { unfold view_from_entire_pline in E. destruct (Nat.ltb_spec (vertex_count raw) 2) as [L|L]; [discriminate|].
    destruct (at_lt raw 0) as (v0 & N0 & E0); [lia|]. rewrite E0 in E. cbn [rbind] in E. destruct (is_closed raw).
    - destruct (last_ raw) as [[l|]|]; cbn [rbind unwrap] in E; try discriminate. injection E as <-. cbn. exists v0. split; [eapply nth_error_In; exact N0|reflexivity].
    - destruct (at_lt raw (vertex_count raw - 2)) as (a & _ & Ea); [lia|]. destruct (at_lt raw (vertex_count raw - 1)) as (b & Nb & Eb); [lia|].
      rewrite Ea, Eb in E. cbn [rbind] in E. injection E as <-. cbn. exists b. split; [eapply nth_error_In; exact Nb|reflexivity]. }
  apply In_nth_error in H as (i & Hi). pose proof (fwd_list_nth d raw i A B) as HN. unfold fwd_list in HN. unfold view_path_of in Hi. rewrite Hi in HN.
  destruct (Nat.eqb i 0); [injection HN as ->; exact S1|].
  destruct (i <=? vd_end_index_offset d).
  - fold (vertex_count raw) in HN. destruct (nth_error (vtx raw) ((vd_start_index d + i) mod vertex_count raw)) as [u|] eqn:EU.
    + exists u. split; [eapply nth_error_In; exact EU|]. cbn [option_map] in HN. injection HN as ->. destruct (Nat.eqb _ _); reflexivity.
    + discriminate.
  - destruct (Nat.eqb i _); [|discriminate]. injection HN as ->. destruct S2 as (u & Hu & Eu). exists u. split; [exact Hu|]. rewrite Eu. unfold from_vector2, pos. cbn. destruct (vd_end_point d); reflexivity.
Qed.
End Positions.

Local Open Scope R_scope.
Lemma offset_far mk (p : pline R) idx offset o rs : makes_index mk -> pline_ok p -> 0 < oo_pos_equal_eps o -> pline_index p idx ->
  0 <= Rabs offset - oo_offset_dist_eps o -> parallel_offset mk p idx offset o = Ret rs ->
  (forall r v, In r rs -> In v (vtx r) -> far_enough p (pos v) (Rabs offset - oo_offset_dist_eps o) (oo_pos_equal_eps o))
  \/ exists raw r, create_raw_offset_polyline p offset (oo_pos_equal_eps o) = Ret raw /\ rs = [r]
     /\ (forall v, In v (vtx r) -> exists u, In u (vtx raw) /\ pos u = pos v)
     /\ (forall u, hd_error (vtx raw) = Some u -> far_enough p (pos u) (Rabs offset - oo_offset_dist_eps o) (oo_pos_equal_eps o)).
Proof.
  intros MK OK He Hix HD E. pose proof (fun pt => accepted_far p idx offset o pt OK He Hix HD) as AF.
  destruct (Nat.ltb_spec (vertex_count p) 2) as [L|L].
  { left. unfold parallel_offset in E. destruct (Nat.ltb_spec (vertex_count p) 2); [|lia]. injection E as <-. intros r v []. }
  destruct (parallel_offset_stitched mk p idx _ offset o MK Hix (map_length _ _) L) as (raw & ER & [(R0 & E')|(R2 & slices & last & chains & Ks & E' & C & P & SL)]).
  { left. rewrite E in E'. injection E' as ->. intros r v []. }
  rewrite E in E'. injection E' as ->.
  assert (AK : all_kept p raw idx offset o slices).
  { destruct (_ && _); [eapply raw_slices_all_kept; exact SL|]. destruct SL as (dual & _ & SL). eapply dual_slices_all_kept; exact SL. }
  destruct AK as [AK|(d & -> & (_ & KD) & EN)].
  - left. intros r v Hr Hv. destruct (offset_results_from _ _ _ _ _ _ _ Hr Hv) as (K & HK & HvK).
    destruct (all_chained_positions _ _ _ _ _ _ _ _ _ C HK HvK) as (i & l & w & (d & Hd & ->) & Hw & Ew). rewrite <- Ew. apply AF.
    apply nth_error_In in Hd. destruct (AK d Hd) as (_ & _ & (T1 & _)). apply T1. exact Hw.
  - destruct (all_chained_paths _ _ _ _ _ _ _ (path_at_nonempty raw [d]) C) as [F FL].
    pose proof (concat_len chains (chained_nonempty _ _ _ _ _ _ _ C)) as CL. apply Permutation.Permutation_length in P. cbn in P. rewrite P in CL.
    unfold offset_results. destruct Ks as [|K [|K2 Kt]]; [left; intros r v []| |cbn in FL; lia].
    right. exists raw, (close_path (is_closed p) (oo_slice_join_eps o) K). split; [exact ER|]. split; [reflexivity|]. split.
    + intros v Hv. apply close_path_incl in Hv. destruct (all_chained_positions _ _ _ _ _ _ _ K v C (or_introl eq_refl) Hv) as (i & l & w & (d' & Hd & ->) & Hw & Ew).
      destruct i as [|[|i]]; try discriminate. cbn in Hd. injection Hd as <-. destruct (entire_path raw d w EN Hw) as (u & Hu & Eu). exists u. split; [exact Hu|congruence].
    + intros u Hu. destruct KD as [(VP & T1 & _)|(_ & K1)]; [|apply AF; now apply K1].
      apply AF. destruct (vtx raw) as [|u0 t] eqn:V; [discriminate|]. cbn in Hu. injection Hu as ->.
      assert (W : In (vd_updated_start d) (fwd_list d raw)).
      { eapply (nth_error_In _ 0). destruct (entire_shape raw d EN) as (A & B & _). rewrite fwd_list_nth by assumption. reflexivity. }
      specialize (T1 _ W). unfold view_from_entire_pline in EN. destruct (Nat.ltb_spec (vertex_count raw) 2); [lia|].
      unfold at_ at 1, index at 1 in EN. rewrite V in EN. cbn [nth_error rbind] in EN. destruct (is_closed raw).
      * destruct (last_ raw) as [[lv|]|]; cbn [rbind unwrap] in EN; try discriminate. injection EN as <-. exact T1.
      * destruct (at_ raw _) as [a|]; cbn [rbind] in EN; [|discriminate]. destruct (at_ raw _) as [b|]; cbn [rbind] in EN; [|discriminate].
        injection EN as <-. exact T1.
Qed.
