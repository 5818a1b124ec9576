(** Joining overlaps over the reals: order and path of the slices (C29). *)
From Coq Require Import Reals List Bool Arith Lra Lia Permutation.
From Verif Require Import Num RNum Res ModelMath ModelSeg ModelPline ModelView ModelIntersects Spec SpecGeom SpecView SpecJoin.
From Verif Require Import ProofBase ProofIter ProofInvert ProofR ProofArc ProofArc2 ProofIntr ProofView ProofSlice ProofSlice2 ProofClosest ProofOffset3 ProofJoin.
Import ListNotations.
Local Open Scope R_scope.

Lemma dist_sq_le q a b : dist_squared q a <= dist_squared q b -> dist q a <= dist q b.
Proof.
  rewrite !dist_sq_eq. intros H. pose proof (dist_pos q a). pose proof (dist_pos q b). nra.
Qed.

Lemma overlap_cmp_sorted p a b : (oi_index2 a < vertex_count p)%nat -> cmp_leb (overlap_cmp p a b) = true ->
  (oi_index2 a < oi_index2 b)%nat
  \/ (oi_index2 a = oi_index2 b
      /\ exists v, nth_error (vtx p) (oi_index2 a) = Some v /\ dist (pos v) (oi_point1 a) <= dist (pos v) (oi_point1 b)).
Proof.
  intros L. destruct (vtx_lt p _ L) as [v E]. unfold overlap_cmp, get. rewrite E.
  destruct (Nat.compare_spec (oi_index2 a) (oi_index2 b)) as [C|C|C]; cbn [cmp_then cmp_leb]; [|auto|discriminate].
  intros H. right. split; [exact C|]. exists v. split; [reflexivity|]. apply dist_sq_le.
  cbn [ntotal_cmp RNum] in H. unfold rtotal_cmp in H.
  destruct (Rlt_dec _ _); [lra|]. destruct (Rlt_dec _ _); [discriminate|lra].
Qed.

Lemma overlap_cmp_total p a b : cmp_leb (overlap_cmp p a b) = false -> cmp_leb (overlap_cmp p b a) = true.
Proof.
  unfold overlap_cmp. rewrite (Nat.compare_antisym (oi_index2 a) (oi_index2 b)).
  destruct (Nat.compare_spec (oi_index2 a) (oi_index2 b)) as [C|C|C]; cbn [cmp_then cmp_leb CompOpp]; [|discriminate|reflexivity].
  rewrite C. destruct (get p (oi_index2 b)) as [v|]; [|reflexivity]. cbn [ntotal_cmp RNum]. unfold rtotal_cmp.
  repeat destruct (Rlt_dec _ _); cbn [cmp_leb]; try reflexivity; try discriminate; lra.
Qed.

Lemma sort_join_R (p1 p2 : pline R) eps l : Forall (in_range p1 p2) l ->
  exists sorted, Permutation l sorted /\ sorted_along p2 sorted
  /\ exists runs slices result, sort_and_join_overlapping_intersects l p1 p2 eps = Ret result
   /\ joined_runs eps sorted runs /\ Forall2 (run_slice p1 p2 eps) runs slices /\ ends_merged p2 eps slices result.
Proof.
  intros F. destruct (sort_join_spec p1 p2 eps l F) as (sorted & P & ES & H). exists sorted. split; [exact P|]. split; [|exact H].
  intros i a b Ha Hb. assert (Ra : in_range p1 p2 a).
  { pose proof (Permutation_Forall P F) as F'. rewrite Forall_forall in F'. apply F', (nth_error_In _ _ Ha). }
  apply overlap_cmp_sorted; [apply Ra|]. rewrite ES in Ha, Hb. refine (isort_ok _ l _ i a b Ha Hb).
  intros x y _ _. apply overlap_cmp_total.
Qed.

(** ** The path of a slice *)
Lemma rest_ok_0 a : bulge_ok (pbulge a) -> rest_ok a 0.
Proof.
  intros [H|[H _]]; [left; exact H|]. right. rewrite Rminus_0_r, Rmult_1_l, tan_atan. exact H.
Qed.

Lemma slice_path (p1 p2 : pline R) eps a oz t u s :
  let z := match oz with Some z => z | None => a end in
  0 < eps -> clear_pline eps p2 ->
  point_at p2 (oi_index2 a) t (oi_point1 a) -> t < 1 ->
  point_at p2 (oi_index2 z) u (oi_point2 z) -> 0 < u ->
  crisp_vertexes eps p2 (oi_point1 a) -> crisp_vertexes eps p2 (oi_point2 z) -> crisp eps (oi_point1 a) (oi_point2 z) ->
  oi_point2 z <> oi_point1 a ->
  (oi_index2 a = oi_index2 z -> t < u /\ forall v, nth_error (vtx p2) (oi_index2 a) = Some v -> rest_ok v t) ->
  (oi_index2 a <> oi_index2 z -> point_at p2 (oi_index2 z) 0 (oi_point1 z)) ->
  overlapping_slice_new p1 p2 a oz eps = Ret s ->
  view_path p2 (os_view s) (oi_point1 a) (oi_point2 z) (slice_pieces (vertex_count p2) (oi_index2 a) t (oi_index2 z) u).
Proof.
  intros z He HC (v1 & v2 & Hab & Ht & Q) Ht1 (w1 & w2 & Hce & Hu & Q') Hu0 C1 C2 C3 NL HS HD.
  destruct (segs_at p2 _ v1 v2 Hab) as (Hi & H2 & HiO & Ha & Hb).
  destruct (segs_at p2 _ w1 w2 Hce) as (Hj & _ & HjO & Hc & He').
  destruct (HC v1 v2 (nth_error_In _ _ Hab)) as (SO & CL). pose proof (clear_fuzzy _ _ _ CL) as CF.
  destruct (HC w1 w2 (nth_error_In _ _ Hce)) as (SO' & CL'). pose proof (clear_fuzzy _ _ _ CL') as CF'.
  set (n := vertex_count p2) in *.
  unfold overlapping_slice_new.
  destruct (at_ p1 (oi_index1 a)) as [x1|]; [cbn [rbind]|discriminate].
  destruct (at_ p1 (next_wrapping_index p1 (oi_index1 a))) as [x2|]; [cbn [rbind]|discriminate].
  rewrite (next_wrapping_index_mod p2) by exact Hi. fold n. rewrite (at_ok p2 _ v1 Ha), (at_ok p2 _ v2 Hb). cbn [rbind snd].
  assert (SINGLE : oi_index2 a = oi_index2 z ->
    let w := updated_start (seg_split_at_point (split_vertex (seg_split_at_point v1 v2 (oi_point1 a) eps)) v2 (oi_point2 z) eps) in
    view_path p2 (VD (oi_index2 a) 0 w (pbulge w) (oi_point2 z) false) (oi_point1 a) (oi_point2 z)
       (slice_pieces n (oi_index2 a) t (oi_index2 z) u)).
  { intros E. destruct (HS E) as [L HR]. assert (v1 = w1) by (rewrite E in Hab; congruence). assert (v2 = w2) by (rewrite E in Hab; congruence). subst w1 w2.
    destruct (mid_piece v1 v2 t u (oi_point1 a) (oi_point2 z) eps) as (M1 & M2); auto; try lra.
    { apply C1, (nth_error_In _ _ Ha). } { apply C1, (nth_error_In _ _ Hb). } { apply C2, (nth_error_In _ _ Hb). }
    cbv zeta. set (w := updated_start _) in *. unfold slice_pieces. rewrite E, Nat.eqb_refl. rewrite <- E.
    destruct (Rlt_dec t u); [|lra].
    apply (view_path_intro p2 (VD (oi_index2 a) 0 w (pbulge w) (oi_point2 z) false)); vcbn; try (fold n; lia); auto.
    apply (fwd_pieces_one (VD (oi_index2 a) 0 w (pbulge w) (oi_point2 z) false) p2 t u v1 v2); auto. }
  destruct oz as [z'|]; subst z.
  - rewrite (crisp_false eps (oi_point2 z') (oi_point1 a) (crisp_sym _ _ _ C3) NL).
    rewrite wrap_dist_eq by exact Hi. cbn [rbind].
    destruct (Nat.eqb_spec (oi_index2 a) (oi_index2 z')) as [E|E].
    + intros I. injection I as <-. cbn [os_view]. match goal with |- context [VD _ ?X _ _ _ _] => replace X with 0%nat by (rewrite E, Nat.leb_refl; lia) end.
      exact (SINGLE E).
    + rewrite (next_wrapping_index_mod p2) by exact Hj. fold n. rewrite (at_ok p2 _ w1 Hc), (at_ok p2 _ w2 He'). cbn [rbind].
      intros I. injection I as <-. cbn [os_view].
      destruct (mod_dist n _ _ Hi Hj E) as (D & HDr & HDj & HDm & HDe). fold n. rewrite <- HDe.
      destruct (HD E) as (y1 & y2 & Hy & _ & Qy). rewrite Hce in Hy. injection Hy as <- <-.
      assert (EP : oi_point1 z' = pos w1) by (apply (seg_at_0_inv w1 w2 0); auto).
      assert (Ht' : 0 <= t < 1) by lra. assert (Hu0' : 0 <= 0 < u) by lra. assert (Hu1' : u <= 1) by lra.
      destruct (tail_piece v1 v2 t (oi_point1 a) eps He SO CF Ht' Q (C1 _ (nth_error_In _ _ Ha)) (C1 _ (nth_error_In _ _ Hb))) as (T1 & T2 & _ & _).
      assert (K1 : crisp eps (pos w1) (oi_point1 z')) by (left; now rewrite EP).
      assert (K2 : crisp eps (pos w2) (oi_point1 z')) by (rewrite EP; apply crisp_sym; right; exact CL').
      assert (K3 : crisp eps (oi_point1 z') (oi_point2 z')) by (rewrite EP; apply C2, (nth_error_In _ _ Hc)).
      destruct (mid_piece w1 w2 0 u (oi_point1 z') (oi_point2 z') eps He SO' CF' Hu0' Hu1' Qy Q' K1 K2
                 (C2 _ (nth_error_In _ _ He')) K3 (rest_ok_0 w1 (proj1 SO'))) as (M1 & M2).
      set (w := updated_start (seg_split_at_point (split_vertex (seg_split_at_point w1 w2 _ _)) _ _ _)) in *.
      set (us := split_vertex _) in *.
      assert (ES : slice_pieces n (oi_index2 a) t (oi_index2 z') u = (oi_index2 a, t, 1) :: mids n (oi_index2 a) (D - 1) ++ [(oi_index2 z', 0, u)]).
      { unfold slice_pieces. destruct (Nat.eqb_spec (oi_index2 a) (oi_index2 z')); [contradiction|]. rewrite HDm.
        destruct (Rlt_dec t 1); [|lra]. destruct (Rlt_dec 0 u); [|lra]. reflexivity. }
      rewrite ES. set (d := VD (oi_index2 a) D us (pbulge w) (oi_point2 z') false).
      apply (view_path_intro p2 d); subst d; vcbn; try (fold n; lia); auto.
      pose proof (fwd_pieces_many (VD (oi_index2 a) D us (pbulge w) (oi_point2 z') false) p2 t u v1 v2 w1 w2) as F.
      cbn [vd_start_index vd_end_index_offset vd_inverted vd_updated_start vd_end_point vd_updated_end_bulge] in F.
      fold n in F. rewrite HDj in F. apply F; auto; try lia.
      * rewrite <- Nat.add_mod_idemp_l by lia. rewrite HDj. exact He'.
      * intros x Hx q y. rewrite <- (M2 x Hx q y). apply seg_at_ext; auto. rewrite M1. now rewrite EP.
  - intros I. injection I as <-. cbn [os_view]. exact (SINGLE eq_refl).
Qed.
