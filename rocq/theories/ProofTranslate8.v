(** Moving both polylines moves the result of a boolean operation: the index over a list, and an example. *)
From Coq Require Import Reals List Lra Lia Bool ZArith Arith.
From Verif Require Import Num RNum Res ModelMath ModelSeg ModelPline ModelView ModelIndex ModelIntersects ModelBoolean
  Spec SpecGeom SpecBoolean SpecPolyOff SpecTranslate SpecTranslateBool ProofR ProofIter ProofMeasure ProofTotal
  ProofTranslate ProofTranslate2 ProofTranslate4 ProofTranslate6 ProofTranslate7 ProofArea6 ProofOverlap2 SpecPrune.
Import ListNotations.
Local Open Scope R_scope.

Lemma list_boolean x y p1 p2 op e :
  boolean_constructed (@list_index R _) (moved x y p1) (moved x y p2) op e
  = rmap (moved_result x y) (boolean_constructed (@list_index R _) p1 p2 op e).
Proof. apply t_boolean_constructed. apply t_list_index. Qed.

Lemma t_length x y p : path_length (moved x y p) = path_length p.
Proof.
  unfold path_length. rewrite t_segs. destruct (iter_segments p) as [l |]; [| reflexivity]. cbn [rmap rbind]. f_equal.
  generalize (@nzero R _). induction l as [| [v u] t IH]; intros a; [reflexivity |]. cbn [map fold_left fst snd]. rewrite IH.
  f_equal. apply f_equal2; [reflexivity |]. unfold seg_length.
  replace (vfuzzy_eq (moved_vertex x y v) (moved_vertex x y u)) with (vfuzzy_eq v u).
  2: { unfold vfuzzy_eq, vfuzzy_eq_eps, moved_vertex. cbn [px py pbulge]. unfold fuzzy_eq_eps. rnum. rewrite !sub_sh. reflexivity. }
  rewrite t_bz, t_rc, !t_pos, t_dist. destruct (seg_arc_radius_and_center v u) as [r c]. cbn [fst snd]. rewrite !t_angle. reflexivity.
Qed.

Lemma approx_boxes (p : pline R) : is_closed p = true ->
  create_approx_aabb_index p = Ret (map (fun s => seg_fast_approx_bounding_box (fst s) (snd s)) (spec_segs (vtx p) true)).
Proof. intros C. unfold create_approx_aabb_index. rewrite ProofIndex2.create_index_spec, C. reflexivity. Qed.

Lemma ex_moved op :
  let p1 := polygon [V2 0 0; V2 0 4; V2 2 4; V2 2 2; V2 4 2; V2 4 0] in let p2 := polygon [V2 1 1; V2 3 1; V2 3 3; V2 1 3] in
  let q1 := polygon [V2 100 (-50); V2 100 (-46); V2 102 (-46); V2 102 (-48); V2 104 (-48); V2 104 (-50)] in
  let q2 := polygon [V2 101 (-49); V2 103 (-49); V2 103 (-47); V2 101 (-47)] in
  exists r, boolean_constructed (@list_index R _) p1 p2 op (1 / 100000) = Ret r
  /\ boolean_constructed (@list_index R _) q1 q2 op (1 / 100000) = Ret (moved_result 100 (-50) r)
  /\ (op = BOr \/ op = BAnd \/ op = BXor -> br_pos (moved_result 100 (-50) r) <> []).
Proof.
  cbv zeta. destruct (ex_all op) as (r & E & A & B). exists r.
  set (p1 := polygon [V2 0 0; V2 0 4; V2 2 4; V2 2 2; V2 4 2; V2 4 0]) in *. set (p2 := polygon [V2 1 1; V2 3 1; V2 3 3; V2 1 3]) in *.
  assert (F : boolean_constructed (@list_index R _) p1 p2 op (1 / 100000) = Ret r).
  { unfold boolean_constructed. rewrite approx_boxes by reflexivity. exact E. }
  assert (N : op = BOr \/ op = BAnd \/ op = BXor -> br_pos r <> []).
  { intros H Z. assert (G : forall q, ~ region (fun p y => inside p y = true) r q).
    { intros q ((a & I & _) & _). rewrite Z in I. destruct I. }
    destruct H as [H | [H | H]]; [apply (G _ (proj2 A (or_introl H))) | apply (G _ (proj2 A (or_intror H))) | apply (G _ (proj2 B (or_intror H)))]. }
  split; [exact F |]. split.
  - replace (polygon [V2 100 (-50); _; _; _; _; _]) with (moved 100 (-50) p1) by (unfold p1; pl_eq).
    replace (polygon [V2 101 (-49); _; _; _]) with (moved 100 (-50) p2) by (unfold p2; pl_eq).
    rewrite list_boolean, F. reflexivity.
  - intros H Z. apply (N H). unfold moved_result in Z. cbn [br_pos] in Z. destruct (br_pos r); [reflexivity | discriminate].
Qed.
