(** Segments that meet are examined, over the reals (C24, C25). *)
From Coq Require Import Reals Bool List Arith Lra Lia.
From Verif Require Import Num RNum Res ModelMath ModelSeg ModelPline ModelSegIntr ModelIndex ModelIntersects.
From Verif Require Import Spec SpecGeom SpecBox SpecIndex SpecIntersects ProofR ProofBox ProofBox2 ProofMeasure ProofOffset3.
Import ListNotations.
Local Open Scope R_scope.

Lemma boxes_meet b c q eps : 0 <= eps -> inside b 0 q -> inside c 0 q -> aabb_overlaps b (aabb_grow c eps) = true.
Proof.
  unfold inside. intros He Hb Hc. apply overlaps_R. unfold aabb_grow. rnum. cbn [bmin_x bmin_y bmax_x bmax_y]. lra.
Qed.

Lemma path_boxes_nth (p : pline R) i v1 v2 : nth_error (spec_segs (vtx p) (is_closed p)) i = Some (v1, v2) ->
  nth_error (map (fun s => seg_fast_approx_bounding_box (fst s) (snd s)) (spec_segs (vtx p) (is_closed p))) i
  = Some (seg_fast_approx_bounding_box v1 v2).
Proof. intros E. rewrite (map_nth_error _ _ _ E). reflexivity. Qed.

Lemma self_meet_examined (p : pline R) eps pairs i j v1 v2 u1 u2 q : 0 <= eps -> (3 <= vertex_count p)%nat ->
  pairs_ok p eps (map (fun s => seg_fast_approx_bounding_box (fst s) (snd s)) (spec_segs (vtx p) (is_closed p))) pairs ->
  nth_error (spec_segs (vtx p) (is_closed p)) i = Some (v1, v2) ->
  nth_error (spec_segs (vtx p) (is_closed p)) j = Some (u1, u2) ->
  seg_ok v1 v2 -> seg_ok u1 u2 -> on_seg v1 v2 q -> on_seg u1 u2 q -> apart p i j ->
  In (i, j) pairs \/ In (j, i) pairs.
Proof.
  intros He Hn (_ & _ & C & _) E1 E2 S1 S2 O1 O2 A. eapply C; eauto using path_boxes_nth, boxes_meet, fast_box.
Qed.

Lemma cross_meet_examined (p1 p2 : pline R) eps pairs i j v1 v2 u1 u2 q : 0 <= eps ->
  cross_ok p2 eps (map (fun s => seg_fast_approx_bounding_box (fst s) (snd s)) (spec_segs (vtx p1) (is_closed p1))) pairs ->
  nth_error (spec_segs (vtx p1) (is_closed p1)) i = Some (v1, v2) ->
  nth_error (spec_segs (vtx p2) (is_closed p2)) j = Some (u1, u2) ->
  seg_ok v1 v2 -> seg_ok u1 u2 -> on_seg v1 v2 q -> on_seg u1 u2 q -> In (i, j) pairs.
Proof.
  intros He (_ & _ & C) E1 E2 S1 S2 O1 O2. apply C. exists (seg_fast_approx_bounding_box v1 v2), u1, u2.
  split; [apply path_boxes_nth, E1|]. split; [exact E2|]. eapply boxes_meet; [exact He| |]; eapply fast_box; eauto.
Qed.
