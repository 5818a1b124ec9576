(** The lemmas about joins of raw offset segments gathered (C47). *)
From Coq Require Import Reals ZArith Bool List Arith Lra Lia Psatz.
From Verif Require Import Num RNum Res ModelMath ModelIntr ModelSeg ModelPline ModelView ModelSegIntr ModelIndex ModelIntersects ModelBoolean ModelOffset.
From Verif Require Import Spec SpecGeom SpecIntr SpecOffset SpecSegIntr SpecOffsetJoin.
From Verif Require Import ProofR ProofBase ProofArc ProofIntr ProofOffsetJoin ProofOffsetJoin2 ProofOffsetJoin3 ProofOffsetJoin4.
Import ListNotations.
Local Open Scope R_scope.

Lemma segs_missed s1 s2 ccw eps p :
  let v1 := rs_v1 s1 in let v2 := rs_v2 s1 in let u1 := rs_v1 s2 in let u2 := rs_v2 s2 in
  0 < eps -> pos v2 <> rs_orig_v2_pos s1 -> dist (pos u1) (rs_orig_v2_pos s1) = dist (pos v2) (rs_orig_v2_pos s1) ->
  (forall c r D, pbulge v1 = 0 -> ~ is_point (pos v1) (pos v2) eps -> clear_direction (pos v1) (pos v2) ->
     seg_ok u1 u2 -> pbulge u1 <> 0 -> arc_circle u1 u2 c r -> r + eps < D -> (forall k, D <= dist (line_pt (pos v1) (pos v2) k) c) ->
     exists p', join_seg_pair ccw eps p (s1, s2) = Ret p' /\ connected s1 s2 ccw eps (vtx p) (vtx p'))
  /\ (forall c r D, pbulge u1 = 0 -> ~ is_point (pos u1) (pos u2) eps -> clear_direction (pos u1) (pos u2) ->
     seg_ok v1 v2 -> pbulge v1 <> 0 -> arc_circle v1 v2 c r -> r + eps < D -> (forall k, D <= dist (line_pt (pos u1) (pos u2) k) c) ->
     exists p', join_seg_pair ccw eps p (s1, s2) = Ret p' /\ connected s1 s2 ccw eps (vtx p) (vtx p'))
  /\ (forall c1 r1 c2 r2, seg_ok v1 v2 -> pbulge v1 <> 0 -> arc_circle v1 v2 c1 r1 -> seg_ok u1 u2 -> pbulge u1 <> 0 -> arc_circle u1 u2 c2 r2 ->
     r1 + r2 + eps <= dist c1 c2 \/ dist c1 c2 + eps <= Rabs (r1 - r2) ->
     exists p', join_seg_pair ccw eps p (s1, s2) = Ret p' /\ connected s1 s2 ccw eps (vtx p) (vtx p')).
Proof.
  intros v1 v2 u1 u2 He HP HD. split; [|split].
  - intros c r D. now apply line_arc_passes.
  - intros c r D. now apply arc_line_passes.
  - intros c1 r1 c2 r2. now apply arcs_pass.
Qed.

Lemma same_circle s1 s2 ccw eps p c1 r1 c2 r2 :
  let v1 := rs_v1 s1 in let v2 := rs_v2 s1 in let u1 := rs_v1 s2 in let u2 := rs_v2 s2 in
  seg_ok v1 v2 -> pbulge v1 <> 0 -> arc_circle v1 v2 c1 r1 -> seg_ok u1 u2 -> pbulge u1 <> 0 -> arc_circle u1 u2 c2 r2 ->
  dist c1 c2 < eps -> Rabs (r1 - r2) < eps ->
  exists p', join_seg_pair ccw eps p (s1, s2) = Ret p' /\ put eps (vtx p) u1 (vtx p').
Proof. intros v1 v2 u1 u2. now apply arcs_same. Qed.

Lemma line_arc_apart' s1 s2 ccw eps p k x c r :
  let v1 := rs_v1 s1 in let v2 := rs_v2 s1 in let u1 := rs_v1 s2 in let u2 := rs_v2 s2 in
  0 < eps -> pos v2 <> rs_orig_v2_pos s1 -> dist (pos u1) (rs_orig_v2_pos s1) = dist (pos v2) (rs_orig_v2_pos s1) ->
  pbulge v1 = 0 -> ~ is_point (pos v1) (pos v2) eps -> clear_direction (pos v1) (pos v2) ->
  seg_ok u1 u2 -> pbulge u1 <> 0 -> arc_circle u1 u2 c r -> wide u1 u2 eps -> rs_collapsed_arc s1 = false ->
  x = line_pt (pos v1) (pos v2) k -> dist x c = r -> passes_inside (pos v1) (pos v2) c r eps ->
  (forall k, dist (line_pt (pos v1) (pos v2) k) c = r -> line_pt (pos v1) (pos v2) k <> x ->
     dist x (rs_orig_v2_pos s1) < dist (line_pt (pos v1) (pos v2) k) (rs_orig_v2_pos s1)) ->
  (1 < k -> ~ near_seg u1 u2 eps x -> exists p', join_seg_pair ccw eps p (s1, s2) = Ret p' /\ connected s1 s2 ccw eps (vtx p) (vtx p'))
  /\ ((k < 0 \/ 1 < k) /\ on_seg u1 u2 x \/ k <= 1 /\ ~ near_seg u1 u2 eps x ->
      exists p', join_seg_pair ccw eps p (s1, s2) = Ret p' /\ put2 eps (vtx p) (vertex_at (pos v2) 0) u1 (vtx p')).
Proof. intros v1 v2 u1 u2 He HP HD. now apply line_arc_apart. Qed.

Lemma arc_line_apart' s1 s2 ccw eps p k x c r :
  let v1 := rs_v1 s1 in let v2 := rs_v2 s1 in let u1 := rs_v1 s2 in let u2 := rs_v2 s2 in
  let near := if rs_collapsed_arc s2 then pos u1 else rs_orig_v2_pos s1 in
  0 < eps -> pos v2 <> rs_orig_v2_pos s1 -> dist (pos u1) (rs_orig_v2_pos s1) = dist (pos v2) (rs_orig_v2_pos s1) ->
  pbulge u1 = 0 -> ~ is_point (pos u1) (pos u2) eps -> clear_direction (pos u1) (pos u2) ->
  seg_ok v1 v2 -> pbulge v1 <> 0 -> arc_circle v1 v2 c r -> wide v1 v2 eps ->
  x = line_pt (pos u1) (pos u2) k -> dist x c = r -> passes_inside (pos u1) (pos u2) c r eps ->
  (forall k, dist (line_pt (pos u1) (pos u2) k) c = r -> line_pt (pos u1) (pos u2) k <> x ->
     dist x near < dist (line_pt (pos u1) (pos u2) k) near) ->
  (k < 0 \/ 1 < k \/ ~ near_seg v1 v2 eps x) ->
  exists p', join_seg_pair ccw eps p (s1, s2) = Ret p' /\ connected s1 s2 ccw eps (vtx p) (vtx p').
Proof. intros v1 v2 u1 u2 near He HP HD. now apply arc_line_apart. Qed.

Lemma arcs_apart' s1 s2 ccw eps p x y c1 r1 c2 r2 :
  let v1 := rs_v1 s1 in let v2 := rs_v2 s1 in let u1 := rs_v1 s2 in let u2 := rs_v2 s2 in
  let near := rs_orig_v2_pos s1 in
  0 < eps -> pos v2 <> rs_orig_v2_pos s1 -> dist (pos u1) (rs_orig_v2_pos s1) = dist (pos v2) (rs_orig_v2_pos s1) ->
  seg_ok v1 v2 -> pbulge v1 <> 0 -> arc_circle v1 v2 c1 r1 -> wide v1 v2 eps -> seg_ok u1 u2 -> pbulge u1 <> 0 -> arc_circle u1 u2 c2 r2 -> wide u1 u2 eps ->
  eps <= dist c1 c2 -> dist x c1 = r1 -> dist x c2 = r2 -> dist y c1 = r1 -> dist y c2 = r2 -> ~ is_point x y eps ->
  dist x near * dist x near + eps <= dist y near * dist y near ->
  ~ near_seg v1 v2 eps x \/ ~ near_seg u1 u2 eps x ->
  exists p', join_seg_pair ccw eps p (s1, s2) = Ret p' /\ connected s1 s2 ccw eps (vtx p) (vtx p').
Proof. intros v1 v2 u1 u2 near He HP HD. now apply arcs_apart. Qed.

Lemma corner_case : exists pl',
  join_seg_pair false (1 / 1000) (PL [Vtx 0 1 0] false)
    (RS (Vtx 0 1 0) (Vtx 10 1 0) (V2 10 0) false, RS (Vtx 9 0 0) (Vtx 9 10 0) (V2 10 10) false) = Ret pl'
  /\ vtx pl' = [Vtx 0 1 0; Vtx 9 1 0].
Proof.
  assert (R1 : line_raw (RS (Vtx 0 1 0) (Vtx 10 1 0) (V2 10 0) false) (V2 0 0) (V2 10 0) (V2 0 1) 1).
  { unfold line_raw, left_normal, vertex_at, moved, cross, vec. cbn [vx vy rs_v1 rs_v2 rs_orig_v2_pos rs_collapsed_arc]. repeat split; try lra; f_equal; ring. }
  assert (R2 : line_raw (RS (Vtx 9 0 0) (Vtx 9 10 0) (V2 10 10) false) (V2 10 0) (V2 10 10) (V2 (-1) 0) 1).
  { unfold line_raw, left_normal, vertex_at, moved, cross, vec. cbn [vx vy rs_v1 rs_v2 rs_orig_v2_pos rs_collapsed_arc]. repeat split; try lra; f_equal; ring. }
  assert (H0 : 0 < 1 / 1000) by lra. assert (H1 : 1 <> 0) by lra. assert (H2 : false = true <-> 1 < 0) by (split; [discriminate|lra]).
  assert (H3 : 1 / 1000 <= Rabs (cross (vec (V2 0 0) (V2 10 0)) (vec (V2 10 0) (V2 10 10)))) by (unfold cross, vec; cbn [vx vy]; rabs_lra).
  destruct (line_corner _ _ _ _ _ _ _ 1 false (1 / 1000) (PL [Vtx 0 1 0] false) H0 H1 H2 H3 R1 R2) as (x & pl' & E & _ & ((s & M1) & (t & M2)) & _ & J).
  exists pl'. split; [exact E|].
  assert (X : x = V2 9 1).
  { rewrite M1 in M2. unfold line_pt, moved in M1, M2. cbn [vx vy] in M1, M2. pose proof (f_equal vx M2) as A. pose proof (f_equal vy M2) as B. cbn [vx vy] in A, B.
    rewrite M1. apply vec2_eq; cbn [vx vy]; lra. }
  assert (D1 : dist (moved (V2 10 0) (V2 0 1) 1) x = 1).
  { rewrite X. apply dist_eq_sqr; [lra|]. unfold moved. cbn [vx vy]. lra. }
  assert (D2 : dist (moved (V2 10 0) (V2 (-1) 0) 1) x = 1).
  { rewrite X. apply dist_eq_sqr; [lra|]. unfold moved. cbn [vx vy]. lra. }
  assert (D3 : dist (V2 0 0) (V2 10 0) = 10) by (apply dist_eq_sqr; [lra|]; cbn [vx vy]; lra).
  assert (D4 : dist (V2 10 0) (V2 10 10) = 10) by (apply dist_eq_sqr; [lra|]; cbn [vx vy]; lra).
  destruct J as [(_ & _ & P)|[N _]].
  - unfold cross, vec. cbn [vx vy]. lra.
  - destruct P as [(pre & w & EQ & IP & _)|[_ EV]].
    + exfalso. destruct pre as [|a [|b pre]]; try discriminate. injection EQ as <-.
      destruct IP as [IP _]. rewrite X in IP. unfold vertex_at, pos in IP. cbn [px py vx vy] in IP. revert IP. rabs_lra.
    + rewrite EV, X. reflexivity.
  - exfalso. apply N. rewrite D1, D2, D3, D4. lra.
Qed.
