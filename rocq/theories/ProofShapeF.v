(** Shapes (C37): runs with floating point numbers. *)
From Coq Require Import List Bool Arith PrimFloat.
From Verif Require Import Num FNum Res ModelMath ModelSeg ModelPline ModelView ModelIndex ModelOffset ModelIntersects ModelShape.
From Verif Require Import Spec SpecShape ProofIndex2.
Import ListNotations.
Local Open Scope float_scope.

Definition polygon (l : list (float * float)) : pline float := PL (map (fun q => Vtx (fst q) (snd q) 0) l) true.
Definition shape_index := @list_index float _.
(** The default options *)
Definition shape_opts : shape_options float := SO 1e-5 1e-4 1e-4.

(** A square ring: offset inwards. *)
Definition ring := [polygon [(0, 0); (10, 0); (10, 10); (0, 10)]; polygon [(4, 4); (4, 6); (6, 6); (6, 4)]].
Lemma ring_run : exists s r, shape_from_plines shape_index ring = Ret s
  /\ shape_parallel_offset shape_index s 1 shape_opts = Ret r
  /\ map (fun ip => map (fun v => (px v, py v)) (vtx (ip_pline ip))) (sh_ccw r) = [[(1, 1); (9, 1); (9, 9); (1, 9)]]
  /\ map (fun ip => (vertex_count (ip_pline ip), is_closed (ip_pline ip))) (sh_cw r) = [(8%nat, true)].
Proof.
  destruct (shape_from_plines shape_index ring) as [s|] eqn:E; [|vm_compute in E; discriminate].
  destruct (shape_parallel_offset shape_index s 1 shape_opts) as [r|] eqn:E2; [|vm_compute in E; injection E as <-; vm_compute in E2; discriminate].
  exists s, r. split; [reflexivity|]. split; [exact E2|].
  vm_compute in E. injection E as <-. vm_compute in E2. injection E2 as <-. split; vm_compute; reflexivity.
Qed.

(** Two squares that merge when offset outwards: the loops meet, four slices, two of which pass. *)
Definition two_squares := [polygon [(0, 0); (2, 0); (2, 2); (0, 2)]; polygon [(3, 1); (5, 1); (5, 3); (3, 3)]].
Lemma squares_run : exists s r, shape_from_plines shape_index two_squares = Ret s
  /\ shape_parallel_offset shape_index s (-1) shape_opts = Ret r
  /\ map (fun ip => (vertex_count (ip_pline ip), is_closed (ip_pline ip))) (sh_ccw r) = [(12%nat, true)] /\ sh_cw r = [].
Proof.
  destruct (shape_from_plines shape_index two_squares) as [s|] eqn:E; [|vm_compute in E; discriminate].
  destruct (shape_parallel_offset shape_index s (-1) shape_opts) as [r|] eqn:E2; [|vm_compute in E; injection E as <-; vm_compute in E2; discriminate].
  exists s, r. split; [reflexivity|]. split; [exact E2|].
  vm_compute in E. injection E as <-. vm_compute in E2. injection E2 as <-. split; vm_compute; reflexivity.
Qed.

(** A panic with the default options. *)
Definition tiny := polygon [(0.0004, 0.0003); (0.0008, 0.0002); (0.0008, 0); (0.0002, 0.0001); (0.0004, 0.0001)].
Lemma tiny_panics : exists s, shape_from_plines shape_index [tiny] = Ret s
  /\ shape_parallel_offset shape_index s (-5e-5) shape_opts = Panic UnwrapNone.
Proof.
  destruct (shape_from_plines shape_index [tiny]) as [s|] eqn:E; [|vm_compute in E; discriminate].
  exists s. split; [reflexivity|]. vm_compute in E. injection E as <-. vm_compute. reflexivity.
Qed.

(** Two disjoint triangle and quadrilateral; only the middle of the first segment of a slice is looked at. *)
Definition quad := polygon [(4, 8); (2, 8); (0, 7); (5, 6)].
Definition triangle := polygon [(11, 9); (4, 0); (11, 8)].
Definition near_triangle (ip : indexed_pline float) : bool :=
  existsb (fun v => existsb (fun u => dist_squared (seg_closest_point (fst u) (snd u) (seg_midpoint (fst v) (snd v)) 1e-5) (seg_midpoint (fst v) (snd v)) <? 1.5 * 1.5)
                            (spec_segs (vtx triangle) (is_closed triangle)))
          (spec_segs (vtx (ip_pline ip)) (is_closed (ip_pline ip))).
Lemma quad_check : (let! s := shape_from_plines shape_index [quad; triangle] in
  let! r := shape_parallel_offset shape_index s (-2) shape_opts in Ret (existsb near_triangle (sh_ccw r))) = Ret true.
Proof. vm_compute. reflexivity. Qed.
Lemma quad_near : exists s r ip v1 v2 u1 u2, shape_from_plines shape_index [quad; triangle] = Ret s
  /\ shape_parallel_offset shape_index s (-2) shape_opts = Ret r
  /\ In ip (sh_ccw r) /\ In (v1, v2) (spec_segs (vtx (ip_pline ip)) (is_closed (ip_pline ip)))
  /\ In (u1, u2) (spec_segs (vtx triangle) (is_closed triangle))
  /\ (dist_squared (seg_closest_point u1 u2 (seg_midpoint v1 v2) 1e-5) (seg_midpoint v1 v2) <? 1.5 * 1.5) = true.
Proof.
  pose proof quad_check as H. destruct (shape_from_plines shape_index [quad; triangle]) as [s|k]; [|discriminate H]. cbn [rbind] in H.
  destruct (shape_parallel_offset shape_index s (-2) shape_opts) as [r|k] eqn:E2; [|discriminate H]. cbn [rbind] in H.
  assert (H' : existsb near_triangle (sh_ccw r) = true) by congruence. apply existsb_exists in H' as (ip & I & H').
  unfold near_triangle in H'. apply existsb_exists in H' as ((v1, v2) & Iv & H'). apply existsb_exists in H' as ((u1, u2) & Iu & H'). cbn [fst snd] in H'.
  exists s, r, ip, v1, v2, u1, u2. split; [reflexivity|]. split; [exact E2|]. auto.
Qed.

(** An open polyline among the clockwise ones, with an open polyline among the counter-clockwise ones of the
    result. *)
Definition angle := PL [Vtx 0 0 0; Vtx 10 0 0; Vtx 10 10 0] false.
Lemma angle_check : (let! s := shape_from_plines shape_index [angle] in
  let! r := shape_parallel_offset shape_index s 1 shape_opts in
  Ret (map ip_pline (sh_cw s), map (fun ip => is_closed (ip_pline ip)) (sh_ccw r))) = Ret ([angle], [false]).
Proof. vm_compute. reflexivity. Qed.
Lemma angle_moves : exists s r ip, shape_from_plines shape_index [angle] = Ret s /\ map ip_pline (sh_cw s) = [angle]
  /\ shape_parallel_offset shape_index s 1 shape_opts = Ret r /\ In ip (sh_ccw r) /\ is_closed (ip_pline ip) = false.
Proof.
  pose proof angle_check as H. destruct (shape_from_plines shape_index [angle]) as [s|k]; [|discriminate H]. cbn [rbind] in H.
  destruct (shape_parallel_offset shape_index s 1 shape_opts) as [r|k] eqn:E2; [|discriminate H]. cbn [rbind] in H.
  assert (H1 : map ip_pline (sh_cw s) = [angle]) by congruence. assert (H2 : map (fun ip => is_closed (ip_pline ip)) (sh_ccw r) = [false]) by congruence.
  destruct (sh_ccw r) as [|ip t] eqn:EC; [discriminate H2|]. exists s, r, ip. split; [reflexivity|]. split; [exact H1|]. split; [exact E2|]. split; [rewrite EC; left; reflexivity|].
  cbn [map] in H2. congruence.
Qed.
