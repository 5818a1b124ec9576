(** [remove_redundant] on few vertexes or places (C38), and counterexamples. *)
From Coq Require Import List Bool Arith Lia Floats Reals Lra.
From Verif Require Import Num RNum FNum Res ModelMath ModelSeg ModelPline ModelRedundant Spec SpecPline SpecGeom SpecRedundant ProofR ProofInvert ProofArc ProofArc2 ProofRedundant ProofRedundantR.
Import ListNotations.

Section Small.
Context {T : Type} {N : Num T}.
Variable (eps : T) (p : pline T).

Lemma redundant_few : vertex_count p < 2 -> remove_redundant p eps = Ret None.
Proof. intros H. unfold remove_redundant. now rewrite (proj2 (Nat.ltb_lt _ _) H). Qed.

Lemma redundant_two a b : vtx p = [a; b] ->
  remove_redundant p eps = Ret (if same_place eps b a then Some (PL [b] (is_closed p)) else None).
Proof.
  intros E. unfold remove_redundant, vertex_count. rewrite E. cbn [length Nat.ltb Nat.leb Nat.eqb].
  rewrite (at_ok p 0 a), (at_ok p 1 b) by now rewrite E. cbn [rbind].
  change (v2fuzzy_eq_eps (pos a) (pos b) eps) with (same_place eps b a). now destruct (same_place eps b a).
Qed.

Lemma start_loop_all run : forall f i v1 v2,
  (forall w, In w (v2 :: run) -> same_place eps w v1 = true) ->
  (forall k w, nth_error run k = Some w -> nth_error (vtx p) (i + k) = Some w) ->
  vertex_count p = i + length run -> length run < f ->
  exists v, redundant_start_loop p eps f i v1 v2 = Ret (with_bulge v1 (pbulge (last run v2)), v, vertex_count p).
Proof.
  induction run as [|w run IH]; intros f i v1 v2 HN HR VC HF; (destruct f as [|f]; [cbn [length] in HF; lia|]); cbn [redundant_start_loop];
    change (v2fuzzy_eq_eps (pos v1) (pos v2) eps) with (same_place eps v2 v1); rewrite (HN v2 (or_introl eq_refl)); cbn [length] in *.
  - destruct (Nat.leb_spec (vertex_count p) i) as [_|B]; [|lia]. exists v2. cbn [last]. do 2 f_equal. lia.
  - destruct (Nat.leb_spec (vertex_count p) i) as [B|_]; [lia|].
    rewrite (at_ok p i w) by (rewrite <- (HR 0 w eq_refl); f_equal; lia). cbn [rbind].
    destruct (IH f (i + 1) (with_bulge v1 (pbulge v2)) w) as (v & IH').
    + intros y Hy. change (same_place eps y v1 = true). apply HN. now right.
    + intros k y Hk. rewrite <- (HR (S k) y Hk). f_equal. lia.
    + lia.
    + lia.
    + exists v. rewrite IH'. rewrite last_cons. reflexivity.
Qed.

Lemma redundant_one_place a run : vtx p = a :: run -> 2 <= length run ->
  (forall w, In w run -> same_place eps w a = true) ->
  remove_redundant p eps = Ret (Some (PL [Vtx (px a) (py a) (pbulge (last run a))] (is_closed p))).
Proof.
  intros E L H. assert (VC : vertex_count p = S (length run)) by (unfold vertex_count; now rewrite E).
  unfold remove_redundant. destruct (Nat.ltb_spec (vertex_count p) 2) as [B|_]; [lia|].
  destruct (Nat.eqb_spec (vertex_count p) 2) as [B|_]; [lia|].
  destruct run as [|b run]; [cbn in L; lia|].
  rewrite (at_ok p 0 a), (at_ok p 1 b) by now rewrite E. cbn [rbind].
  destruct (start_loop_all run (vertex_count p) 2 a b) as (v & S).
  - exact H.
  - intros k w Hk. rewrite E. exact Hk.
  - cbn [length] in VC. lia.
  - cbn [length] in VC. lia.
  - rewrite S. cbn [rbind]. destruct (Nat.eqb_spec (vertex_count p) 2) as [B|_]; [cbn [length] in *; lia|].
    rewrite Nat.leb_refl. rewrite last_cons. reflexivity.
Qed.

Lemma redundant_one_more a run c : vtx p = a :: run ++ [c] -> run <> [] ->
  (forall w, In w run -> same_place eps w a = true) -> same_place eps c a = false ->
  remove_redundant p eps = Ret (Some (PL [Vtx (px a) (py a) (pbulge (last run a))] (is_closed p))).
Proof.
  intros E NE H C. destruct run as [|b run]; [congruence|].
  assert (VC : vertex_count p = S (S (S (length run)))) by (unfold vertex_count; rewrite E; cbn [length app]; rewrite app_length; cbn [length]; lia).
  unfold remove_redundant. destruct (Nat.ltb_spec (vertex_count p) 2) as [B|_]; [lia|].
  destruct (Nat.eqb_spec (vertex_count p) 2) as [B|_]; [lia|].
  rewrite (at_ok p 0 a), (at_ok p 1 b) by now rewrite E. cbn [rbind].
  rewrite (start_loop_run eps p run) with (c := c).
  - cbn [rbind]. destruct (Nat.eqb_spec (2 + length run + 1) 2) as [B|_]; [lia|].
    destruct (Nat.leb_spec (vertex_count p) (2 + length run + 1)) as [_|B]; [|lia]. rewrite last_cons. reflexivity.
  - exact H.
  - intros k w Hk. rewrite E. cbn [app Nat.add nth_error]. rewrite nth_error_app1 by (apply nth_error_Some; congruence). exact Hk.
  - rewrite E. cbn [app Nat.add nth_error]. rewrite nth_error_app2, Nat.sub_diag by lia. reflexivity.
  - exact C.
  - lia.
Qed.
End Small.

(** ** What is exactly redundant is dropped and nothing drawn changes *)
Section Exact.
Local Open Scope R_scope.

Lemma straight_dropped eps v1 v2 v3 : 0 < eps -> same_place eps v3 v2 = false ->
  pbulge v1 = 0 -> pbulge v2 = 0 ->
  (px v3 - px v2) * (py v2 - py v1) = (py v3 - py v2) * (px v2 - px v1) ->
  0 <= (px v3 - px v2) * (px v2 - px v1) + (py v3 - py v2) * (py v2 - py v1) ->
  drops eps (marked v1) (marked v2) v3 (marked v1)
  /\ forall q, on_seg v1 v3 q <-> on_seg v1 v2 q \/ on_seg v2 v3 q.
Proof.
  intros E NS Z1 Z2 C D.
  assert (O1 : bulge_ok (pbulge v1)) by now left. assert (O2 : bulge_ok (pbulge v2)) by now left.
  assert (T1 : turn_of v1 = None) by now apply turn_of_R. assert (T2 : turn_of v2 = None) by now apply turn_of_R.
  assert (DR : drops eps (marked v1) (marked v2) v3 (marked v1)).
  { replace (marked v1) with (MK (mk_v (marked v1)) None None) at 2 by (unfold marked; now rewrite T1).
    apply drops_straight; cbn [marked mk_v mk_turn]; [exact NS|exact T1|exact T2|]. now apply straight_found. }
  split; [exact DR|]. intros q. apply (exact_drop_path eps (marked v1) (marked v2) v3 (marked v1) DR); cbn [marked mk_v].
  - split; [exact O1|congruence].
  - split; [exact O2|congruence].
  - split; [reflexivity|]. split; [reflexivity|]. cbn [marked mk_v].
    split; [intros H; congruence|]. split; [intros _ _; now split|]. intros b (s & H & _). cbn [marked mk_turn] in H. congruence.
Qed.

Lemma arcs_dropped eps v1 v2 v3 c r a : 0 < eps -> same_place eps v3 v2 = false -> seg_ok v1 v2 -> seg_ok v2 v3 ->
  0 < pbulge v1 * pbulge v2 ->
  is_arc (pos v1) (pos v2) (pbulge v1) c r a -> is_arc (pos v2) (pos v3) (pbulge v2) c r (a + sweep (pbulge v1)) ->
  Rabs (sweep (pbulge v1)) + Rabs (sweep (pbulge v2)) <= PI ->
  exists b m, sweep b = sweep (pbulge v1) + sweep (pbulge v2) /\ mk_v m = Vtx (px v1) (py v1) b
  /\ drops eps (marked v1) (marked v2) v3 m
  /\ forall q, on_seg (mk_v m) v3 q <-> on_seg v1 v2 q \/ on_seg v2 v3 q.
Proof.
  intros E NS S1 S2 PP A1 A2 L.
  assert (exists s, turn_of v1 = Some s /\ turn_of v2 = Some s) as (s & T1 & T2).
  { destruct (Rlt_dec 0 (pbulge v1)) as [P|P].
    - exists true. split; [now apply (turn_of_R v1 (proj1 S1))|]. apply (turn_of_R v2 (proj1 S2)). nra.
    - assert (Q : pbulge v1 < 0) by (destruct (Req_dec (pbulge v1) 0) as [Z|Z]; [rewrite Z in PP; lra|lra]).
      exists false. split; [now apply (turn_of_R v1 (proj1 S1))|]. apply (turn_of_R v2 (proj1 S2)). nra. }
  destruct (arc_found eps v1 v2 v3 c r a s E S1 S2 T1 T2 A1 A2 L) as (b & OA & SB & Q1 & Q2 & TL).
  exists b. eexists. split; [exact SB|]. pose proof (drops_arc eps (marked v1) (marked v2) v3 b NS OA) as DR.
  split; [|split; [exact DR|]]; [reflexivity|].
  apply (exact_drop_path eps (marked v1) (marked v2) v3 _ DR S1 S2).
  split; [reflexivity|]. split; [reflexivity|]. cbn [marked mk_v]. split; [intros H; congruence|].
  split.
  - intros H. cbn [marked mk_turn] in H. congruence.
  - intros b' _. unfold circle_of. cbn [marked mk_circle mk_v]. rewrite Q1, Q2. cbn [snd]. now split.
Qed.
End Exact.
(** ** Counterexamples *)
Local Open Scope float_scope.

Lemma redundant_lost_corner :
  exists (p q : pline float) (v : vertex float),
    remove_redundant p 0.00001 = Ret (Some q) /\ is_closed p = true /\ In v (vtx p)
    /\ forallb (fun w => (10 <=? abs (px w - px v)) || (10 <=? abs (py w - py v))) (vtx q) = true
    /\ exists a b, area p = Ret a /\ area q = Ret b /\ (90 <=? a) = true /\ (b <=? 60) = true.
Proof.
  exists (PL [Vtx 0 0 0; Vtx 10 0 0; Vtx 10 10 0; Vtx 0 10 0; Vtx 0 0 0; Vtx 0.001 0 0] true),
    (PL [Vtx 0 10 0; Vtx 10 0 0; Vtx 10 10 0] true), (Vtx 0 0 0).
  split; [vm_compute; reflexivity|]. split; [reflexivity|]. split; [now left|]. split; [vm_compute; reflexivity|].
  do 2 eexists. split; [vm_compute; reflexivity|]. split; [vm_compute; reflexivity|]. split; vm_compute; reflexivity.
Qed.

Lemma redundant_right_angle :
  exists (p : pline float) (v1 v2 v3 v4 : vertex float),
    vtx p = [v1; v2; v3; v4] /\ is_closed p = false
    /\ py v1 = py v2 /\ px v2 = px v3 /\ (100 * 0.00001 <=? px v2 - px v1) = true /\ (100 * 0.00001 <=? py v3 - py v2) = true
    /\ remove_redundant p 0.00001 = Ret (Some (PL [v1; v3; v4] false)).
Proof.
  exists (PL [Vtx 0 0 0; Vtx 0.001953125 0 0; Vtx 0.001953125 0.001953125 0; Vtx 10 0.001953125 0] false).
  do 4 eexists. split; [reflexivity|]. repeat split; vm_compute; reflexivity.
Qed.
