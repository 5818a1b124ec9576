(** Examples of loops in boolean results that pass no point twice (C77). *)
From Coq Require Import Reals ZArith Bool List Arith Lra Lia.
From Verif Require Import Num RNum Res ModelMath ModelSeg ModelPline ModelIndex ModelIntersects ModelBoolean.
From Verif Require Import Spec SpecGeom SpecBox SpecIndex SpecBoolean SpecPrune SpecPolyBool SpecJordan SpecCircle SpecCurve SpecOffset SpecPolyOff.
From Verif Require Import ProofIndex2 ProofJordan6 ProofDisc ProofDisc2 ProofRing2 ProofCurveEx ProofTotal4 ProofPass3.
Import ListNotations.
Local Open Scope R_scope.

Theorem discs_passing mk c1 u1 b1 r1 c2 u2 b2 r2 eps op idx boxes : unit_vec u1 -> b1 = 1 \/ b1 = -1 -> unit_vec u2 -> b2 = 1 \/ b2 = -1 ->
  0 < eps -> clear_circles eps c1 u1 r1 c2 u2 r2 -> makes_index mk -> index_of boxes idx ->
  boxes = map (fun s => seg_fast_approx_bounding_box (fst s) (snd s)) (spec_segs (vtx (circle c1 u1 r1 b1)) (is_closed (circle c1 u1 r1 b1))) ->
  exists r, polyline_boolean mk (circle c1 u1 r1 b1) (circle c2 u2 r2 b2) op idx eps = Ret r
  /\ (forall l, In l (br_pos r ++ br_neg r) -> passes_once (brp_pline l)
        /\ forall q, on_path (brp_pline l) q -> dist q c1 = r1 \/ dist q c2 = r2)
  /\ (forall i j a b q, nth_error (br_pos r ++ br_neg r) i = Some a -> nth_error (br_pos r ++ br_neg r) j = Some b -> i <> j ->
        on_path (brp_pline a) q -> on_path (brp_pline b) q -> op = BXor /\ dist q c1 = r1 /\ dist q c2 = r2).
Proof.
  intros U1 B1 U2 B2 E C MK IO EB. pose proof C as (S1 & S2 & _). pose proof (r_pos r1 eps E S1) as R1. pose proof (r_pos r2 eps E S2) as R2.
  assert (P1 : forall q, on_path (circle c1 u1 r1 b1) q -> dist q c1 = r1) by (intros q Q; now apply (disc_on c1 u1 b1 U1 B1 r1 R1)).
  assert (P2 : forall q, on_path (circle c2 u2 r2 b2) q -> dist q c2 = r2) by (intros q Q; now apply (disc_on c2 u2 b2 U2 B2 r2 R2)).
  destruct (loops_passing mk (circle c1 u1 r1 b1) (circle c2 u2 r2 b2) eps op idx boxes) as (r & Er & L & D); auto.
  - now apply discs_clear.
  - apply disc_loop.
  - apply disc_loop.
  - now apply disc_once.
  - now apply disc_once.
  - exists r. split; [exact Er|]. split.
    + intros l I. destruct (L l I) as (_ & _ & L3 & L4). split; [exact L3|]. intros q Q. destruct (L4 q Q); auto.
    + intros i j a b q Ei Ej N Qa Qb. destruct (D i j a b q Ei Ej N Qa Qb) as (Eo & Q1 & Q2). auto.
Qed.

Lemma ex_passing op : let p1 := ex_half in let p2 := polygon ex_slab in
  exists r, polyline_boolean (@list_index R RNum) p1 p2 op (ex_index p1) (1 / 100000) = Ret r /\ br_pos r <> []
  /\ (forall l, In l (br_pos r ++ br_neg r) -> passes_once (brp_pline l))
  /\ (forall i j a b q, nth_error (br_pos r ++ br_neg r) i = Some a -> nth_error (br_pos r ++ br_neg r) j = Some b -> i <> j ->
        on_path (brp_pline a) q -> on_path (brp_pline b) q -> op = BXor /\ (q = V2 (3 / 5) (-4 / 5) \/ q = V2 (3 / 5) 0)).
Proof.
  intros p1 p2. destruct (ex_loops_run op) as (r & E & R1 & R2).
  destruct (loops_passing (@list_index R RNum) p1 p2 (1 / 100000) op (ex_index p1) _ ltac:(lra) ex_loops list_index_ok (list_index_ok _) eq_refl ex_half_loop slab_loop ex_half_once slab_once)
    as (r' & E' & L & D).
  assert (X : Ret r = Ret r') by (rewrite <- E; exact E'). injection X as <-.
  exists r. split; [exact E|]. split; [|split].
  - intros Z. destruct op.
    1,3,4: assert (X : region (fun p y => inside p y = true) r (V2 0 (-1 / 2))) by (apply R1; discriminate).
    4: assert (X : region (fun p y => inside p y = true) r (V2 (4 / 5) (-1 / 4))) by (apply R2; now right).
    all: destruct X as ((l & I & _) & _); rewrite Z in I; destruct I.
  - intros l I. apply (L l I).
  - intros i j a b q Ei Ej N Qa Qb. destruct (D i j a b q Ei Ej N Qa Qb) as (Eo & Q1 & Q2). split; [exact Eo|]. now apply ex_common.
Qed.
