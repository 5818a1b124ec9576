(** An L offset to its outer side (C80). *)
From Coq Require Import Reals ZArith Bool List Arith Lra Lia Psatz.
From Verif Require Import Num RNum Res ModelMath ModelSeg ModelPline ModelIndex ModelOffset.
From Verif Require Import Spec SpecGeom SpecIntr SpecBox SpecBoolean SpecView SpecIndex SpecCuts SpecOffset SpecOffNear SpecPolyOff SpecOffsetJoin SpecJordan SpecConvex SpecRound SpecSegIntr SpecCurve SpecSimple SpecOpen.
From Verif Require Import ProofR ProofBase ProofIter ProofArc ProofIntr ProofIndex2 ProofPolyOff ProofPolyOff2 ProofPolyOff3 ProofCircleOff ProofPolyBool2 ProofOff7 ProofOff9 ProofOffEx ProofOffEx2 ProofPiecesEx ProofOpen1 ProofOpen2.
From Verif Require ProofConvex ProofConvexOff ProofJordan ProofJordan2 ProofJordan5.
Import ListNotations.
Local Open Scope R_scope.

Definition ell : pline R := PL [Vtx 0 0 0; Vtx 4 0 0; Vtx 4 4 0] false.
Definition ell_raw (b : R) : pline R := PL [Vtx 0 (-1 / 2) 0; Vtx 4 (-1 / 2) b; Vtx (9 / 2) 0 0; Vtx (9 / 2) 4 0] false.
Definition ell_dual : pline R := PL [Vtx 0 (1 / 2) 0; Vtx (7 / 2) (1 / 2) 0; Vtx (7 / 2) 4 0] false.

Ltac l_dir := unfold clear_direction, pos; cbn [vx vy px py]; first [left; lra|right; rabs_lra].
Ltac l_pt := let P1 := fresh in let P2 := fresh in intros (P1 & P2); cbn [vx vy] in P1, P2; revert P1 P2; rabs_lra.

Lemma l_vtx (x y x' y' w : R) : x = x' -> y = y' -> Vtx x y w = Vtx x' y' w. Proof. intros -> ->. reflexivity. Qed.

Section Ell.
Variable b : R.
Hypothesis B : 2 / 5 <= b <= 1.
Hypothesis Sb : 4 * atan b = PI / 2.
Let A1 := Vtx 4 (-1 / 2) b.
Let A2 := Vtx (9 / 2) 0 0.

Lemma l_cos : cos (- (PI / 2)) = 0. Proof. rewrite cos_neg. apply cos_PI2. Qed.
Lemma l_sin : sin (- (PI / 2)) = -1. Proof. rewrite sin_neg, sin_PI2. lra. Qed.
Lemma l_unit : (Rabs 0 = 1 /\ -1 = 0) \/ (0 = 0 /\ Rabs (-1) = 1). Proof. right. split; [reflexivity|rabs_lra]. Qed.
Lemma l_A1 : A1 = Vtx (4 + 0 / 2) (0 + -1 / 2) b. Proof. unfold A1. f_equal; lra. Qed.
Lemma l_A2 : A2 = Vtx (4 - -1 / 2) (0 + 0 / 2) 0. Proof. unfold A2. f_equal; lra. Qed.

Lemma l_arc : quarter b A1 A2 4 0 4 (9 / 2) (-1 / 2) 0.
Proof. apply (quarter_of b B Sb 4 0 0 (-1) (- (PI / 2)) 0); [apply l_cos|apply l_sin|apply l_A1|apply l_A2|intros; lra]. Qed.
Lemma l_wide : wide A1 A2 (1 / 100000).
Proof. rewrite l_A1, l_A2. exact (quarter_wide b B Sb 4 0 0 (-1) (- (PI / 2)) 0 l_cos l_sin l_unit). Qed.
Lemma l_far x y : (forall k l, 0 <= k <= 1 -> 0 <= l <= 1 -> 1 / 10 <= Rabs (4 + (0 * k - -1 * l) / 2 - x) \/ 1 / 10 <= Rabs (0 + (-1 * k + 0 * l) / 2 - y)) -> ~ near_seg A1 A2 (1 / 100000) (V2 x y).
Proof. rewrite l_A1, l_A2. exact (quarter_far b B Sb 4 0 0 (-1) (- (PI / 2)) 0 l_cos l_sin x y). Qed.
Lemma l_touch x1 y1 x2 y2 t : ~ is_point (V2 x1 y1) (V2 x2 y2) (1 / 100000) -> clear_direction (V2 x1 y1) (V2 x2 y2) ->
  ~ near_seg A1 A2 (1 / 100000) (V2 x1 y1) -> ~ near_seg A1 A2 (1 / 100000) (V2 x2 y2) ->
  (x1 = x2 /\ Rabs (x1 - 4) = 1 / 2 /\ y1 + t * (y2 - y1) = 0 /\ (y1 - 0) * (y2 - 0) >= 1 /\ Rabs (y1 - 0) >= 1 / 2 /\ Rabs (y2 - 0) >= 1 / 2)
  \/ (y1 = y2 /\ Rabs (y1 - 0) = 1 / 2 /\ x1 + t * (x2 - x1) = 4 /\ (x1 - 4) * (x2 - 4) >= 1 /\ Rabs (x1 - 4) >= 1 / 2 /\ Rabs (x2 - 4) >= 1 / 2) -> touches_elsewhere (1 / 100000) (Vtx x1 y1 0) (Vtx x2 y2 0) A1 A2.
Proof. rewrite l_A1, l_A2. exact (quarter_touch b B Sb 4 0 0 (-1) (- (PI / 2)) 0 l_cos l_sin l_unit x1 y1 x2 y2 t). Qed.

Lemma l_off x y : (forall u w, 4 <= u <= 9 / 2 -> -1 / 2 <= w <= 0 -> (u - 4) * (u - 4) + w * w = 1 / 4 -> 1 / 100 <= (x - u) * (x - u) + (y - w) * (y - w)) -> ~ near_seg A1 A2 (1 / 100000) (V2 x y).
Proof.
  intros H (q & O & [(Z & _)|(_ & c & r & al & A & D)]); [cbn in Z; lra|]. destruct l_arc as (_ & _ & U & Q). destruct (U c r) as (-> & ->); [exists al; exact A|]. destruct (Q q O) as (Q1 & Q2 & Q3).
  specialize (H (vx q) (vy q) Q1 Q2 ltac:(lra)). pose proof (ProofIntr.dist_sqr (V2 x y) q) as E. cbn [vx vy] in E. rewrite <- E in H. pose proof (ProofIntr.dist_pos (V2 x y) q). assert (D' : dist (V2 x y) q <= 1 / 20) by lra. nra.
Qed.
Lemma l_line_off x1 y1 x2 y2 b' x y : (forall k, 0 <= k <= 1 -> 1 / 10 <= Rabs (x1 + k * (x2 - x1) - x) \/ 1 / 10 <= Rabs (y1 + k * (y2 - y1) - y)) -> ~ near_seg (Vtx x1 y1 0) (Vtx x2 y2 b') (1 / 100000) (V2 x y).
Proof.
  clear. intros H (q & O & [(_ & D)|(Z & _)]); [|apply Z; reflexivity]. apply line_on' in O as (k & Hk & X & Y). specialize (H k Hk). rewrite <- X, <- Y in H. pose proof (ProofJordan.coord_dist (V2 x y) q) as (D1 & D2). cbn [vx vy] in D1, D2. destruct H; lra.
Qed.

(** A line through the centre of the arc. *)
Lemma l_through x1 y1 x2 y2 b' t0 : ~ is_point (V2 x1 y1) (V2 x2 y2) (1 / 100000) -> clear_direction (V2 x1 y1) (V2 x2 y2) ->
  x1 + t0 * (x2 - x1) = 4 -> y1 + t0 * (y2 - y1) = 0 ->
  ~ near_seg A1 A2 (1 / 100000) (V2 x1 y1) -> ~ near_seg A1 A2 (1 / 100000) (V2 x2 y2) ->
  ~ near_seg (Vtx x1 y1 0) (Vtx x2 y2 b') (1 / 100000) (V2 4 (-1 / 2)) -> ~ near_seg (Vtx x1 y1 0) (Vtx x2 y2 b') (1 / 100000) (V2 (9 / 2) 0) ->
  (forall x y t, x = x1 + t * (x2 - x1) -> y = y1 + t * (y2 - y1) -> (x - 4) * (x - 4) + y * y = 1 / 4 ->
     ~ near_seg (Vtx x1 y1 0) (Vtx x2 y2 b') (1 / 100000) (V2 x y) \/ ~ near_seg A1 A2 (1 / 100000) (V2 x y)) ->
  line_arc_clear (1 / 100000) (Vtx x1 y1 0) (Vtx x2 y2 b') A1 A2.
Proof.
  intros P C X0 Y0 E1 E2 E3 E4 S. split; [exact P|]. split; [exact C|]. destruct l_arc as (_ & _ & U & _). intros c r A. destruct (U c r A) as (-> & ->). right.
  split; [|split; [exact l_wide|]].
  - exists t0. unfold line_pt, pos. cbn [px py vx vy]. rewrite X0, Y0. rewrite (ProofJordan5.dist_self (V2 4 0)). lra.
  - split; [|split].
    + intros e [-> | ->]; assumption.
    + intros e [-> | ->]; assumption.
    + intros x [(_ & t & ->)|(Z & _)]; [|exfalso; apply Z; reflexivity]. intros [(Z & _)|(_ & c & r & A' & D)]; [cbn in Z; lra|]. destruct (U c r A') as (-> & ->). right. unfold line_pt, pos in *. cbn [px py vx vy] in *.
      apply (S _ _ t); [reflexivity|reflexivity|]. assert (D2 := ProofIntr.dist_sqr (V2 (x1 + t * (x2 - x1)) (y1 + t * (y2 - y1))) (V2 4 0)). rewrite D in D2. cbn [vx vy] in D2. lra.
Qed.

Ltac facts := repeat match goal with
  | O : on_seg (Vtx 4 (-1 / 2) b) (Vtx (9 / 2) 0 0) _ |- _ => apply (proj2 (proj2 (proj2 l_arc))) in O; destruct O as (? & ? & ?)
  | O : on_seg _ _ _ |- _ => apply line_on' in O; destruct O as (? & ? & ? & ?) end.
Ltac one_side := unfold sides_clear; cbn [pbulge]; split; [|split; [|split]]; intros ? ?; first [exfalso; lra
  |unfold lines_clear, pos; cbn [px py]; first [left; beside_with 1|left; beside_with (-1)|right; left; beside_with 1|right; left; beside_with (-1)]].
Ltac l_near := apply l_far; intros ? ? ? ?; first [left; rabs_lra|right; rabs_lra].

Lemma ell_clear : clear_pline (1 / 100000) (ell_raw b) /\ clear_pline (1 / 100000) ell_dual.
Proof.
  split; intros v1 v2 H; cbn in H; (repeat (destruct H as [H|H]; [injection H as <- <-; split; [split; [cbn [pbulge]; first [left; reflexivity|right; rewrite Rabs_pos_eq by lra; lra]|cbn [pbulge]; intros E; first [now destruct E|unfold pos; cbn [px py]; intros Q; injection Q as Q1 Q2; lra]]|cbn [px py]; first [left; rabs_lra|right; rabs_lra]]|])); destruct H.
Qed.

Lemma ell_lone : lone_open (1 / 100000) (ell_raw b).
Proof.
  split; [reflexivity|]. split; [apply ell_clear|]. split.
  - intros i v1 v2 v3. destruct i as [|[|[|i]]]; cbn; intros E1 E2; try discriminate; try (destruct i; discriminate); injection E1 as <- <-; injection E2 as <-.
    + right. left. cbn [pbulge]. split; [reflexivity|]. split; [lra|]. split; [l_dir|]. destruct l_arc as (_ & A & _). exists (V2 4 0), (1 / 2). split; [exact A|]. split; [unfold at_right_angles, vec, pos; cbn [vx vy px py]; lra|].
      pose proof (ProofJordan.coord_dist (pos (Vtx 0 (-1 / 2) 0)) (V2 4 0)) as (D1 & D2). unfold pos in *. cbn [vx vy px py] in *. revert D1. rabs_lra.
    + right. right. cbn [pbulge]. split; [lra|]. split; [reflexivity|]. split; [l_dir|]. destruct l_arc as (_ & A & _). exists (V2 4 0), (1 / 2). split; [exact A|]. unfold at_right_angles, vec, pos; cbn [vx vy px py]; lra.
  - intros i j v1 v2 u1 u2. destruct i as [|[|[|i]]]; cbn; intros E1; [..|destruct i; discriminate]; destruct j as [|[|[|j]]]; cbn; intros E2; try (destruct j; discriminate); injection E1 as <- <-; injection E2 as <- <-; intros N1 N2 N3; try (exfalso; lia).
    all: split; [one_side|intros q O1 O2; facts; lra].
Qed.

Lemma ell_miss : clearly_miss (1 / 100000) (ell_raw b) ell_dual.
Proof.
  intros v1 v2 u1 u2 I1 I2. cbn in I1, I2. destruct I1 as [I1|[I1|[I1|[]]]]; injection I1 as <- <-; destruct I2 as [I2|[I2|[]]]; injection I2 as <- <-.
  1,2,5,6: left; split; [one_side|intros q O1 O2; facts; lra].
  - right. right. apply (l_touch 0 (1 / 2) (7 / 2) (1 / 2) (8 / 7)); [l_pt|l_dir|l_near|l_near|]. right. repeat split; first [lra|rabs_lra].
  - right. right. apply (l_touch (7 / 2) (1 / 2) (7 / 2) 4 (-1 / 7)); [l_pt|l_dir|l_near|l_near|]. left. repeat split; first [lra|rabs_lra].
Qed.

Lemma ell_apart : clearly_miss (1 / 100000) (ell_raw b) ell.
Proof.
  intros v1 v2 u1 u2 I1 I2. cbn in I1, I2. destruct I1 as [I1|[I1|[I1|[]]]]; injection I1 as <- <-; destruct I2 as [I2|[I2|[]]]; injection I2 as <- <-.
  1,2,5,6: left; split; [one_side|intros q O1 O2; facts; lra].
  all: left; split; [unfold sides_clear; cbn [pbulge]; split; [|split; [|split]]; intros ? ?; try (exfalso; lra)|intros q O1 O2; facts].
  - apply (l_through 0 0 4 0 0 1); [l_pt|l_dir|lra|lra|apply l_off; intros; nra|apply l_off; intros; nra|apply l_line_off; intros; first [left; rabs_lra|right; rabs_lra]..|].
    intros x y t X Y Q. assert (y = 0) by lra. subst y. assert ((x - 9 / 2) * (x - 7 / 2) = 0) as Z by lra. apply Rmult_integral in Z as [Z|Z].
    + left. replace x with (9 / 2) by lra. apply l_line_off. intros. left. rabs_lra.
    + right. replace x with (7 / 2) by lra. apply l_off. intros. nra.
  - nra.
  - apply (l_through 4 0 4 4 0 0); [l_pt|l_dir|lra|lra|apply l_off; intros; nra|apply l_off; intros; nra|apply l_line_off; intros; first [left; rabs_lra|right; rabs_lra]..|].
    intros x y t X Y Q. assert (x = 4) by lra. subst x. assert ((y - 1 / 2) * (y + 1 / 2) = 0) as Z by lra. apply Rmult_integral in Z as [Z|Z].
    + right. replace y with (1 / 2) by lra. apply l_off. intros. nra.
    + left. replace y with (-1 / 2) by lra. apply l_line_off. intros. right. rabs_lra.
  - nra.
Qed.

Lemma ell_beside : path_beside ell (- (1 / 2)) (1 / 100000) (ell_raw b).
Proof.
  split; [reflexivity|]. split.
  - cbn. unfold pos. cbn [px py]. repeat (constructor; [cbn [fst snd px py]; l_pt|]). constructor.
  - exists [[A1; A2]], (Vtx 0 0 0), (Vtx 4 0 0), (Vtx 4 0 0), (Vtx 4 4 0), (V2 0 1), (V2 (-1) 0). split; [|split; [reflexivity|split; [reflexivity|split; [apply (ln 0 0 4 0 0 1); lra|split; [apply (ln 4 0 4 4 (-1) 0); lra|]]]]].
    + cbn. constructor; [|constructor]. cbn. right. exists A1, A2. split; [|reflexivity]. exists (V2 0 1), (V2 (-1) 0), (- (PI / 2)). unfold pos; cbn [px py]. split; [apply (ln 0 0 4 0 0 1); lra|]. split; [apply (ln 4 0 4 4 (-1) 0); lra|]. unfold cross, vec. cbn [vx vy]. split; [lra|]. split; [rabs_lra|]. split.
      * intros x ((s & Es) & (t & Et)). pose proof (f_equal vx Et) as Y1. unfold line_pt, moved in Y1. cbn [vx vy] in Y1. pose proof (ProofJordan.coord_dist (moved (V2 4 0) (V2 0 1) (- (1 / 2))) x) as (D1 & _). unfold moved in *. cbn [vx vy] in *. revert D1. rabs_lra.
      * split; [unfold A1, moved; apply vec2_eq; cbn [px py vx vy]; lra|]. split; [unfold A2, vertex_at, moved; cbn [vx vy]; f_equal; lra|]. replace (Rabs (- (1 / 2))) with (1 / 2) by rabs_lra. cbn [pbulge A1]. split; [|rewrite Rabs_pos_eq; lra].
        pose proof (quarter_arc b Sb 4 0 0 (-1) (- (PI / 2)) 0 l_cos l_sin) as Q. rewrite <- l_A1, <- l_A2 in Q. exact Q.
    + unfold ell_raw, vertex_at, moved, pos. cbn [vtx concat app vx vy px py]. unfold A1, A2. apply f_equal2; [apply l_vtx; lra|]. do 2 f_equal. f_equal. apply l_vtx; lra.
Qed.

Lemma ell_other : path_beside ell (1 / 2) (1 / 100000) ell_dual.
Proof.
  clear. split; [reflexivity|]. split.
  - cbn. unfold pos. cbn [px py]. repeat (constructor; [cbn [fst snd px py]; l_pt|]). constructor.
  - exists [[Vtx (7 / 2) (1 / 2) 0]], (Vtx 0 0 0), (Vtx 4 0 0), (Vtx 4 0 0), (Vtx 4 4 0), (V2 0 1), (V2 (-1) 0). split; [|split; [reflexivity|split; [reflexivity|split; [apply (ln 0 0 4 0 0 1); lra|split; [apply (ln 4 0 4 4 (-1) 0); lra|]]]]].
    + cbn. constructor; [|constructor]. cbn. left. exists (V2 (7 / 2) (1 / 2)). split; [|reflexivity]. exists (V2 0 1), (V2 (-1) 0), (7 / 8), (1 / 8). unfold pos; cbn [px py]. split; [apply (ln 0 0 4 0 0 1); lra|]. split; [apply (ln 4 0 4 4 (-1) 0); lra|]. split; [lra|]. split; [lra|].
      split; [unfold line_pt, moved; apply vec2_eq; cbn [vx vy]; lra|]. split; [unfold line_pt, moved; apply vec2_eq; cbn [vx vy]; lra|]. unfold cross, vec. cbn [vx vy]. rabs_lra.
    + unfold ell_dual, vertex_at, moved, pos. cbn [vtx concat app vx vy px py]. apply f_equal2; [apply l_vtx; lra|]. f_equal. f_equal. apply l_vtx; lra.
Qed.

Lemma ell_keeps q y : on_path (ell_raw b) q -> on_path ell y -> 1 / 2 <= dist q y.
Proof.
  intros (v1 & v2 & I & O) (u1 & u2 & J & O').
  assert (CD : forall w z, 1 / 2 <= Rabs (vx z - vx w) \/ 1 / 2 <= Rabs (vy z - vy w) -> 1 / 2 <= dist w z) by (intros w z H; destruct (ProofJordan.coord_dist w z); lra).
  cbn in I, J. destruct I as [I|[I|[I|[]]]]; injection I as <- <-; destruct J as [J|[J|[]]]; injection J as <- <-; facts.
  1,2,5,6: apply CD; first [left; rabs_lra|right; rabs_lra].
  all: apply Rsqr_incr_0_var; [|apply ProofIntr.dist_pos]; unfold Rsqr; rewrite ProofIntr.dist_sqr; nra.
Qed.

Lemma ell_ends : off_ends (1 / 100000) (- (1 / 2)) ell (ell_raw b).
Proof.
  assert (Ab : Rabs (- (1 / 2)) = 1 / 2) by rabs_lra.
  assert (LF : forall x1 y1 x2 y2 b' cx cy, clear_direction (V2 x1 y1) (V2 x2 y2) -> (forall k, 1 <= Rabs (x1 + k * (x2 - x1) - cx) \/ 1 <= Rabs (y1 + k * (y2 - y1) - cy)) ->
     off_circle (1 / 100000) (V2 cx cy) (1 / 2) (Vtx x1 y1 0) (Vtx x2 y2 b')).
  { intros x1 y1 x2 y2 b' cx cy C H. split; [|intros Z; exfalso; apply Z; reflexivity]. intros _. split; [exact C|]. left. exists 1. split; [lra|]. intros k.
    pose proof (ProofJordan.coord_dist (V2 cx cy) (line_pt (pos (Vtx x1 y1 0)) (pos (Vtx x2 y2 b')) k)) as (D1 & D2). rewrite ProofJordan2.dist_sym in D1, D2. unfold line_pt, pos in *. cbn [vx vy px py] in *. destruct (H k); lra. }
  assert (AF : forall cx cy, 2 <= Rabs (cx - 4) \/ 2 <= Rabs (cy - 0) -> off_circle (1 / 100000) (V2 cx cy) (1 / 2) A1 A2).
  { intros cx cy H. split; [intros Z; cbn in Z; lra|]. intros _ k r A. destruct l_arc as (_ & _ & U & _). destruct (U k r A) as (-> & ->). left. pose proof (ProofJordan.coord_dist (V2 4 0) (V2 cx cy)) as (D1 & D2). cbn [vx vy] in D1, D2. destruct H; lra. }
  intros i v1 v2. rewrite Ab. destruct i as [|[|[|i]]]; cbn [ell_raw vtx spec_segs combine tl app nth_error length Nat.add]; [..|destruct i; discriminate]; intros E; injection E as <- <-.
  - split; [intros _; l_dir|]. split; [intros N; exfalso; now apply N|]. intros _ z [= <-]. unfold pos; cbn [px py]. apply LF; [l_dir|]. intros k. right. rabs_lra.
  - split; [intros [H|H]; discriminate|]. split; [intros _ a [= <-]|intros _ z [= <-]]; unfold pos; cbn [px py]; apply AF; first [left; rabs_lra|right; rabs_lra].
  - split; [intros _; l_dir|]. split; [|intros N; exfalso; now apply N]. intros _ a [= <-]. unfold pos; cbn [px py]. apply LF; [l_dir|]. intros k. left. rabs_lra.
Qed.
End Ell.

Lemma ell_offset : parallel_offset_constructed (@list_index R _) ell (- (1 / 2)) (OO (1 / 100000) (1 / 10000) (1 / 10000) false) = Ret [ell_raw (tan (PI / 8))].
Proof.
  destruct eighth as (B & S). assert (Ab : Rabs (- (1 / 2)) = 1 / 2) by rabs_lra.
  apply (offsets_to_intro (@list_index R _) _ (- (1 / 2)) (OO (1 / 100000) (1 / 10000) (1 / 10000) false) _ list_index_ok); [cbn; lia|]. intros idx IX.
  apply (open_offset (@list_index R _) ell (- (1 / 2)) (OO (1 / 100000) (1 / 10000) (1 / 10000) false) (ell_raw (tan (PI / 8))) ell_dual); cbn [oo_pos_equal_eps oo_slice_join_eps oo_offset_dist_eps].
  - lra.
  - split; [reflexivity|]. intros v I. cbn in I. destruct I as [<-|[<-|[<-|[]]]]; reflexivity.
  - cbn. lia.
  - now apply ell_beside.
  - rewrite Ropp_involutive. exact ell_other.
  - now apply ell_lone.
  - exact (proj2 (ell_clear _ B)).
  - now apply ell_miss.
  - now apply ell_apart.
  - rewrite Ab. now apply ell_keeps.
  - now apply ell_ends.
  - exact list_index_ok.
  - exact IX.
  - rewrite Ab. lra.
Qed.
