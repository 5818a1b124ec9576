(** Rays that miss a path, and the point of a polygon nearest to a point (C70). *)
From Coq Require Import Reals ZArith Bool List Arith Lra Lia Psatz Classical.
From Verif Require Import Num RNum Res ModelMath ModelSeg ModelPline.
From Verif Require Import Spec SpecGeom SpecIntr SpecBox SpecBoolean SpecOffset SpecPolyOff SpecOffsetJoin SpecConvex.
From Verif Require Import ProofR ProofBase ProofIter ProofIntr ProofArc ProofWinding6 ProofNest ProofPolyOff ProofConvex ProofRound3.
Import ListNotations.
Local Open Scope R_scope.

Lemma ray_outside p M x u : pline_ok p -> valid_loop p -> (forall q, on_path p q -> Rabs (vx q) < M /\ Rabs (vy q) < M) -> unit u ->
  (forall k, 0 <= k -> ~ on_path p (moved x u k)) -> wn p x = 0%Z.
Proof.
  intros Ok Vl B U H. set (k := 2 * (Rabs M + Rabs (vx x) + Rabs (vy x))).
  pose proof (Rabs_pos M) as PM. pose proof (Rabs_pos (vx x)) as PX. pose proof (Rabs_pos (vy x)) as PY. pose proof (Rle_abs M) as LM.
  assert (Hk : 0 <= k) by (unfold k; lra).
  rewrite (wn_straight p x (moved x u k) Ok).
  - apply (far_outside p M _ Ok Vl B). unfold unit, dot in U.
    pose proof (Rle_abs (vx x)) as LX. pose proof (Rle_abs (vy x)) as LY. pose proof (Rle_abs (- vx x)) as LX'. pose proof (Rle_abs (- vy x)) as LY'. rewrite Rabs_Ropp in LX', LY'.
    assert (G : 1 / 2 <= vx u \/ 1 / 2 <= vy u \/ vx u <= - (1 / 2) \/ vy u <= - (1 / 2)).
    { destruct (Rle_dec (1 / 2) (vx u)); [tauto|]. destruct (Rle_dec (1 / 2) (vy u)); [tauto|]. destruct (Rle_dec (vx u) (- (1 / 2))); [tauto|]. destruct (Rle_dec (vy u) (- (1 / 2))); [tauto|]. exfalso. nra. }
    unfold moved. cbn [vx vy].
    destruct G as [G|[G|[G|G]]]; [left|right; left|right; right; left|right; right; right];
      [assert (k * (1 / 2) <= k * vx u) by (apply Rmult_le_compat_l; assumption)| assert (k * (1 / 2) <= k * vy u) by (apply Rmult_le_compat_l; assumption)| assert (k * vx u <= k * - (1 / 2)) by (apply Rmult_le_compat_l; assumption)| assert (k * vy u <= k * - (1 / 2)) by (apply Rmult_le_compat_l; assumption)]; unfold k in *; lra.
  - intros t Ht. replace (line_pt x (moved x u k) t) with (moved x u (t * k)) by (unfold line_pt, moved; cbn [vx vy]; f_equal; ring). apply H. apply Rmult_le_pos; lra.
Qed.

(** The point of a line from [a] to [b] nearest to [x]. *)
Lemma nearest_on x a b : exists t, 0 <= t <= 1 /\ forall u, 0 <= u <= 1 -> dist x (line_pt a b t) <= dist x (line_pt a b u).
Proof.
  set (f := fun t => (vx x - (vx a + t * (vx b - vx a))) * (vx x - (vx a + t * (vx b - vx a))) + (vy x - (vy a + t * (vy b - vy a))) * (vy x - (vy a + t * (vy b - vy a)))).
  destruct (continuity_ab_min f 0 1) as (t & L & Ht); [lra| |].
  - intros c _. unfold f. reg.
  - exists t. split; [exact Ht|]. intros u Hu. specialize (L u Hu). apply sqrt_le_1_alt. exact L.
Qed.

Lemma nearest_side x (l : list (vec2 R * vec2 R)) : l <> [] ->
  exists a b t, In (a, b) l /\ 0 <= t <= 1 /\ forall c e u, In (c, e) l -> 0 <= u <= 1 -> dist x (line_pt a b t) <= dist x (line_pt c e u).
Proof.
  induction l as [|(a, b) l IH]; [contradiction|]. intros _. destruct (nearest_on x a b) as (t & Ht & Nt).
  destruct l as [|s l].
  - exists a, b, t. split; [now left|]. split; [exact Ht|]. intros c e u [E|[]] Hu. injection E as <- <-. now apply Nt.
  - destruct IH as (a' & b' & t' & I & Ht' & N'); [discriminate|]. destruct (Rle_dec (dist x (line_pt a b t)) (dist x (line_pt a' b' t'))) as [L|L].
    + exists a, b, t. split; [now left|]. split; [exact Ht|]. intros c e u [E|J] Hu; [injection E as <- <-; now apply Nt|]. specialize (N' c e u J Hu). lra.
    + exists a', b', t'. split; [now right|]. split; [exact Ht'|]. intros c e u [E|J] Hu; [injection E as <- <-; specialize (Nt u Hu); lra|]. now apply N'.
Qed.

(** Going a little from [p] towards [y], when that is not away from [x], brings one nearer to [x]. *)
Lemma towards x p y : 0 < dot (vec p x) (vec p y) -> exists t, 0 < t <= 1 /\ dist x (line_pt p y t) < dist x p.
Proof.
  intros D. set (d := dot (vec p x) (vec p y)) in *. set (l := dot (vec p y) (vec p y)).
  assert (L : 0 < l).
  { unfold l, dot. pose proof (Rle_0_sqr (vx (vec p y))) as A. pose proof (Rle_0_sqr (vy (vec p y))) as B. unfold Rsqr in *. destruct (Req_dec (vx (vec p y)) 0) as [X|X]; [destruct (Req_dec (vy (vec p y)) 0) as [Y|Y]|].
    - exfalso. unfold d, dot in D. rewrite X, Y in D. lra.
    - destruct (Rdichotomy _ _ Y); nra.
    - destruct (Rdichotomy _ _ X); nra. }
  set (t := Rmin 1 (d / l)). assert (T0 : 0 < t) by (apply Rmin_glb_lt; [lra|now apply Rdiv_lt_0_compat]). assert (T1 : t <= 1) by apply Rmin_l.
  assert (T2 : t * l <= d). { pose proof (Rmin_r 1 (d / l)) as Q. fold t in Q. apply Rmult_le_compat_r with (r := l) in Q; [|lra]. replace (d / l * l) with d in Q by (field; lra). exact Q. }
  exists t. split; [lra|]. apply Rsqr_incrst_0; [|apply sqrt_pos|apply sqrt_pos]. unfold Rsqr. rewrite !dist_sqr. unfold d, l, dot, vec, line_pt in *. cbn [vx vy] in *.
  set (a := vx x - vx p) in *. set (b := vy x - vy p) in *. set (c := vx y - vx p) in *. set (e := vy y - vy p) in *.
  replace (vx x - (vx p + t * c)) with (a - t * c) by (unfold a; ring). replace (vy x - (vy p + t * e)) with (b - t * e) by (unfold b; ring).
  assert (0 < t * (a * c + b * e)) by (apply Rmult_lt_0_compat; lra). assert (t * (t * (c * c + e * e)) <= t * (a * c + b * e)) by (apply Rmult_le_compat_l; lra). lra.
Qed.
