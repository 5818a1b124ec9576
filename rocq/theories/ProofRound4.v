(** The offset of a convex polygon to its outer side: the path (C70). *)
From Coq Require Import Reals ZArith Bool List Arith Lra Lia Psatz Classical.
From Verif Require Import Num RNum Res ModelMath ModelIntr ModelSeg ModelPline ModelView ModelSegIntr ModelIndex ModelIntersects ModelBoolean ModelOffset.
From Verif Require Import Spec SpecPline SpecGeom SpecIntr SpecSegIntr SpecWinding SpecOffset SpecOffsetJoin SpecIndex SpecIntersects SpecCuts SpecOffNear SpecBoolean SpecView SpecBox SpecPrune SpecPolyOff SpecJordan SpecConvex SpecRound.
From Verif Require Import ProofR ProofBase ProofIter ProofIntr ProofArc ProofMeasure ProofIndex2 ProofSegIntr2 ProofSegIntr5 ProofSegIntr6 ProofOffsetJoin4 ProofRawNear2 ProofSlice ProofWinding4 ProofWinding6 ProofNest ProofWhole ProofJordan2 ProofJordan5 ProofOverlap ProofPolyOff ProofPolyOff2 ProofConvex ProofConvexOff ProofRound1 ProofRound2 ProofRound3 ProofRay.
Import ListNotations.
Local Open Scope R_scope.

(** ** Lists of pairs *)
Lemma round_vtx (x0 : vertex R * vertex R) t : vtx (round_path (x0 :: t)) = snd x0 :: flat_map (fun x => [fst x; snd x]) t ++ [fst x0].
Proof.
  unfold round_path. cbn [vtx map]. change [fst x0; snd x0] with ([fst x0] ++ [snd x0]). rewrite going_round_snoc. f_equal. f_equal.
  now rewrite flat_map_concat_map.
Qed.

Lemma pairs_nth (y : vertex R) t : forall x0 i, (i <= length t)%nat ->
  nth_error (snd x0 :: flat_map (fun x : vertex R * vertex R => [fst x; snd x]) t ++ [y]) (2 * i) = nth_error (map snd (x0 :: t)) i
  /\ nth_error (snd x0 :: flat_map (fun x : vertex R * vertex R => [fst x; snd x]) t ++ [y]) (2 * i + 1) = nth_error (map fst t ++ [y]) i.
Proof.
  induction t as [|x t IH]; intros x0 i Hi.
  - cbn in Hi. replace i with 0%nat by lia. split; reflexivity.
  - destruct i as [|i]; [split; reflexivity|]. cbn [length] in Hi. destruct (IH x i ltac:(lia)) as (A & B). replace (2 * S i)%nat with (S (S (2 * i))) by lia. split.
    + exact A.
    + exact B.
Qed.

Lemma round_length vws : length (vtx (round_path vws)) = (2 * length vws)%nat.
Proof.
  destruct vws as [|x0 t]; [reflexivity|]. rewrite round_vtx. cbn [length]. rewrite app_length. cbn [length].
  assert (E : length (flat_map (fun x : vertex R * vertex R => [fst x; snd x]) t) = (2 * length t)%nat) by (induction t as [|x t IH]; [reflexivity|]; cbn [flat_map app length]; rewrite IH; lia). lia.
Qed.

Definition v0 : vertex R := Vtx 0 0 0.

Lemma round_nth vws i : (i < length vws)%nat -> nth_error (vtx (round_path vws)) (2 * i) = Some (snd (nth i vws (v0, v0)))
  /\ nth_error (vtx (round_path vws)) (2 * i + 1) = Some (fst (nth ((i + 1) mod length vws) vws (v0, v0))).
Proof.
  intros Hi. destruct vws as [|x0 t]; [cbn in Hi; lia|]. rewrite round_vtx. destruct (pairs_nth (fst x0) t x0 i) as (A & B); [cbn in Hi; lia|]. rewrite A, B. split.
  - rewrite nth_error_map. rewrite (nth_error_nth' (x0 :: t) (v0, v0) Hi). reflexivity.
  - destruct (Nat.eq_dec (i + 1) (length (x0 :: t))) as [E|E].
    + rewrite E, Nat.mod_same by (cbn; lia). assert (i = length (map fst t)) by (rewrite map_length; cbn in E; lia). rewrite H, nth_error_app2, Nat.sub_diag by lia. reflexivity.
    + rewrite Nat.mod_small by lia. assert (L : (i < length t)%nat) by (cbn in Hi, E; lia). rewrite nth_error_app1 by now rewrite map_length. rewrite nth_error_map, (nth_error_nth' t (v0, v0) L). replace (i + 1)%nat with (S i) by lia. reflexivity.
Qed.

Lemma previous_nth {A} (l : list A) i x y : (i < length l)%nat -> nth_error l i = Some x -> nth_error l ((i + 1) mod length l) = Some y ->
  nth_error (with_previous l) ((i + 1) mod length l) = Some (x, y).
Proof.
  intros Hi Ex Ey. destruct (with_previous_next l i x Ex) as (z & Ez). destruct (with_previous_this l _ y Ey) as (w & Ew). rewrite Ez in Ew |- *. now injection Ew as -> ->.
Qed.

Lemma with_previous_map {A B} (f : A -> B) l : with_previous (map f l) = map (fun x => (f (fst x), f (snd x))) (with_previous l).
Proof.
  assert (C : forall l m, combine (map f l) (map f m) = map (fun s : A * A => (f (fst s), f (snd s))) (combine l m)) by (induction l0 as [|x l0 IH]; intros [|y m]; cbn; [reflexivity..|]; now rewrite IH).
  destruct l as [|x l]; [reflexivity|]. unfold with_previous. cbn [map]. change (f x :: map f l) with (map f (x :: l)). rewrite C. cbn [map fst snd]. f_equal. f_equal.
  clear C. revert x. induction l as [|y l IH]; intros x; [reflexivity|]. destruct l as [|z l]; [reflexivity|]. exact (IH x).
Qed.

Section Round.
Variables (s e eps m : R) (ps : list (vec2 R)) (vws : list (vertex R * vertex R)).
Hypothesis Hs : s = 1 \/ s = -1.
Hypothesis He : 0 < e.
Hypothesis Hm : 0 < m.
Hypothesis Ro : roomy s e m ps.
Let d := - s * e.
Let n := length ps.

Lemma rd_n3 : (3 <= n)%nat. Proof. apply Ro. Qed.
Lemma rd_ss : s * s = 1. Proof. destruct Hs as [-> | ->]; ring. Qed.
Lemma rd_dabs : Rabs d = e.
Proof. unfold d. destruct Hs as [-> | ->]; [rewrite Rabs_left|rewrite Rabs_pos_eq]; lra. Qed.

Definition rP (i : nat) : vec2 R := nth (i mod n) ps (V2 0 0).

Lemma rP_nth i : nth_error ps (i mod n) = Some (rP i).
Proof. apply nth_error_nth'. apply Nat.mod_upper_bound. pose proof rd_n3. fold n. lia. Qed.
Lemma rP_in i : In (rP i) ps. Proof. eapply nth_error_In. apply rP_nth. Qed.
Lemma rP_mod i j : i mod n = j mod n -> rP i = rP j. Proof. unfold rP. now intros ->. Qed.
Lemma rP_inj i j : rP i = rP j -> i mod n = j mod n.
Proof.
  intros E. destruct Ro as (_ & ND & _). pose proof rd_n3. apply (NoDup_nth ps (V2 0 0)); [exact ND| | |exact E]; apply Nat.mod_upper_bound; fold n; lia.
Qed.
Lemma mod_step i : ((i mod n) + 1) mod n = (i + 1) mod n.
Proof. pose proof rd_n3. apply Nat.add_mod_idemp_l. lia. Qed.
Lemma mod_neq i : i mod n <> (i + 1) mod n.
Proof.
  pose proof rd_n3. rewrite <- mod_step. pose proof (Nat.mod_upper_bound i n ltac:(lia)) as B. set (k := i mod n) in *.
  destruct (Nat.eq_dec (k + 1) n) as [E|E]; [rewrite E, Nat.mod_same; lia|rewrite Nat.mod_small; lia].
Qed.

Lemma side_len : length (spec_segs ps true) = n.
Proof. rewrite spec_segs_length. fold n. pose proof rd_n3. destruct (Nat.ltb_spec n 2); [lia|reflexivity]. Qed.

Lemma side_nth i : nth_error (spec_segs ps true) (i mod n) = Some (rP i, rP (i + 1)).
Proof.
  pose proof rd_n3. assert (L : (i mod n < length (spec_segs ps true))%nat) by (rewrite side_len; apply Nat.mod_upper_bound; lia).
  destruct (nth_error (spec_segs ps true) (i mod n)) as [(a, b)|] eqn:E; [|apply nth_error_None in E; lia].
  destruct (segs_nth ps _ a b E) as (A & B). fold n in B. rewrite mod_step in B. rewrite rP_nth in A, B. congruence.
Qed.
Lemma side_in i : In (rP i, rP (i + 1)) (spec_segs ps true). Proof. eapply nth_error_In. apply side_nth. Qed.
Lemma side_of a b : In (a, b) (spec_segs ps true) -> exists i, (i < n)%nat /\ a = rP i /\ b = rP (i + 1).
Proof.
  intros I. apply In_nth_error in I as (i & E). assert (L : (i < n)%nat) by (rewrite <- side_len; apply nth_error_Some; congruence).
  exists i. split; [exact L|]. pose proof (side_nth i) as S. rewrite Nat.mod_small in S by exact L. rewrite E in S. injection S as -> ->. now split.
Qed.
Lemma side_neq i : rP i <> rP (i + 1).
Proof. intros E. apply rP_inj in E. now apply mod_neq in E. Qed.

Definition rD (i : nat) : R := dist (rP i) (rP (i + 1)).
Lemma rD_pos i : 0 < rD i. Proof. apply dist_pos, side_neq. Qed.

Definition rN (i : nat) : vec2 R := V2 (- (vy (rP (i + 1)) - vy (rP i)) / rD i) ((vx (rP (i + 1)) - vx (rP i)) / rD i).
Lemma rN_normal i : left_normal (rP i) (rP (i + 1)) (rN i). Proof. apply left_normal_exists, side_neq. Qed.
Definition rO (i : nat) : vec2 R := V2 (- s * vx (rN i)) (- s * vy (rN i)).

Lemma rO_unit i : unit (rO i).
Proof. destruct (rN_normal i) as (U & _). unfold unit, dot, rO. cbn [vx vy]. transitivity (s * s * (vx (rN i) * vx (rN i) + vy (rN i) * vy (rN i))); [ring|]. rewrite U, rd_ss. ring. Qed.
Lemma moved_out p i : moved p (rN i) d = moved p (rO i) e.
Proof. unfold moved, rO, d. apply vec2_eq; cbn [vx vy]; ring. Qed.
Lemma rO_dot i z : dot (rO i) z * rD i = - (s * cross (vec (rP i) (rP (i + 1))) z).
Proof. pose proof (rD_pos i). unfold dot, rO, rN, cross, vec. cbn [vx vy]. field. lra. Qed.
Lemma rO_mod i j : i mod n = j mod n -> rO i = rO j.
Proof.
  intros E. assert (E' : (i + 1) mod n = (j + 1) mod n) by (rewrite <- (mod_step i), <- (mod_step j), E; reflexivity).
  unfold rO, rN, rD. now rewrite (rP_mod i j E), (rP_mod (i + 1) (j + 1) E').
Qed.

(** All corners are behind every side, those not on it by [m]. *)
Lemma out_corner i j : j mod n <> i mod n -> j mod n <> (i + 1) mod n -> dot (rO i) (vec (rP i) (rP j)) <= - m.
Proof.
  intros N1 N2. destruct Ro as (_ & _ & C & _). specialize (C (rP i) (rP (i + 1)) (rP j) (side_in i) (rP_in j)).
  assert (A1 : rP j <> rP i) by (intros E; now apply rP_inj in E). assert (A2 : rP j <> rP (i + 1)) by (intros E; now apply rP_inj in E).
  specialize (C A1 A2). fold (rD i) in C. pose proof (rO_dot i (vec (rP i) (rP j))) as E. pose proof (rD_pos i). apply Rmult_le_reg_r with (rD i); lra.
Qed.
Lemma out_side i : dot (rO i) (vec (rP i) (rP (i + 1))) = 0.
Proof. pose proof (rO_dot i (vec (rP i) (rP (i + 1)))) as E. pose proof (rD_pos i). apply Rmult_eq_reg_r with (rD i); [|lra]. rewrite E. unfold cross. ring. Qed.
Lemma out_self i : dot (rO i) (vec (rP i) (rP i)) = 0. Proof. unfold dot, vec. cbn [vx vy]. ring. Qed.
Lemma out_any i j : dot (rO i) (vec (rP i) (rP j)) <= 0.
Proof.
  destruct (Nat.eq_dec (j mod n) (i mod n)) as [E|N1]; [rewrite (rP_mod j i E), out_self; lra|].
  destruct (Nat.eq_dec (j mod n) ((i + 1) mod n)) as [E|N2]; [rewrite (rP_mod j (i + 1) E), out_side; lra|].
  pose proof (out_corner i j N1 N2). lra.
Qed.

(** Different directions. *)
Lemma out_out i j : i mod n <> j mod n -> e * dot (rO i) (rO j) <= e - m.
Proof.
  intros N. destruct Ro as (_ & _ & _ & C). specialize (C _ _ _ _ _ _ (side_nth i) (side_nth j) N). fold (rD i) (rD j) in C.
  pose proof (rD_pos i) as A. pose proof (rD_pos j) as B. assert (AB : 0 < rD i * rD j) by (apply Rmult_lt_0_compat; lra).
  assert (E : dot (rO i) (rO j) * (rD i * rD j) = vx (vec (rP i) (rP (i + 1))) * vx (vec (rP j) (rP (j + 1))) + vy (vec (rP i) (rP (i + 1))) * vy (vec (rP j) (rP (j + 1)))).
  { unfold dot, rO, rN, vec. cbn [vx vy]. transitivity (s * s * ((vx (rP (i + 1)) - vx (rP i)) * (vx (rP (j + 1)) - vx (rP j)) + (vy (rP (i + 1)) - vy (rP i)) * (vy (rP (j + 1)) - vy (rP j)))); [field; lra|]. rewrite rd_ss. ring. }
  rewrite <- E in C. apply Rmult_le_reg_r with (rD i * rD j); [exact AB|]. lra.
Qed.

Lemma out_m : m <= 2 * e.
Proof.
  pose proof (out_out 0 1) as H. pose proof rd_n3. assert (N : 0 mod n <> 1 mod n) by (rewrite !Nat.mod_small; lia). specialize (H N).
  assert (D : -1 <= dot (rO 0) (rO 1)).
  { pose proof (rO_unit 0) as U. pose proof (rO_unit 1) as V. unfold unit, dot in *. pose proof (Rle_0_sqr (vx (rO 0) + vx (rO 1))) as A. pose proof (Rle_0_sqr (vy (rO 0) + vy (rO 1))) as B. unfold Rsqr in *. lra. }
  assert (- e <= e * dot (rO 0) (rO 1)) by (rewrite <- (Rmult_1_r e) at 1; rewrite Ropp_mult_distr_r; apply Rmult_le_compat_l; lra). lra.
Qed.

(** Corners are at least [m] apart. *)
Lemma dot_dist u a b : unit u -> Rabs (dot u (vec a b)) <= dist a b.
Proof.
  intros U. rewrite <- (Rabs_pos_eq (dist a b)) by apply sqrt_pos. apply Rsqr_le_abs_0. unfold Rsqr. rewrite dist_sqr. unfold unit, dot, vec in *. cbn [vx vy].
  set (x := vx b - vx a). set (y := vy b - vy a). replace (vx a - vx b) with (- x) by (unfold x; ring). replace (vy a - vy b) with (- y) by (unfold y; ring).
  pose proof (Rle_0_sqr (vx u * y - vy u * x)) as Q. unfold Rsqr in Q.
  assert (E : (vx u * x + vy u * y) * (vx u * x + vy u * y) + (vx u * y - vy u * x) * (vx u * y - vy u * x) = (vx u * vx u + vy u * vy u) * (x * x + y * y)) by ring. rewrite U in E. lra.
Qed.

Lemma mod_prev i : exists j, (j + 1) mod n = i mod n.
Proof. pose proof rd_n3. exists (i + (n - 1))%nat. replace (i + (n - 1) + 1)%nat with (i + 1 * n)%nat by lia. apply Nat.mod_add. lia. Qed.

Lemma corners_apart i j : i mod n <> j mod n -> m <= dist (rP i) (rP j).
Proof.
  intros N. pose proof rd_n3 as N3. destruct (Nat.eq_dec (j mod n) ((i + 1) mod n)) as [E|N2].
  - (* the line of the next side *)
    assert (A : dot (rO j) (vec (rP j) (rP i)) <= - m).
    { apply out_corner; [exact N|]. intros E2. rewrite <- mod_step, E in E2. rewrite mod_step in E2. clear - E2 N3.
      replace (i + 1 + 1)%nat with (i + 2)%nat in E2 by lia. rewrite <- Nat.add_mod_idemp_l in E2 by lia. pose proof (Nat.mod_upper_bound i n ltac:(lia)). set (k := i mod n) in *.
      destruct (Nat.lt_ge_cases (k + 2) n); [rewrite Nat.mod_small in E2; lia|]. replace (k + 2)%nat with (k + 2 - n + 1 * n)%nat in E2 by lia. rewrite Nat.mod_add in E2 by lia. rewrite Nat.mod_small in E2; lia. }
    pose proof (dot_dist (rO j) (rP j) (rP i) (rO_unit j)) as D. rewrite dist_sym in D. rewrite Rabs_left1 in D by lra. lra.
  - pose proof (out_corner i j (not_eq_sym N) N2) as A. pose proof (dot_dist (rO i) (rP i) (rP j) (rO_unit i)) as D. rewrite Rabs_left1 in D by lra. lra.
Qed.

Lemma rD_m i : m <= rD i. Proof. apply corners_apart, mod_neq. Qed.

(** ** The two ends of the arcs *)
Hypothesis Co : coarse eps e m.

Lemma co_eps : 0 < eps. Proof. apply Co. Qed.
Lemma co_em : 4 * eps <= m.
Proof. destruct Co as (E & _ & _ & A & _). apply Rmult_le_reg_l with e; [exact He|]. assert (0 <= eps * 8) by lra. lra. Qed.
Lemma co_mm : 16 * eps <= m * m.
Proof. destruct Co as (E & _ & _ & _ & A & _). assert (0 <= 8 * e * eps) by (apply Rmult_le_pos; lra). lra. Qed.

Lemma not_close a b : 2 * eps <= dist a b -> ~ is_point a b eps.
Proof. intros L P. pose proof (point_near a b eps co_eps P). pose proof co_eps. lra. Qed.

Lemma turn_cross i : m * rD i <= s * cross (vec (rP i) (rP (i + 1))) (vec (rP (i + 1)) (rP (i + 2))).
Proof.
  pose proof rd_n3 as N3. replace (i + 2)%nat with (i + 1 + 1)%nat by lia.
  assert (A : dot (rO i) (vec (rP i) (rP (i + 1 + 1))) <= - m).
  { apply out_corner; [|apply not_eq_sym, mod_neq].
    rewrite <- !(mod_step (i + 1)), <- (mod_step i). pose proof (Nat.mod_upper_bound i n ltac:(lia)) as B. set (k := i mod n) in *.
    destruct (Nat.eq_dec (k + 1) n) as [E|E]; [rewrite E, Nat.mod_same, Nat.mod_small by lia; lia|]. rewrite (Nat.mod_small (k + 1)) by lia.
    destruct (Nat.eq_dec (k + 1 + 1) n) as [E'|E']; [rewrite E', Nat.mod_same by lia; lia|rewrite Nat.mod_small; lia]. }
  pose proof (rO_dot i (vec (rP i) (rP (i + 1 + 1)))) as E. pose proof (rD_pos i) as D.
  replace (cross (vec (rP i) (rP (i + 1))) (vec (rP (i + 1)) (rP (i + 1 + 1)))) with (cross (vec (rP i) (rP (i + 1))) (vec (rP i) (rP (i + 1 + 1)))) by (unfold cross, vec; cbn [vx vy]; ring).
  assert (dot (rO i) (vec (rP i) (rP (i + 1 + 1))) * rD i <= - m * rD i) by (apply Rmult_le_compat_r; lra). lra.
Qed.

Lemma dot_line_moved i p t : (exists q, p = line_pt (moved (rP i) (rO i) e) (moved (rP (i + 1)) (rO i) e) q /\ t = q) -> dot (rO i) (vec (rP i) p) = e.
Proof.
  intros (q & -> & _). pose proof (rO_unit i) as U. pose proof (out_side i) as S. unfold unit, dot, vec, line_pt, moved in *. cbn [vx vy] in *.
  transitivity (e * (vx (rO i) * vx (rO i) + vy (rO i) * vy (rO i)) + q * (vx (rO i) * (vx (rP (i + 1)) - vx (rP i)) + vy (rO i) * (vy (rP (i + 1)) - vy (rP i)))); [ring|]. rewrite U, S. ring.
Qed.

Lemma dot_moved u p q v h : dot u (vec p (moved q v h)) = dot u (vec p q) + h * dot u v.
Proof. unfold dot, vec, moved. cbn [vx vy]. ring. Qed.
Lemma dot_from u p q y : dot u (vec p y) = dot u (vec p q) + dot u (vec q y).
Proof. unfold dot, vec. cbn [vx vy]. ring. Qed.

Lemma mod_neq2 i : i mod n <> (i + 2) mod n.
Proof.
  pose proof rd_n3 as N3. replace (i + 2)%nat with (i + 1 + 1)%nat by lia. rewrite <- !(mod_step (i + 1)), <- (mod_step i). pose proof (Nat.mod_upper_bound i n ltac:(lia)) as B. set (k := i mod n) in *.
  destruct (Nat.eq_dec (k + 1) n) as [E|E]; [rewrite E, Nat.mod_same, Nat.mod_small by lia; lia|]. rewrite (Nat.mod_small (k + 1)) by lia.
  destruct (Nat.eq_dec (k + 1 + 1) n) as [E'|E']; [rewrite E', Nat.mod_same by lia; lia|rewrite Nat.mod_small; lia].
Qed.

(** The ends of an arc are at least [m] apart. *)
Lemma ends_apart i j x : i mod n <> j mod n -> dot (rO j) (vec (rP j) x) = e -> dot (rO j) (vec (rP j) (rP (i + 1))) <= 0 -> m <= dist (moved (rP (i + 1)) (rO i) e) x.
Proof.
  intros N X Z. pose proof (out_out j i (not_eq_sym N)) as O. pose proof (dot_dist (rO j) (moved (rP (i + 1)) (rO i) e) x (rO_unit j)) as D.
  pose proof (dot_from (rO j) (rP j) (moved (rP (i + 1)) (rO i) e) x) as F. rewrite X, dot_moved in F. pose proof (Rle_abs (dot (rO j) (vec (moved (rP (i + 1)) (rO i) e) x))). lra.
Qed.

Lemma corner_exists i : exists v w, corner_round d eps (rP i) (rP (i + 1)) (rP (i + 2)) v w.
Proof.
  pose proof (turn_cross i) as TC. pose proof (rD_pos i) as D. pose proof (rD_m i) as DM. pose proof co_mm as MM. pose proof co_eps as E0.
  assert (MD : m * m <= m * rD i) by (apply Rmult_le_compat_l; lra).
  pose proof (side_neq i) as N1. pose proof (side_neq (i + 1)) as N2. replace (i + 1 + 1)%nat with (i + 2)%nat in N2 by lia.
  assert (LN2 : left_normal (rP (i + 1)) (rP (i + 2)) (rN (i + 1))) by (replace (i + 2)%nat with (i + 1 + 1)%nat by lia; apply rN_normal).
  assert (X : s * cross (vec (rP i) (rP (i + 1))) (vec (rP (i + 1)) (rP (i + 2))) > 0) by lra.
  assert (DX : d * cross (vec (rP i) (rP (i + 1))) (vec (rP (i + 1)) (rP (i + 2))) < 0). { unfold d. replace (- s * e * cross _ _) with (- (e * (s * cross (vec (rP i) (rP (i + 1))) (vec (rP (i + 1)) (rP (i + 2)))))) by ring. assert (0 < e * (s * cross (vec (rP i) (rP (i + 1))) (vec (rP (i + 1)) (rP (i + 2))))) by (apply Rmult_lt_0_compat; lra). lra. }
  destruct (unit_of _ _ N1) as (e1 & L1 & HL1 & U1 & _ & F1 & _ & M1). destruct (unit_of _ _ N2) as (e2 & L2 & HL2 & U2 & F2 & _ & _ & M2).
  pose proof (M1 _ (rN_normal i)) as Z1. pose proof (M2 _ LN2) as Z2.
  assert (CR : cross (vec (rP i) (rP (i + 1))) (vec (rP (i + 1)) (rP (i + 2))) = L1 * L2 * cross e1 e2).
  { unfold vec. rewrite F1, F2. set (q := rP (i + 1)). unfold cross. cbn [vx vy]. ring. }
  assert (LL : 0 < L1 * L2) by (apply Rmult_lt_0_compat; lra).
  assert (DC : d * cross e1 e2 < 0). { rewrite CR in DX. apply Rmult_lt_reg_l with (L1 * L2); [exact LL|]. rewrite Rmult_0_r. lra. }
  assert (D0 : d <> 0) by (intros Z; rewrite Z in DC; lra). assert (S0 : cross e1 e2 <> 0) by (intros Z; rewrite Z in DC; lra).
  destruct (corner_arc e1 e2 (rP (i + 1)) d U1 U2 S0 (if Rlt_dec d 0 then true else false) D0 DC) as (al & A & B).
  { destruct (Rlt_dec d 0); split; intros Q; try discriminate; try contradiction; auto. }
  rewrite <- Z1, <- Z2 in A, B. set (b := bulge_for_connection _ _ _ _) in *.
  exists (vertex_at (moved (rP (i + 1)) (rN i) d) b), (vertex_at (moved (rP (i + 1)) (rN (i + 1)) d) 0), (rN i), (rN (i + 1)), al.
  split; [apply rN_normal|]. split; [exact LN2|]. split; [exact DX|]. split.
  { destruct Hs as [E|E]; rewrite E in TC; [pose proof (Rle_abs (cross (vec (rP i) (rP (i + 1))) (vec (rP (i + 1)) (rP (i + 2)))))|rewrite <- Rabs_Ropp; pose proof (Rle_abs (- cross (vec (rP i) (rP (i + 1))) (vec (rP (i + 1)) (rP (i + 2)))))]; lra. }
  split.
  { intros x (_ & t & Ex). rewrite !moved_out in Ex. rewrite moved_out. pose proof co_em.
    apply Rle_trans with m; [lra|]. apply (ends_apart i (i + 1)); [apply mod_neq| |rewrite out_self; lra].
    apply (dot_line_moved (i + 1) x t). exists t. split; [|reflexivity]. replace (i + 1 + 1)%nat with (i + 2)%nat by lia. exact Ex. }
  split; [reflexivity|]. split; [reflexivity|]. split; [exact A|exact B].
Qed.

Lemma corners_exist : exists vws, rounded_corners ps d eps vws.
Proof.
  assert (K : forall l, (forall x, In x l -> In x (with_previous (spec_segs ps true))) -> exists vws, Forall2 (fun ss vw => corner_round d eps (fst (fst ss)) (snd (fst ss)) (snd (snd ss)) (fst vw) (snd vw)) l vws).
  { induction l as [|x l IH]; intros Hl; [exists []; constructor|]. destruct IH as (vws' & F); [intros y I; apply Hl; now right|].
    assert (exists i, x = ((rP i, rP (i + 1)), (rP (i + 1), rP (i + 2)))) as (i & ->).
    { specialize (Hl x (or_introl eq_refl)). apply In_nth_error in Hl as (k & E). pose proof rd_n3 as N3.
      assert (L : (k < n)%nat). { rewrite <- side_len, <- (with_previous_length (spec_segs ps true)). apply nth_error_Some. congruence. }
      destruct (mod_prev k) as (i & Ei). rewrite (Nat.mod_small k) in Ei by exact L. exists i.
      pose proof (side_nth i) as S1. pose proof (side_nth (i + 1)) as S2. rewrite Ei in S2. replace (i + 1 + 1)%nat with (i + 2)%nat in S2 by lia.
      pose proof (previous_nth (spec_segs ps true) (i mod n) (rP i, rP (i + 1)) (rP (i + 1), rP (i + 2))) as Q. rewrite side_len, mod_step, Ei in Q.
      rewrite Q in E; [congruence|apply Nat.mod_upper_bound; lia|exact S1|exact S2]. }
    destruct (corner_exists i) as (v & w & C). exists ((v, w) :: vws'). constructor; [exact C|exact F]. }
  apply K. auto.
Qed.

Hypothesis CD : forall a b, In (a, b) (spec_segs ps true) -> clear_direction a b.
Hypothesis RC : rounded_corners ps d eps vws.
Lemma rc_length : length vws = n.
Proof. rewrite <- (forall2_length _ _ _ RC), with_previous_length. apply side_len. Qed.

Definition rV (i : nat) : vertex R := fst (nth ((i + 1) mod n) vws (v0, v0)).
Definition rW (i : nat) : vertex R := snd (nth (i mod n) vws (v0, v0)).

Lemma rc_corner i : corner_round d eps (rP i) (rP (i + 1)) (rP (i + 2)) (rV i) (rW (i + 1)).
Proof.
  pose proof rd_n3 as N3. assert (L : ((i + 1) mod n < length vws)%nat) by (rewrite rc_length; apply Nat.mod_upper_bound; lia).
  pose proof (nth_error_nth' vws (v0, v0) L) as E.
  pose proof (side_nth i) as S1. pose proof (side_nth (i + 1)) as S2. replace (i + 1 + 1)%nat with (i + 2)%nat in S2 by lia.
  pose proof (previous_nth (spec_segs ps true) (i mod n) (rP i, rP (i + 1)) (rP (i + 1), rP (i + 2))) as Q. rewrite side_len, mod_step in Q.
  specialize (Q ltac:(apply Nat.mod_upper_bound; lia) S1 S2).
  exact (forall2_nth _ _ _ _ _ _ RC Q E).
Qed.

Lemma rc_data i : pos (rV i) = moved (rP (i + 1)) (rO i) e /\ rW (i + 1) = vertex_at (moved (rP (i + 1)) (rO (i + 1)) e) 0
  /\ (exists al, is_arc (pos (rV i)) (pos (rW (i + 1))) (pbulge (rV i)) (rP (i + 1)) e al) /\ Rabs (pbulge (rV i)) <= 1.
Proof.
  destruct (rc_corner i) as (n1 & n2 & al & H1 & H2 & _ & _ & _ & PV & PW & A & B).
  rewrite (normal_unique _ _ _ _ H1 (rN_normal i)) in PV. replace (i + 2)%nat with (i + 1 + 1)%nat in H2 by lia. rewrite (normal_unique _ _ _ _ H2 (rN_normal (i + 1))) in PW.
  rewrite moved_out in PV, PW. rewrite rd_dabs in A. split; [exact PV|]. split; [exact PW|]. split; [now exists al|exact B].
Qed.

Lemma rV_pos i : pos (rV i) = moved (rP (i + 1)) (rO i) e. Proof. apply rc_data. Qed.
Lemma rW_mod i j : i mod n = j mod n -> rW i = rW j. Proof. unfold rW. now intros ->. Qed.
Lemma rW_val i : rW i = vertex_at (moved (rP i) (rO i) e) 0.
Proof.
  destruct (mod_prev i) as (j & E). rewrite (rW_mod i (j + 1)) by auto. rewrite (proj1 (proj2 (rc_data j))). now rewrite (rP_mod _ _ E), (rO_mod _ _ E).
Qed.
Lemma rW_pos i : pos (rW i) = moved (rP i) (rO i) e. Proof. rewrite rW_val. reflexivity. Qed.
Lemma rW_bulge i : pbulge (rW i) = 0. Proof. rewrite rW_val. reflexivity. Qed.

Lemma r_chord i : m <= dist (pos (rV i)) (pos (rW (i + 1))).
Proof.
  rewrite rV_pos, rW_pos. apply (ends_apart i (i + 1)); [apply mod_neq| |rewrite out_self; lra].
  rewrite dot_moved, out_self. pose proof (rO_unit (i + 1)) as U. unfold unit in U. rewrite U. ring.
Qed.

Lemma r_bulge i : 1 / 100000000 <= Rabs (pbulge (rV i)).
Proof.
  destruct (rc_data i) as (_ & _ & (al & A) & _). pose proof (r_chord i) as C. set (b := pbulge (rV i)) in *. destruct A as (_ & E1 & E2). rewrite E1, E2 in C.
  pose proof (chord_le_arc (rP (i + 1)) e al (al + sweep b) (sweep b) He (congr_refl _)) as L.
  assert (S : Rabs (sweep b) <= 4 * Rabs b).
  { unfold sweep. rewrite Rabs_mult, (Rabs_pos_eq 4) by lra. apply Rmult_le_compat_l; [lra|]. destruct (Rle_dec 0 b) as [B|B].
    - rewrite (Rabs_pos_eq b B). pose proof (atan_le_id b B). rewrite Rabs_pos_eq; [lra|]. destruct B as [B| <-]; [left; now apply atan_sign|rewrite atan_0; lra].
    - assert (B' : 0 <= - b) by lra. pose proof (atan_le_id (- b) B') as Q. rewrite atan_opp in Q. rewrite (Rabs_left b) by lra. rewrite Rabs_left; [lra|]. apply atan_sign. lra. }
  assert (M : m <= e * (4 * Rabs b)) by (eapply Rle_trans; [eapply Rle_trans; [exact C|exact L]|apply Rmult_le_compat_l; lra]).
  destruct Co as (_ & _ & _ & _ & _ & Q). apply Rmult_le_reg_l with (4 * e); lra.
Qed.
Lemma r_nz i : pbulge (rV i) <> 0.
Proof. intros E. pose proof (r_bulge i) as B. rewrite E, Rabs_R0 in B. lra. Qed.
Lemma r_seg_ok i : seg_ok (rV i) (rW (i + 1)).
Proof.
  split; [right; split; [apply r_bulge|apply rc_data]|]. intros _ E. pose proof (r_chord i) as C. rewrite E in C. replace (dist (pos (rW (i + 1))) (pos (rW (i + 1)))) with 0 in C; [lra|]. symmetry. apply dist_eq_sqr; [lra|ring].
Qed.

(** ** The path *)
Let raw := round_path vws.
Lemma raw_count : vertex_count raw = (2 * n)%nat.
Proof. unfold vertex_count, raw. rewrite round_length, rc_length. reflexivity. Qed.
Lemma raw_even i : (i < n)%nat -> nth_error (vtx raw) (2 * i) = Some (rW i).
Proof. intros L. unfold raw. rewrite (proj1 (round_nth vws i ltac:(rewrite rc_length; exact L))). unfold rW. now rewrite Nat.mod_small by exact L. Qed.
Lemma raw_odd i : (i < n)%nat -> nth_error (vtx raw) (2 * i + 1) = Some (rV i).
Proof. intros L. unfold raw. rewrite (proj2 (round_nth vws i ltac:(rewrite rc_length; exact L))). rewrite rc_length. reflexivity. Qed.

Lemma raw_seg_len : length (spec_segs (vtx raw) true) = (2 * n)%nat.
Proof. rewrite spec_segs_length. change (length (vtx raw)) with (vertex_count raw). rewrite raw_count. pose proof rd_n3. destruct (Nat.ltb_spec (2 * n) 2); [lia|reflexivity]. Qed.

Lemma raw_line i : (i < n)%nat -> nth_error (spec_segs (vtx raw) true) (2 * i) = Some (rW i, rV i).
Proof.
  intros L. destruct (nth_error (spec_segs (vtx raw) true) (2 * i)) as [(a, b)|] eqn:E; [|apply nth_error_None in E; rewrite raw_seg_len in E; lia].
  destruct (segs_nth _ _ _ _ E) as (A & B). change (length (vtx raw)) with (vertex_count raw) in B. rewrite raw_count, Nat.mod_small in B by lia.
  rewrite raw_even in A by exact L. rewrite raw_odd in B by exact L. congruence.
Qed.
Lemma raw_arc i : (i < n)%nat -> nth_error (spec_segs (vtx raw) true) (2 * i + 1) = Some (rV i, rW (i + 1)).
Proof.
  intros L. destruct (nth_error (spec_segs (vtx raw) true) (2 * i + 1)) as [(a, b)|] eqn:E; [|apply nth_error_None in E; rewrite raw_seg_len in E; lia].
  destruct (segs_nth _ _ _ _ E) as (A & B). change (length (vtx raw)) with (vertex_count raw) in B. rewrite raw_count in B.
  replace (2 * i + 1 + 1)%nat with (2 * (i + 1))%nat in B by lia. pose proof rd_n3 as N3. rewrite Nat.mul_mod_distr_l in B by lia.
  rewrite raw_odd in A by exact L. rewrite raw_even in B by (apply Nat.mod_upper_bound; lia). rewrite (rW_mod ((i + 1) mod n) (i + 1)) in B by (apply Nat.mod_mod; lia). congruence.
Qed.

Lemma raw_seg_cases k a b : nth_error (spec_segs (vtx raw) true) k = Some (a, b) ->
  exists i, (i < n)%nat /\ ((k = (2 * i)%nat /\ a = rW i /\ b = rV i) \/ (k = (2 * i + 1)%nat /\ a = rV i /\ b = rW (i + 1))).
Proof.
  intros E. assert (L : (k < 2 * n)%nat) by (rewrite <- raw_seg_len; apply nth_error_Some; congruence).
  destruct (Nat.Even_or_Odd k) as [(i & ->)|(i & ->)]; exists i; (split; [lia|]).
  - left. rewrite raw_line in E by lia. injection E as <- <-. auto.
  - right. rewrite raw_arc in E by lia. injection E as <- <-. auto.
Qed.

Lemma r_len i : dist (pos (rW i)) (pos (rV i)) = rD i.
Proof. rewrite rW_pos, rV_pos. unfold rD, dist, moved. cbn [vx vy]. f_equal. f_equal; f_equal; ring. Qed.
Lemma r_dir i : clear_direction (pos (rW i)) (pos (rV i)).
Proof. rewrite rW_pos, rV_pos. pose proof (CD _ _ (side_in i)) as C. unfold clear_direction, moved in *. cbn [vx vy]. replace (vx (rP (i + 1)) + e * vx (rO i) - (vx (rP i) + e * vx (rO i))) with (vx (rP (i + 1)) - vx (rP i)) by ring. exact C. Qed.
Lemma r_line_far i : ~ is_point (pos (rW i)) (pos (rV i)) eps.
Proof. apply not_close. rewrite r_len. pose proof (rD_m i). pose proof co_em. pose proof co_eps. lra. Qed.
Lemma r_arc_far i : ~ is_point (pos (rV i)) (pos (rW (i + 1))) eps.
Proof. apply not_close. pose proof (r_chord i). pose proof co_em. pose proof co_eps. lra. Qed.

Lemma r_seg_far a b : In (a, b) (spec_segs (vtx raw) true) -> ~ is_point (pos a) (pos b) eps.
Proof. intros I. apply In_nth_error in I as (k & E). apply raw_seg_cases in E as (i & _ & [(_ & -> & ->)|(_ & -> & ->)]); [apply r_line_far|apply r_arc_far]. Qed.

Lemma rd_made : made_corners (polygon ps) d eps (map (fun vw => [fst vw; snd vw]) vws).
Proof.
  change (going_round (map (fun vw : vertex R * vertex R => [fst vw; snd vw]) vws)) with (vtx raw).
  split; [|split].
  - unfold polygon. cbn [vtx]. rewrite ProofPolyOff2.spec_segs_map, with_previous_map. revert RC. unfold rounded_corners. generalize (with_previous (spec_segs ps true)) vws. intros l l' F. induction F as [|x y l l' H F IH]; cbn [map]; constructor; [|exact IH].
    right. exists (fst y), (snd y). split; [|reflexivity]. destruct x as ((a, b), (b', c)). cbn [fst snd] in *. rewrite !pos_vertex. exact H.
  - change (going_round (map (fun vw : vertex R * vertex R => [fst vw; snd vw]) vws)) with (vtx raw). apply Forall_forall. intros (a, b) I. cbn [fst snd]. apply r_seg_far.
    apply In_nth_error in I as (k & E). assert (L : (k < 2 * n)%nat). { rewrite <- raw_count. unfold vertex_count. rewrite <- (with_previous_length (vtx raw)). apply nth_error_Some. congruence. }
    pose proof rd_n3 as N3. assert (exists j, (j < 2 * n)%nat /\ (j + 1) mod (2 * n) = k) as (j & Lj & Ej).
    { destruct k as [|k]; [exists (2 * n - 1)%nat|exists k]; (split; [lia|]).
      - replace (2 * n - 1 + 1)%nat with (2 * n)%nat by lia. apply Nat.mod_same. lia.
      - rewrite Nat.mod_small; lia. }
    destruct (nth_error (spec_segs (vtx raw) true) j) as [(x, y)|] eqn:E'; [|apply nth_error_None in E'; rewrite raw_seg_len in E'; lia].
    destruct (segs_nth _ _ _ _ E') as (X & Y). pose proof (previous_nth (vtx raw) j x y) as Q. change (length (vtx raw)) with (vertex_count raw) in *. rewrite raw_count, Ej in *.
    rewrite (Q Lj X Y) in E. injection E as <- <-. now apply nth_error_In in E'.
  - change (going_round (map (fun vw : vertex R * vertex R => [fst vw; snd vw]) vws)) with (vtx raw). intros a b nn v H N EV. pose proof rd_n3 as N3.
    assert (E0 : nth_error (spec_segs (vtx (polygon ps)) true) 0 = Some (a, b)) by (destruct (spec_segs (vtx (polygon ps)) true); [discriminate|exact H]).
    rewrite polygon_segs in E0. pose proof (side_nth 0) as S. rewrite Nat.mod_0_l in S by lia. rewrite S in E0. cbn [option_map fst snd] in E0. injection E0 as <- <-.
    rewrite !lv_pos in *. rewrite (normal_unique _ _ _ _ N (rN_normal 0)), moved_out. pose proof (raw_odd 0 ltac:(lia)) as V. cbn [Nat.mul Nat.add] in V. rewrite V in EV. injection EV as <-. rewrite <- rW_pos. apply r_line_far.
Qed.

Lemma rd_raw : create_raw_offset_polyline (polygon ps) d eps = Ret raw.
Proof.
  unfold raw, round_path. apply made_raw; [exact co_eps| | |exact rd_made].
  - split; [reflexivity|]. intros v I. unfold polygon in I. cbn [vtx] in I. apply in_map_iff in I as (q & <- & _). reflexivity.
  - unfold vertex_count, polygon. cbn [vtx]. rewrite map_length. pose proof rd_n3. fold n. lia.
Qed.

(** ** It does not meet itself *)
Definition rK (y : vec2 R) : Prop := forall i, dot (rO i) (vec (rP i) y) <= 0.

Lemma rK_corner j : rK (rP j). Proof. intros i. apply out_any. Qed.
Lemma rK_line a b t : rK a -> rK b -> 0 <= t <= 1 -> rK (line_pt a b t).
Proof.
  intros A B Ht i. specialize (A i). specialize (B i). replace (dot (rO i) (vec (rP i) (line_pt a b t))) with ((1 - t) * dot (rO i) (vec (rP i) a) + t * dot (rO i) (vec (rP i) b)) by (unfold dot, vec, line_pt; cbn [vx vy]; ring).
  assert (0 <= (1 - t) * - dot (rO i) (vec (rP i) a)) by (apply Rmult_le_pos; lra). assert (0 <= t * - dot (rO i) (vec (rP i) b)) by (apply Rmult_le_pos; lra). lra.
Qed.

Lemma behind_side i t : 0 <= t <= 1 -> behind rK (line_pt (rP i) (rP (i + 1)) t) (rO i).
Proof.
  intros Ht. split; [apply rK_line; auto using rK_corner|]. split; [apply rO_unit|]. intros y Ky. specialize (Ky i). pose proof (out_side i) as S.
  replace (dot (rO i) (vec (line_pt (rP i) (rP (i + 1)) t) y)) with (dot (rO i) (vec (rP i) y) - t * dot (rO i) (vec (rP i) (rP (i + 1)))) by (unfold dot, vec, line_pt; cbn [vx vy]; ring). rewrite S. lra.
Qed.
Lemma behind_end i : behind rK (rP (i + 1)) (rO i).
Proof. pose proof (behind_side i 1 ltac:(lra)) as B. rewrite line_pt_1 in B. exact B. Qed.
Lemma behind_start i : behind rK (rP i) (rO i).
Proof. pose proof (behind_side i 0 ltac:(lra)) as B. rewrite line_pt_0 in B. exact B. Qed.

Lemma behind_cone p u w v : behind rK p u -> behind rK p w -> unit v -> cone u w v -> behind rK p v.
Proof.
  intros (Kp & _ & A) (_ & _ & B) U (x & y & Hx & Hy & ->). split; [exact Kp|]. split; [exact U|]. intros z Kz. specialize (A z Kz). specialize (B z Kz).
  replace (dot _ (vec p z)) with (x * dot u (vec p z) + y * dot w (vec p z)) by (unfold dot; cbn [vx vy]; ring).
  assert (0 <= x * - dot u (vec p z)) by (apply Rmult_le_pos; lra). assert (0 <= y * - dot w (vec p z)) by (apply Rmult_le_pos; lra). lra.
Qed.

(** The points of the path. *)
Lemma on_line i t : line_pt (pos (rW i)) (pos (rV i)) t = moved (line_pt (rP i) (rP (i + 1)) t) (rO i) e.
Proof. rewrite rW_pos, rV_pos. unfold line_pt, moved. apply vec2_eq; cbn [vx vy]; ring. Qed.

Lemma arc_sweep i al : is_arc (pos (rV i)) (pos (rW (i + 1))) (pbulge (rV i)) (rP (i + 1)) e al ->
  - PI < sweep (pbulge (rV i)) < PI /\ sweep (pbulge (rV i)) <> 0 /\ turn al = rO i /\ turn (al + sweep (pbulge (rV i))) = rO (i + 1).
Proof.
  intros (_ & E1 & E2). rewrite rV_pos, circle_moved in E1. rewrite rW_pos, circle_moved in E2. apply moved_inj in E1; [|lra]. apply moved_inj in E2; [|lra].
  pose proof (r_nz i) as NZ. destruct (rc_data i) as (_ & _ & _ & B). apply atan_1_bound in B. fold (sweep (pbulge (rV i))) in B.
  set (si := sweep (pbulge (rV i))) in *.
  assert (X : cross (rO i) (rO (i + 1)) <> 0).
  { intros Z. pose proof (turn_cross i) as T. pose proof (rD_pos i) as D1. pose proof (rD_pos (i + 1)) as D2. assert (0 < m * rD i) by (apply Rmult_lt_0_compat; lra).
    assert (Q : cross (rO i) (rO (i + 1)) * (rD i * rD (i + 1)) = cross (vec (rP i) (rP (i + 1))) (vec (rP (i + 1)) (rP (i + 2)))).
    { replace (i + 2)%nat with (i + 1 + 1)%nat by lia. unfold cross, rO, rN, vec. cbn [vx vy]. transitivity (s * s * ((vx (rP (i + 1)) - vx (rP i)) * (vy (rP (i + 1 + 1)) - vy (rP (i + 1))) - (vy (rP (i + 1)) - vy (rP i)) * (vx (rP (i + 1 + 1)) - vx (rP (i + 1))))); [field; lra|]. rewrite rd_ss. ring. }
    rewrite Z, Rmult_0_l in Q. rewrite <- Q in T. lra. }
  rewrite E1, E2, cross_turn in X. replace (al + si - al) with si in X by ring.
  split; [|split; [|split; congruence]].
  - destruct B as ([B1|B1] & [B2|B2]); [lra|exfalso; apply X; rewrite B2; apply sin_PI|exfalso; apply X; rewrite <- B1, sin_neg, sin_PI; ring|exfalso; apply X; rewrite B2; apply sin_PI].
  - intros Z. apply X. rewrite Z. apply sin_0.
Qed.

Lemma on_arc i al t : is_arc (pos (rV i)) (pos (rW (i + 1))) (pbulge (rV i)) (rP (i + 1)) e al -> 0 <= t <= 1 ->
  behind rK (rP (i + 1)) (turn (al + t * sweep (pbulge (rV i)))).
Proof.
  intros A Ht. destruct (arc_sweep i al A) as (B & NZ & E1 & E2). apply (behind_cone _ (rO i) (rO (i + 1))); [apply behind_end|apply behind_start|apply turn_unit|].
  rewrite <- E1, <- E2. apply sweep_cone; assumption.
Qed.

Lemma arc_point i q : on_seg (rV i) (rW (i + 1)) q -> exists u, behind rK (rP (i + 1)) u /\ q = moved (rP (i + 1)) u e.
Proof.
  intros (t & Ht & [(Z & _)|(NZ & c & r & a & A & ->)]); [now apply r_nz in Z|]. destruct (rc_data i) as (_ & _ & (al & A') & _).
  destruct (arc_unique _ _ _ _ _ _ NZ A) as (Ec & Er). destruct (arc_unique _ _ _ _ _ _ NZ A') as (Ec' & Er'). rewrite <- Ec' in Ec. rewrite <- Er' in Er. subst c r.
  exists (turn (a + t * sweep (pbulge (rV i)))). split; [|apply circle_moved]. now apply on_arc.
Qed.
Lemma line_point i q : on_seg (rW i) (rV i) q -> exists t, 0 <= t <= 1 /\ behind rK (line_pt (rP i) (rP (i + 1)) t) (rO i) /\ q = moved (line_pt (rP i) (rP (i + 1)) t) (rO i) e.
Proof.
  intros (t & Ht & [(_ & ->)|(NZ & _)]); [|now rewrite rW_bulge in NZ]. exists t. split; [exact Ht|]. split; [now apply behind_side|apply on_line].
Qed.

Lemma line_line i j : i mod n <> j mod n -> beside eps (pos (rW i)) (pos (rV i)) (pos (rW j)) (pos (rV j)).
Proof.
  intros N. exists s. split; [exact Hs|]. intros w Hw.
  assert (X : s * cross (vec (pos (rW i)) (pos (rV i))) (vec (pos (rW i)) w) >= m * rD i).
  { assert (E : exists k, w = moved (rP k) (rO j) e) by (destruct Hw as [-> | ->]; [exists j; apply rW_pos|exists (j + 1)%nat; apply rV_pos]). destruct E as (k & ->).
    rewrite rW_pos, rV_pos. pose proof (rO_dot i (vec (moved (rP i) (rO i) e) (moved (rP k) (rO j) e))) as Q.
    replace (vec (moved (rP i) (rO i) e) (moved (rP (i + 1)) (rO i) e)) with (vec (rP i) (rP (i + 1))) by (unfold vec, moved; cbn [vx vy]; f_equal; ring).
    assert (Z : dot (rO i) (vec (moved (rP i) (rO i) e) (moved (rP k) (rO j) e)) <= - m).
    { rewrite dot_moved. pose proof (out_out i j N). pose proof (out_any i k). pose proof (dot_from (rO i) (rP i) (moved (rP i) (rO i) e) (rP k)) as F. rewrite dot_moved, out_self in F. pose proof (rO_unit i) as U. unfold unit in U. rewrite U in F. lra. }
    pose proof (rD_pos i). assert (dot (rO i) (vec (moved (rP i) (rO i) e) (moved (rP k) (rO j) e)) * rD i <= - m * rD i) by (apply Rmult_le_compat_r; lra). lra. }
  rewrite r_len. pose proof (rD_m i) as DM. pose proof co_mm. pose proof co_em. pose proof co_eps. assert (m * m <= m * rD i) by (apply Rmult_le_compat_l; lra). assert (eps * rD i <= m * rD i) by (apply Rmult_le_compat_r; lra). lra.
Qed.

Lemma line_dist i j t : j mod n <> i mod n -> j mod n <> (i + 1) mod n -> e + m <= dist (line_pt (pos (rW i)) (pos (rV i)) t) (rP j).
Proof.
  intros N1 N2. pose proof (out_corner i j N1 N2) as O. set (x := line_pt _ _ t).
  assert (X : dot (rO i) (vec (rP i) x) = e). { apply (dot_line_moved i x t). exists t. split; [|reflexivity]. unfold x. now rewrite rW_pos, rV_pos. }
  pose proof (dot_from (rO i) (rP i) (rP j) x) as F. pose proof (dot_dist (rO i) (rP j) x (rO_unit i)) as D. rewrite dist_sym in D. pose proof (Rle_abs (dot (rO i) (vec (rP j) x))). lra.
Qed.

Lemma line_arc i j : (j + 1) mod n <> i mod n -> (j + 1) mod n <> (i + 1) mod n ->
  pline_seg_intr (rW i) (rV i) (rV j) (rW (j + 1)) eps = SINoIntersect /\ pline_seg_intr (rV j) (rW (j + 1)) (rW i) (rV i) eps = SINoIntersect.
Proof.
  intros N1 N2. destruct (rc_data j) as (_ & _ & (al & A) & _). pose proof co_em. pose proof co_eps.
  apply (line_arc_misses _ _ _ _ (rP (j + 1)) e al eps m co_eps (rW_bulge i) (r_seg_ok j) (r_nz j) A (r_line_far i) (r_dir i)); [lra|]. intros t. now apply line_dist.
Qed.

Lemma line_foot i j t h : (t = h -> False) -> (forall u, dist (line_pt (pos (rW i)) (pos (rV i)) u) (rP j) * dist (line_pt (pos (rW i)) (pos (rV i)) u) (rP j) = e * e + (u - h) * (u - h) * (rD i * rD i)) ->
  e < dist (line_pt (pos (rW i)) (pos (rV i)) t) (rP j).
Proof.
  intros N Q. specialize (Q t). pose proof (rD_pos i) as D. assert (0 < (t - h) * (t - h)) by (assert (Z : t - h <> 0) by (intros Z; apply N; lra); destruct (Rdichotomy _ _ Z); nra).
  assert (0 < (t - h) * (t - h) * (rD i * rD i)) by (apply Rmult_lt_0_compat; [|apply Rmult_lt_0_compat]; lra).
  apply Rsqr_incrst_0; [unfold Rsqr; lra|lra|apply sqrt_pos].
Qed.
Lemma foot_end i u : dist (line_pt (pos (rW i)) (pos (rV i)) u) (rP (i + 1)) * dist (line_pt (pos (rW i)) (pos (rV i)) u) (rP (i + 1)) = e * e + (u - 1) * (u - 1) * (rD i * rD i).
Proof.
  rewrite on_line. unfold rD. rewrite !dist_sqr. pose proof (rO_unit i) as U. pose proof (out_side i) as S. unfold unit, dot, vec, moved, line_pt in *. cbn [vx vy] in *.
  set (a := vx (rP (i + 1)) - vx (rP i)) in *. set (b := vy (rP (i + 1)) - vy (rP i)) in *.
  transitivity (e * e * (vx (rO i) * vx (rO i) + vy (rO i) * vy (rO i)) + 2 * e * (u - 1) * (vx (rO i) * a + vy (rO i) * b) + (u - 1) * (u - 1) * (a * a + b * b)); [unfold a, b; ring|]. rewrite U, S. unfold a, b. ring.
Qed.
Lemma foot_start i u : dist (line_pt (pos (rW i)) (pos (rV i)) u) (rP i) * dist (line_pt (pos (rW i)) (pos (rV i)) u) (rP i) = e * e + (u - 0) * (u - 0) * (rD i * rD i).
Proof.
  rewrite on_line. unfold rD. rewrite !dist_sqr. pose proof (rO_unit i) as U. pose proof (out_side i) as S. unfold unit, dot, vec, moved, line_pt in *. cbn [vx vy] in *.
  set (a := vx (rP (i + 1)) - vx (rP i)) in *. set (b := vy (rP (i + 1)) - vy (rP i)) in *.
  transitivity (e * e * (vx (rO i) * vx (rO i) + vy (rO i) * vy (rO i)) + 2 * e * u * (vx (rO i) * a + vy (rO i) * b) + u * u * (a * a + b * b)); [unfold a, b; ring|]. rewrite U, S. unfold a, b. ring.
Qed.

Lemma line_into i : pline_seg_intr (rW i) (rV i) (rV i) (rW (i + 1)) eps = SITangent (pos (rV i)).
Proof.
  destruct (rc_data i) as (_ & _ & (al & A) & _).
  apply (into_arc _ _ _ (rP (i + 1)) e al eps co_eps (rW_bulge i) (r_seg_ok i) (r_nz i) A (r_line_far i) (r_dir i)).
  - intros t N. apply (line_foot i (i + 1) t 1 N). apply foot_end.
  - pose proof (foot_end i 0) as Q. rewrite line_pt_0 in Q. pose proof (rD_m i) as DM. pose proof co_em. pose proof co_eps. pose proof out_m. pose proof Co as (_ & _ & _ & _ & C & _).
    apply Rsqr_incr_0_var; [|apply sqrt_pos]. unfold Rsqr. assert (m * m <= rD i * rD i) by (apply Rmult_le_compat; lra). assert (eps * eps <= e * eps) by (apply Rmult_le_compat_r; lra). assert (0 < e * eps) by (apply Rmult_lt_0_compat; lra). lra.
Qed.
Lemma arc_out i : pline_seg_intr (rV i) (rW (i + 1)) (rW (i + 1)) (rV (i + 1)) eps = SITangent (pos (rW (i + 1))).
Proof.
  destruct (rc_data i) as (_ & _ & (al & A) & _).
  apply (out_of_arc _ _ _ (rP (i + 1)) e al eps co_eps (rW_bulge (i + 1)) (r_seg_ok i) (r_nz i) A (r_line_far (i + 1)) (r_dir (i + 1))).
  intros t N. apply (line_foot (i + 1) (i + 1) t 0 N). apply foot_start.
Qed.

Let tol := e * m / (4 * (e + 2)).
Lemma tol_near : tol * (1 + 2 / e) = m / 4.
Proof. unfold tol. field. lra. Qed.
Lemma tol_pos : 0 < tol. Proof. unfold tol. apply Rdiv_lt_0_compat; [apply Rmult_lt_0_compat; lra|lra]. Qed.
Lemma tol_eq : tol * (4 * (e + 2)) = e * m. Proof. unfold tol. field. lra. Qed.
Lemma tol_small : 8 * tol <= 4 * e /\ 8 * tol <= 4 * m.
Proof.
  pose proof tol_eq as T. pose proof tol_pos as P. pose proof out_m as M. split.
  - assert (e * m <= e * (2 * e)) by (apply Rmult_le_compat_l; lra). assert (0 < tol * e) by (apply Rmult_lt_0_compat; lra). apply Rnot_lt_le. intros L. assert (e * (2 * e) <= tol * 2 * (2 * e)) by (replace (e * (2 * e)) with (e * 1 * (2 * e)) by ring; apply Rmult_le_compat_r; lra). lra.
  - apply Rmult_le_reg_l with e; [exact He|]. assert (0 < tol * e) by (apply Rmult_lt_0_compat; lra). lra.
Qed.

Lemma mod_inj1 i j : (i < n)%nat -> (j < n)%nat -> (i + 1) mod n = (j + 1) mod n -> i = j.
Proof.
  intros Li Lj E. destruct (Nat.eq_dec (i + 1) n) as [A|A], (Nat.eq_dec (j + 1) n) as [B|B]; [lia| | |].
  - rewrite A, Nat.mod_same, Nat.mod_small in E; lia.
  - rewrite B, Nat.mod_same, Nat.mod_small in E; lia.
  - rewrite !Nat.mod_small in E; lia.
Qed.

Lemma arc_arc i j : (i + 1) mod n <> (j + 1) mod n -> pline_seg_intr (rV i) (rW (i + 1)) (rV j) (rW (j + 1)) eps = SINoIntersect.
Proof.
  intros N. destruct (rc_data i) as (_ & _ & (al & A) & _). destruct (rc_data j) as (_ & _ & (be & B) & _).
  pose proof (corners_apart _ _ N) as D. pose proof tol_pos as TP. pose proof tol_small as (T1 & T2). pose proof tol_eq as TE. pose proof co_eps as E0. pose proof co_em as EM. pose proof Co as (_ & _ & _ & C1 & C2 & _).
  assert (W : forall k, wide (rV k) (rW (k + 1)) tol).
  { intros k NZ c r a A'. destruct (rc_data k) as (_ & _ & (ga & G) & _). destruct (arc_unique _ _ _ _ _ _ NZ A') as (_ & Er). destruct (arc_unique _ _ _ _ _ _ NZ G) as (_ & Er'). rewrite <- Er' in Er. subst r.
    split; [lra|]. pose proof (r_chord k). assert (e * m <= e * dist (pos (rV k)) (pos (rW (k + 1)))) by (apply Rmult_le_compat_l; lra). assert (0 < tol * e) by (apply Rmult_lt_0_compat; lra). lra. }
  assert (ET : eps <= tol) by (apply Rmult_le_reg_r with (4 * (e + 2)); lra). assert (ED : eps <= dist (rP (i + 1)) (rP (j + 1))) by lra.
  destruct (seg_intr_arcs _ _ _ _ eps tol _ _ _ _ _ _ (conj E0 ET) (r_seg_ok i) (r_seg_ok j) (r_nz i) (r_nz j) A B ED) as (AN & NO); [|apply W..|].
  { apply Rmult_le_reg_r with (4 * (e + 2)); [lra|]. replace (tol * dist (rP (i + 1)) (rP (j + 1)) * (4 * (e + 2))) with (tol * (4 * (e + 2)) * dist (rP (i + 1)) (rP (j + 1))) by ring. rewrite TE.
    assert (e * m * m <= e * m * dist (rP (i + 1)) (rP (j + 1))) by (apply Rmult_le_compat_l; [apply Rmult_le_pos|]; lra). assert (e * (8 * (e + 2) * eps) <= e * (m * m)) by (apply Rmult_le_compat_l; lra). lra. }
  assert (Z : forall q, ~ reported (pline_seg_intr (rV i) (rW (i + 1)) (rV j) (rW (j + 1)) eps) q).
  { intros q Rq. destruct (AN q Rq) as ((q1 & O1 & [(X & _)|(_ & c1 & r1 & a1 & A1 & D1)]) & (q2 & O2 & [(Y & _)|(_ & c2 & r2 & a2 & A2 & D2)])); [now apply r_nz in X|now apply r_nz in X|now apply r_nz in Y|].
    destruct (arc_unique _ _ _ _ _ _ (r_nz i) A1) as (_ & Er). destruct (arc_unique _ _ _ _ _ _ (r_nz i) A) as (_ & Er'). rewrite <- Er' in Er. subst r1.
    destruct (arc_unique _ _ _ _ _ _ (r_nz j) A2) as (_ & Fr). destruct (arc_unique _ _ _ _ _ _ (r_nz j) B) as (_ & Fr'). rewrite <- Fr' in Fr. subst r2.
    rewrite tol_near in D1, D2. apply arc_point in O1 as (u1 & B1 & ->). apply arc_point in O2 as (u2 & B2 & ->). pose proof (behind_dist e rK He _ _ _ _ B1 B2) as BD.
    pose proof (ProofJordan2.dist_triangle (moved (rP (i + 1)) u1 e) q (moved (rP (j + 1)) u2 e)) as T. rewrite (dist_sym (moved (rP (i + 1)) u1 e) q) in T. lra. }
  destruct (pline_seg_intr _ _ _ _ _) as [|q|q|q q'|q q'|q q']; [reflexivity| | | |destruct NO..]; exfalso; apply (Z q); cbn [reported]; auto.
Qed.

Lemma rd_local k : (k < 2 * n)%nat -> basics (local_pair raw eps k ((k + 1) mod (2 * n))) = [].
Proof.
  intros L. unfold local_pair. change (is_closed raw) with true. pose proof rd_n3 as N3.
  assert (Ev : forall i v1 v2 v3, pline_seg_intr v1 v2 v2 v3 eps = SITangent (pos v2) -> v2fuzzy_eq_eps (pos v1) (pos v2) eps = false ->
    basics (if v2fuzzy_eq_eps (pos v1) (pos v2) eps then [EvOverlap (OI k i (pos v1) (pos v2))] else events_of k i (fun q => negb (v2fuzzy_eq_eps q (pos v2) eps)) (fun _ => true) (pline_seg_intr v1 v2 v2 v3 eps)) = []).
  { intros i v1 v2 v3 E F. rewrite E, F. cbn [events_of filter]. rewrite (v2fuzzy_refl (pos v2) eps co_eps). reflexivity. }
  destruct (Nat.Even_or_Odd k) as [(i & ->)|(i & ->)].
  - rewrite Nat.mod_small by lia. rewrite raw_line, raw_arc by lia. apply Ev; [apply line_into|apply not_point_R, r_line_far].
  - replace (2 * i + 1 + 1)%nat with (2 * (i + 1))%nat by lia. rewrite Nat.mul_mod_distr_l by lia. rewrite raw_arc by lia. rewrite raw_line by (apply Nat.mod_upper_bound; lia).
    assert (M : ((i + 1) mod n) mod n = (i + 1) mod n) by (apply Nat.mod_mod; lia).
    assert (EV : rV ((i + 1) mod n) = rV (i + 1)) by (unfold rV; rewrite mod_step; reflexivity). rewrite (rW_mod _ _ M), EV. apply Ev; [apply arc_out|apply not_point_R, r_arc_far].
Qed.

Lemma rd_global i j : (i < 2 * n)%nat -> (j < 2 * n)%nat -> SpecIntersects.apart raw i j -> global_pair raw eps (i, j) = [].
Proof.
  intros Li Lj (A1 & A2 & A3). change (vertex_count raw) with (length (vtx raw)) in *. pose proof raw_count as RCt. unfold vertex_count in RCt. unfold vertex_count in A2, A3. rewrite RCt in A2, A3. pose proof rd_n3 as N3.
  unfold global_pair. change (is_closed raw) with true.
  destruct (Nat.Even_or_Odd i) as [(a & ->)|(a & ->)], (Nat.Even_or_Odd j) as [(b & ->)|(b & ->)].
  - rewrite !raw_line by lia. rewrite lines_apart; [reflexivity|exact co_eps|apply rW_bulge..|]. left. apply line_line. rewrite !Nat.mod_small by lia. lia.
  - rewrite raw_line, raw_arc by lia. replace (2 * b + 1 + 1)%nat with (2 * (b + 1))%nat in A2 by lia. rewrite Nat.mul_mod_distr_l in A2 by lia. rewrite Nat.mod_small in A3 by lia.
    rewrite (proj1 (line_arc a b ltac:(rewrite (Nat.mod_small a) by lia; lia) ltac:(intros E; apply mod_inj1 in E; lia))). reflexivity.
  - rewrite raw_line, raw_arc by lia. replace (2 * a + 1 + 1)%nat with (2 * (a + 1))%nat in A3 by lia. rewrite Nat.mul_mod_distr_l in A3 by lia. rewrite Nat.mod_small in A2 by lia.
    rewrite (proj2 (line_arc b a ltac:(rewrite (Nat.mod_small b) by lia; lia) ltac:(intros E; apply mod_inj1 in E; lia))). reflexivity.
  - rewrite !raw_arc by lia. rewrite arc_arc; [reflexivity|]. intros E. apply mod_inj1 in E; lia.
Qed.

Lemma rd_no_cuts pairs : pairs_ok raw eps (boxes_of raw) pairs -> self_cuts raw eps pairs = [].
Proof.
  intros (PO & _). unfold self_cuts. pose proof rd_n3 as N3.
  assert (B : basics (local_events raw eps ++ flat_map (global_pair raw eps) pairs) = []).
  { unfold basics. rewrite flat_map_app.
    assert (FM : forall (f : nat -> list (intr_event R)) l, (forall x, In x l -> basics (f x) = []) -> basics (flat_map f l) = []).
    { intros f l K. induction l as [|x l IH]; [reflexivity|]. cbn. unfold basics in *. rewrite flat_map_app, (K x (or_introl eq_refl)), IH; [reflexivity|]. intros y I. apply K. now right. }
    assert (FM' : forall (f : nat * nat -> list (intr_event R)) l, (forall x, In x l -> f x = []) -> flat_map f l = []).
    { intros f l K. induction l as [|x l IH]; [reflexivity|]. cbn. rewrite (K x (or_introl eq_refl)), IH; [reflexivity|]. intros y I. apply K. now right. }
    rewrite (FM' (global_pair raw eps) pairs).
    - cbn [flat_map]. rewrite app_nil_r. unfold local_events. rewrite raw_count. destruct (Nat.ltb_spec (2 * n) 3) as [L|L]; [lia|]. change (is_closed raw) with true. cbv iota.
      apply FM. intros i I. apply in_seq in I. apply rd_local. lia.
    - intros (i, j) I. destruct (PO i j I) as (Li & Lj & A & _). change (is_closed raw) with true in Li, Lj. rewrite raw_seg_len in Li, Lj. now apply rd_global. }
  rewrite B. reflexivity.
Qed.

Lemma rK_path q : on_path (polygon ps) q -> rK q.
Proof.
  intros O. apply polygon_path in O as (a & b & t & I & Ht & ->). apply side_of in I as (i & _ & -> & ->). apply rK_line; auto using rK_corner.
Qed.

Theorem rd_whole mk idx o : makes_index mk -> pline_index (polygon ps) idx -> oo_pos_equal_eps o = eps -> oo_handle_self_intersects o = false ->
  0 < oo_slice_join_eps o -> 0 < oo_offset_dist_eps o < 2 * e -> parallel_offset mk (polygon ps) idx d o = Ret [raw].
Proof.
  intros MK IDX OE HS Hj Ho. pose proof rd_n3 as N3.
  assert (IP : is_polygon (polygon ps)). { split; [reflexivity|]. intros v I. unfold polygon in I. cbn [vtx] in I. apply in_map_iff in I as (q & <- & _). reflexivity. }
  apply (uncut_whole mk (polygon ps) idx d o raw MK IDX) with (v := rW 0).
  - unfold vertex_count, polygon. cbn [vtx]. rewrite map_length. fold n. lia.
  - reflexivity.
  - rewrite OE. exact rd_raw.
  - rewrite raw_count. lia.
  - intros cuts. unfold offset_cuts. change (is_closed (polygon ps)) with true. rewrite HS. cbn [negb andb]. rewrite OE. intros (pairs & PO & ->). now apply rd_no_cuts.
  - exact Hj.
  - intros a b I. rewrite OE. apply not_point_R. now apply r_seg_far.
  - pose proof (raw_even 0 ltac:(lia)) as E. destruct (vtx raw); [discriminate|exact E].
  - apply clear_lies; [exact IP|rewrite OE; exact co_eps|]. rewrite rd_dabs. intros v1 v2 q I ON. rewrite rW_pos.
    assert (Kq : rK q). { apply rK_path. exists v1, v2. split; assumption. }
    pose proof (behind_far e rK He _ _ q (behind_start 0) Kq) as F. eapply Rlt_le_trans; [|exact F]. apply Rabs_def1; lra.
Qed.

(** ** The region *)
Lemma rd_convex : convex s ps.
Proof.
  intros a b c I Ic. destruct Ro as (_ & _ & C & _). destruct (classic (c = a)) as [->|N1]; [unfold cross, vec; cbn [vx vy]; lra|]. destruct (classic (c = b)) as [->|N2]; [unfold cross, vec; cbn [vx vy]; lra|].
  specialize (C a b c I Ic N1 N2). assert (0 <= m * dist a b) by (apply Rmult_le_pos; [lra|apply sqrt_pos]). lra.
Qed.

Lemma on_both i j : dot (rO i) (vec (rP i) (rP j)) = 0 -> j mod n = i mod n \/ j mod n = (i + 1) mod n.
Proof.
  intros Z. destruct (Nat.eq_dec (j mod n) (i mod n)) as [E|N1]; [now left|]. destruct (Nat.eq_dec (j mod n) ((i + 1) mod n)) as [E|N2]; [now right|]. pose proof (out_corner i j N1 N2). lra.
Qed.

Lemma line_pt_end a b t : a <> b -> line_pt a b t = b -> t = 1.
Proof.
  intros N E. destruct (Req_dec t 1) as [|T]; [assumption|]. exfalso. apply N. pose proof (f_equal vx E) as X. pose proof (f_equal vy E) as Y. unfold line_pt in X, Y. cbn [vx vy] in X, Y.
  apply vec2_eq; apply Rmult_eq_reg_l with (1 - t); lra.
Qed.
Lemma line_pt_start a b t : a <> b -> line_pt a b t = a -> t = 0.
Proof.
  intros N E. destruct (Req_dec t 0) as [|T]; [assumption|]. exfalso. apply N. pose proof (f_equal vx E) as X. pose proof (f_equal vy E) as Y. unfold line_pt in X, Y. cbn [vx vy] in X, Y.
  apply vec2_eq; apply Rmult_eq_reg_l with t; lra.
Qed.
Lemma line_pt_inj a b t u : a <> b -> line_pt a b t = line_pt a b u -> t = u.
Proof.
  intros N E. destruct (Req_dec t u) as [|T]; [assumption|]. exfalso. apply N. pose proof (f_equal vx E) as X. pose proof (f_equal vy E) as Y. unfold line_pt in X, Y. cbn [vx vy] in X, Y.
  apply vec2_eq; apply Rmult_eq_reg_l with (t - u); lra.
Qed.

Lemma side_at i q t : dot (rO i) (vec (rP i) (line_pt (rP q) (rP (q + 1)) t)) = (1 - t) * dot (rO i) (vec (rP i) (rP q)) + t * dot (rO i) (vec (rP i) (rP (q + 1))).
Proof. unfold dot, vec, line_pt. cbn [vx vy]. ring. Qed.

(** A place on a side that is on another one is their common corner. *)
Lemma common_place i j t : i mod n <> j mod n -> 0 <= t < 1 -> dot (rO i) (vec (rP i) (line_pt (rP j) (rP (j + 1)) t)) = 0 -> t = 0 /\ j mod n = (i + 1) mod n.
Proof.
  intros N Ht Z. rewrite side_at in Z. pose proof (out_any i j) as A. pose proof (out_any i (j + 1)) as B. pose proof rd_n3 as N3.
  assert (Z1 : dot (rO i) (vec (rP i) (rP j)) = 0). { assert (0 <= (1 - t) * - dot (rO i) (vec (rP i) (rP j))) by (apply Rmult_le_pos; lra). assert (0 <= t * - dot (rO i) (vec (rP i) (rP (j + 1)))) by (apply Rmult_le_pos; lra). apply Rmult_eq_reg_l with (1 - t); lra. }
  destruct (on_both i j Z1) as [E|E]; [congruence|]. split; [|exact E].
  destruct (Req_dec t 0) as [|T]; [assumption|]. exfalso. assert (Z2 : dot (rO i) (vec (rP i) (rP (j + 1))) = 0) by (rewrite Z1, Rmult_0_r, Rplus_0_l in Z; apply Rmult_integral in Z; tauto).
  assert (E2 : (j + 1) mod n = (i + 2) mod n) by (rewrite <- mod_step, E, mod_step; f_equal; lia).
  destruct (on_both i (j + 1) Z2) as [F|F]; rewrite E2 in F; [symmetry in F; now apply mod_neq2 in F|]. symmetry in F. replace (i + 2)%nat with (i + 1 + 1)%nat in F by lia. now apply mod_neq in F.
Qed.

Lemma side_zero i t : dot (rO i) (vec (rP i) (line_pt (rP i) (rP (i + 1)) t)) = 0.
Proof. rewrite side_at, out_self, out_side. ring. Qed.

Lemma rd_once : passes_once (polygon ps).
Proof.
  intros i j t u q (a & b & Ea & Ht & At) (c & f & Ec & Hu & Au) T1 U1. change (is_closed (polygon ps)) with true in Ea, Ec. rewrite polygon_segs in Ea, Ec.
  destruct (nth_error (spec_segs ps true) i) as [(a', b')|] eqn:Ei; [|discriminate]. destruct (nth_error (spec_segs ps true) j) as [(c', f')|] eqn:Ej; [|discriminate]. cbn [option_map fst snd] in Ea, Ec. injection Ea as <- <-. injection Ec as <- <-.
  assert (Li : (i < n)%nat) by (rewrite <- side_len; apply nth_error_Some; congruence). assert (Lj : (j < n)%nat) by (rewrite <- side_len; apply nth_error_Some; congruence).
  pose proof (side_nth i) as Si. pose proof (side_nth j) as Sj. rewrite Nat.mod_small in Si, Sj by assumption. rewrite Ei in Si. rewrite Ej in Sj. injection Si as -> ->. injection Sj as -> ->.
  apply seg_at_line in At; [|reflexivity]. apply seg_at_line in Au; [|reflexivity]. rewrite !lv_pos in At, Au.
  destruct (Nat.eq_dec i j) as [->|N].
  - split; [reflexivity|]. rewrite At in Au. now apply line_pt_inj in Au; [|apply side_neq].
  - exfalso. assert (N' : i mod n <> j mod n) by (rewrite !Nat.mod_small by assumption; exact N).
    pose proof (side_zero i t) as Z. rewrite <- At, Au in Z. destruct (common_place i j u N' ltac:(lra) Z) as (-> & E). rewrite line_pt_0 in Au. rewrite Au in At. rewrite (rP_mod _ _ E) in At. symmetry in At. apply line_pt_end in At; [lra|apply side_neq].
Qed.

Lemma rd_valid : valid_loop (polygon ps).
Proof. split; [|reflexivity]. unfold vertex_count, polygon. cbn [vtx]. rewrite map_length. fold n. pose proof rd_n3. lia. Qed.

(** What is behind all sides and on none is inside. *)
Lemma rK_side i y : rK y -> dot (rO i) (vec (rP i) y) = 0 -> on_path (polygon ps) y.
Proof.
  intros Ky Z. set (a := rP i) in *. set (b := rP (i + 1)).
  assert (E : exists t, y = line_pt a b t).
  { pose proof (rO_dot i (vec (rP i) y)) as Q. fold a b in Q. rewrite Z, Rmult_0_l in Q. assert (C : cross (vec a b) (vec a y) = 0) by (destruct Hs as [E|E]; rewrite E in Q; lra).
    pose proof (rD_pos i) as D. assert (DD : 0 < rD i * rD i) by (apply Rmult_lt_0_compat; lra). unfold rD in DD. fold a b in DD. rewrite dist_sqr in DD.
    unfold cross, vec in C. cbn [vx vy] in C. set (X := vx b - vx a) in *. set (Y := vy b - vy a) in *. set (w := vx y - vx a) in *. set (v := vy y - vy a) in *.
    assert (L : 0 < X * X + Y * Y) by (unfold X, Y; lra). exists ((X * w + Y * v) / (X * X + Y * Y)). unfold line_pt. apply vec2_eq; cbn [vx vy]; fold X Y.
    - transitivity (vx a + w); [unfold w; ring|]. f_equal. apply Rmult_eq_reg_r with (X * X + Y * Y); [|lra]. replace ((X * w + Y * v) / (X * X + Y * Y) * X * (X * X + Y * Y)) with (X * X * w + Y * (X * v)) by (field; lra). replace (X * v) with (Y * w) by lra. ring.
    - transitivity (vy a + v); [unfold v; ring|]. f_equal. apply Rmult_eq_reg_r with (X * X + Y * Y); [|lra]. replace ((X * w + Y * v) / (X * X + Y * Y) * Y * (X * X + Y * Y)) with (X * (Y * w) + Y * Y * v) by (field; lra). replace (Y * w) with (X * v) by lra. ring. }
  destruct E as (t & ->). apply polygon_path. exists a, b, t. split; [apply side_in|]. split; [|reflexivity]. split.
  - (* the side before *)
    destruct (mod_prev i) as (j & Ej). specialize (Ky j). unfold a, b in Ky. rewrite side_at in Ky. rewrite (rP_mod i (j + 1)) in Ky by auto. rewrite out_side in Ky.
    assert (O : dot (rO j) (vec (rP j) (rP (i + 1))) <= - m). { apply out_corner; rewrite <- mod_step, <- Ej, mod_step; [replace (j + 1 + 1)%nat with (j + 2)%nat by lia; apply not_eq_sym, mod_neq2|apply not_eq_sym, mod_neq]. }
    apply Rnot_lt_le. intros L. assert (0 < - t * - dot (rO j) (vec (rP j) (rP (i + 1)))) by (apply Rmult_lt_0_compat; lra). lra.
  - specialize (Ky (i + 1)%nat). unfold a, b in Ky. rewrite side_at, out_self in Ky.
    assert (O : dot (rO (i + 1)) (vec (rP (i + 1)) (rP i)) <= - m). { apply out_corner; [apply mod_neq|replace (i + 1 + 1)%nat with (i + 2)%nat by lia; apply mod_neq2]. }
    apply Rnot_lt_le. intros L. assert (0 < (t - 1) * - dot (rO (i + 1)) (vec (rP (i + 1)) (rP i))) by (apply Rmult_lt_0_compat; lra). lra.
Qed.

Lemma rK_cases y : rK y <-> on_path (polygon ps) y \/ (~ on_path (polygon ps) y /\ inside (polygon ps) y = true).
Proof.
  split.
  - intros Ky. destruct (classic (on_path (polygon ps) y)) as [O|O]; [now left|]. right. split; [exact O|]. apply (convex_inside s ps Hs rd_convex rd_valid rd_once y O).
    intros a b I. apply side_of in I as (i & _ & -> & ->). pose proof (rO_dot i (vec (rP i) y)) as Q. pose proof (rD_pos i) as D. specialize (Ky i) as Ki.
    assert (NZ : dot (rO i) (vec (rP i) y) <> 0) by (intros Z; apply O; now apply (rK_side i)). assert (0 < - dot (rO i) (vec (rP i) y) * rD i) by (apply Rmult_lt_0_compat; lra). lra.
  - intros [O|(O & I)]; [now apply rK_path|]. intros i. pose proof (proj1 (convex_inside s ps Hs rd_convex rd_valid rd_once y O) I _ _ (side_in i)) as C.
    pose proof (rO_dot i (vec (rP i) y)) as Q. pose proof (rD_pos i) as D. apply Rnot_lt_le. intros L. assert (0 < dot (rO i) (vec (rP i) y) * rD i) by (apply Rmult_lt_0_compat; lra). lra.
Qed.

(** The nearest point to one that is not behind all sides. *)
Lemma nearest x : ~ rK x -> exists p u h, on_path (polygon ps) p /\ behind rK p u /\ 0 < h /\ x = moved p u h.
Proof.
  intros Nx. pose proof rd_n3 as N3. destruct (nearest_side x (spec_segs ps true)) as (a & b & t & I & Ht & Nr); [intros E; pose proof side_len as L; rewrite E in L; cbn in L; lia|].
  set (p := line_pt a b t) in *. assert (Op : on_path (polygon ps) p) by (apply polygon_path; now exists a, b, t).
  assert (Nr' : forall q, on_path (polygon ps) q -> dist x p <= dist x q) by (intros q Oq; apply polygon_path in Oq as (c & f & u & J & Hu & ->); now apply Nr).
  pose proof (rK_path p Op) as Kp. assert (Nxp : x <> p) by (intros ->; contradiction). pose proof (ProofConvex.dist_pos _ _ Nxp) as Dp. set (h := dist x p) in *.
  set (u := V2 ((vx x - vx p) / h) ((vy x - vy p) / h)).
  assert (Ox : ~ on_path (polygon ps) x) by (intros O; apply Nx; now apply rK_path).
  assert (HH : h * h = (vx x - vx p) * (vx x - vx p) + (vy x - vy p) * (vy x - vy p)) by (unfold h; apply dist_sqr).
  exists p, u, h. split; [exact Op|]. split; [|split; [exact Dp|unfold u, moved; apply vec2_eq; cbn [vx vy]; field; lra]].
  split; [exact Kp|]. split; [unfold unit, dot, u; cbn [vx vy]; transitivity (((vx x - vx p) * (vx x - vx p) + (vy x - vy p) * (vy x - vy p)) / (h * h)); [field; lra|rewrite <- HH; field; lra]|].
  intros y Ky. apply Rnot_lt_le. intros L.
  assert (D : 0 < dot (vec p x) (vec p y)). { replace (dot (vec p x) (vec p y)) with (h * dot u (vec p y)) by (unfold dot, u, vec; cbn [vx vy]; field; lra). now apply Rmult_lt_0_compat. }
  destruct (towards x p y D) as (k & Hk & Lk). set (z := line_pt p y k) in *. assert (Kz : rK z) by (apply rK_line; auto; lra).
  apply rK_cases in Kz as [Oz|(Oz & Iz)]; [specialize (Nr' z Oz); unfold h in *; lra|].
  (* the way from there to [x] meets the polygon *)
  assert (Wx : wn (polygon ps) x = 0%Z).
  { apply not_all_ex_not in Nx as (i & Ni). apply (beyond_side s ps Hs rd_convex rd_valid rd_once (rP i) (rP (i + 1)) x (side_in i) Ox).
    pose proof (rO_dot i (vec (rP i) x)) as Q. pose proof (rD_pos i) as Di. assert (0 < dot (rO i) (vec (rP i) x) * rD i) by (apply Rmult_lt_0_compat; lra). lra. }
  apply inside_iff in Iz. apply Iz. rewrite (wn_straight (polygon ps) z x (polygon_ok ps)); [exact Wx|]. intros v Hv Ov. specialize (Nr' _ Ov).
  assert (dist x (line_pt z x v) <= dist x z). { rewrite <- (line_pt_1 z x) at 1. rewrite dist_line_pt, (dist_sym z x). assert (0 <= dist x z) by apply sqrt_pos. rewrite Rabs_pos_eq by lra. rewrite <- (Rmult_1_l (dist x z)) at 2. apply Rmult_le_compat_r; lra. }
  unfold h in *. lra.
Qed.

(** A ray that leaves at a right angle meets the path only at the distance. *)
Lemma path_behind q : on_path raw q -> exists p u, behind rK p u /\ q = moved p u e.
Proof.
  intros (v & w & I & On). apply In_nth_error in I as (k & E). apply raw_seg_cases in E as (i & _ & [(_ & -> & ->)|(_ & -> & ->)]).
  - apply line_point in On as (t & _ & B & Eq). eauto.
  - apply arc_point in On as (u & B & Eq). eauto.
Qed.

Lemma dist_moved p u h : 0 <= h -> unit u -> dist (moved p u h) p = h.
Proof.
  intros Hh U. apply dist_eq_sqr; [exact Hh|]. unfold unit, dot, moved in *. cbn [vx vy]. transitivity (h * h * (vx u * vx u + vy u * vy u)); [ring|rewrite U; ring].
Qed.

Lemma ray_meets p u h : behind rK p u -> 0 < h -> on_path raw (moved p u h) -> h = e.
Proof.
  intros B Hh O. apply path_behind in O as (p' & u' & B' & E). pose proof (behind_far e rK He p' u' p B' (proj1 B)) as F1. pose proof (behind_far h rK Hh p u p' B (proj1 B')) as F2.
  rewrite <- E, dist_moved in F1; [|lra|apply B]. rewrite E, dist_moved in F2; [|lra|apply B']. lra.
Qed.

Lemma raw_ok : pline_ok raw.
Proof.
  intros v w I. apply In_nth_error in I as (k & E). apply raw_seg_cases in E as (i & _ & [(_ & -> & ->)|(_ & -> & ->)]); [|apply r_seg_ok].
  split; [left; apply rW_bulge|]. intros N. now rewrite rW_bulge in N.
Qed.
Lemma raw_valid : valid_loop raw.
Proof. split; [|reflexivity]. rewrite raw_count. pose proof rd_n3. lia. Qed.

Lemma raw_once : passes_once raw.
Proof.
  intros i j t u q (a & b & Ea & Ht & At) (c & f & Ec & Hu & Au) T1 U1. change (is_closed raw) with true in Ea, Ec. pose proof rd_n3 as N3.
  assert (La : forall i t q, seg_at (rW i) (rV i) t q -> 0 <= t <= 1 -> behind rK (line_pt (rP i) (rP (i + 1)) t) (rO i) /\ q = moved (line_pt (rP i) (rP (i + 1)) t) (rO i) e).
  { intros k t' q' A Ht'. apply seg_at_line in A; [|apply rW_bulge]. rewrite on_line in A. split; [now apply behind_side|exact A]. }
  assert (Aa : forall i t q, seg_at (rV i) (rW (i + 1)) t q -> 0 <= t <= 1 -> exists v, behind rK (rP (i + 1)) v /\ q = moved (rP (i + 1)) v e).
  { intros k t' q' A Ht'. apply arc_point. now exists t'. }
  assert (PM : forall i j t u, (i < n)%nat -> (j < n)%nat -> 0 <= t < 1 -> 0 <= u < 1 -> seg_at (rW i) (rV i) t q -> seg_at (rV j) (rW (j + 1)) u q -> False).
  { intros k l t' u' Lk Ll Ht' Hu' A B. destruct (La _ _ _ A ltac:(lra)) as (B1 & E1). destruct (Aa _ _ _ B ltac:(lra)) as (v & B2 & E2).
    rewrite E1 in E2. destruct (behind_eq e rK He _ _ _ _ B1 B2 E2) as (P & V).
    pose proof (side_zero k t') as Z. rewrite P in Z. destruct (on_both k (l + 1) Z) as [F|F].
    - (* the end of the arc *)
      assert (Q : q = pos (rW (l + 1))) by (rewrite rW_pos, E1, P, (rO_mod _ _ F); reflexivity). rewrite Q in B.
      assert (u' = 1); [|lra]. apply (seg_at_inj (rV l) (rW (l + 1)) u' 1 (pos (rW (l + 1)))); [apply r_seg_ok|apply (proj2 (r_seg_ok l)), r_nz|lra|lra|exact B|].
      right. split; [apply r_nz|]. destruct (rc_data l) as (_ & _ & (al & A') & _). exists (rP (l + 1)), e, al. split; [exact A'|]. rewrite Rmult_1_l. apply A'.
    - rewrite (rP_mod _ _ F) in P. apply line_pt_end in P; [lra|apply side_neq]. }
  apply raw_seg_cases in Ea as (k & Lk & [(-> & -> & ->)|(-> & -> & ->)]); apply raw_seg_cases in Ec as (l & Ll & [(-> & -> & ->)|(-> & -> & ->)]).
  - destruct (La _ _ _ At Ht) as (B1 & E1). destruct (La _ _ _ Au Hu) as (B2 & E2). rewrite E1 in E2. destruct (behind_eq e rK He _ _ _ _ B1 B2 E2) as (P & V).
    assert (k = l).
    { destruct (Nat.eq_dec k l) as [|N]; [assumption|]. exfalso. pose proof (out_out k l ltac:(rewrite !Nat.mod_small by assumption; exact N)) as O. rewrite V in O. pose proof (rO_unit l) as U. unfold unit in U. rewrite U in O. lra. }
    subst l. split; [reflexivity|]. now apply line_pt_inj in P; [|apply side_neq].
  - exfalso. apply (PM k l t u); auto; lra.
  - exfalso. apply (PM l k u t); auto; lra.
  - destruct (Aa _ _ _ At Ht) as (v1 & B1 & E1). destruct (Aa _ _ _ Au Hu) as (v2 & B2 & E2). rewrite E1 in E2. destruct (behind_eq e rK He _ _ _ _ B1 B2 E2) as (P & V).
    apply rP_inj in P. apply mod_inj1 in P; [|assumption..]. subst l. split; [reflexivity|]. apply (seg_at_inj (rV k) (rW (k + 1)) t u q); auto. apply r_seg_ok. apply (proj2 (r_seg_ok k)), r_nz.
Qed.

Lemma rK_bounded : exists M, forall y, rK y -> Rabs (vx y) < M /\ Rabs (vy y) < M.
Proof.
  destruct (polygon_bounded ps) as (M & B). exists M. intros y Ky. apply rK_cases in Ky as [O|(O & I)]; [now apply B|].
  apply inside_iff in I. split; apply Rnot_le_lt; intros L; apply I; apply (far_outside (polygon ps) M y (polygon_ok ps) rd_valid B); revert L; unfold Rabs; destruct (Rcase_abs _); lra.
Qed.
Lemma raw_bounded : exists M, forall y, on_path raw y -> Rabs (vx y) < M /\ Rabs (vy y) < M.
Proof.
  destruct rK_bounded as (M & B). exists (M + e). intros y O. apply path_behind in O as (p & u & (Kp & U & _) & ->). destruct (B p Kp) as (B1 & B2).
  unfold unit, dot in U. assert (U1 : -1 <= vx u <= 1) by nra. assert (U2 : -1 <= vy u <= 1) by nra. unfold moved. cbn [vx vy]. apply Rabs_def2 in B1. apply Rabs_def2 in B2. split; apply Rabs_def1; nra.
Qed.

Lemma far_outside_raw x p u h : behind rK p u -> e < h -> x = moved p u h -> wn raw x = 0%Z.
Proof.
  intros B Hh ->. destruct raw_bounded as (M & BM). apply (ray_outside raw M _ u raw_ok raw_valid BM (proj1 (proj2 B))). intros k Hk O.
  replace (moved (moved p u h) u k) with (moved p u (h + k)) in O by (unfold moved; cbn [vx vy]; f_equal; ring). apply ray_meets in O; [lra|exact B|lra].
Qed.

Definition rnear (x : vec2 R) : Prop := exists y, rK y /\ dist x y < e.

Lemma rnear_off x : rnear x -> ~ on_path raw x.
Proof. intros (y & Ky & D) O. apply path_behind in O as (p & u & B & ->). pose proof (behind_far e rK He p u y B Ky). lra. Qed.

Lemma rnear_line x y t : rnear x -> rnear y -> 0 <= t <= 1 -> rnear (line_pt x y t).
Proof.
  intros (a & Ka & Da) (b & Kb & Db) Ht. exists (line_pt a b t). split; [now apply rK_line|].
  set (o := V2 0 0). set (za := V2 (vx x - vx a) (vy x - vy a)). set (zb := V2 (vx y - vx b) (vy y - vy b)).
  assert (Ea : dist za o = dist x a) by (unfold dist, za, o; cbn [vx vy]; f_equal; f_equal; f_equal; ring). assert (Eb : dist zb o = dist y b) by (unfold dist, zb, o; cbn [vx vy]; f_equal; f_equal; f_equal; ring).
  assert (E : dist (line_pt x y t) (line_pt a b t) = dist (line_pt za zb t) o) by (unfold dist, line_pt, za, zb, o; cbn [vx vy]; f_equal; f_equal; f_equal; ring).
  rewrite E. apply Rsqr_incrst_0; [|apply sqrt_pos|lra]. unfold Rsqr. rewrite dist_sqr. rewrite <- Ea in Da. rewrite <- Eb in Db.
  assert (Qa : dist za o * dist za o < e * e) by (apply Rmult_le_0_lt_compat; try apply sqrt_pos; assumption). assert (Qb : dist zb o * dist zb o < e * e) by (apply Rmult_le_0_lt_compat; try apply sqrt_pos; assumption).
  rewrite dist_sqr in Qa, Qb. unfold o, line_pt in *. cbn [vx vy] in *. set (p := vx za) in *. set (q := vy za) in *. set (r := vx zb) in *. set (w := vy zb) in *.
  pose proof (Rle_0_sqr (p - r)) as S1. pose proof (Rle_0_sqr (q - w)) as S2. unfold Rsqr in S1, S2.
  assert (X : (p + t * (r - p) - 0) * (p + t * (r - p) - 0) + (q + t * (w - q) - 0) * (q + t * (w - q) - 0)
     = (1 - t) * ((p - 0) * (p - 0) + (q - 0) * (q - 0)) + t * ((r - 0) * (r - 0) + (w - 0) * (w - 0)) - t * (1 - t) * ((p - r) * (p - r) + (q - w) * (q - w))) by ring.
  rewrite X. assert (0 <= t * (1 - t) * ((p - r) * (p - r) + (q - w) * (q - w))) by (apply Rmult_le_pos; [apply Rmult_le_pos|]; lra).
  destruct (Req_dec t 0) as [->|T]; [lra|]. assert (t * ((r - 0) * (r - 0) + (w - 0) * (w - 0)) < t * (e * e)) by (apply Rmult_lt_compat_l; lra). assert ((1 - t) * ((p - 0) * (p - 0) + (q - 0) * (q - 0)) <= (1 - t) * (e * e)) by (apply Rmult_le_compat_l; lra). lra.
Qed.

Lemma raw_outside x : ~ on_path raw x -> ~ rnear x -> wn raw x = 0%Z.
Proof.
  intros O N. assert (Nk : ~ rK x). { intros K. apply N. exists x. split; [exact K|]. replace (dist x x) with 0 by (symmetry; apply dist_eq_sqr; [lra|ring]). exact He. }
  destruct (nearest x Nk) as (p & u & h & _ & B & Hh & E). assert (D : dist x p = h) by (rewrite E; apply dist_moved; [lra|apply B]).
  assert (Le : e <= h). { apply Rnot_lt_le. intros L. apply N. exists p. split; [apply B|lra]. }
  destruct (wn_local raw x raw_ok O) as (r & Hr & K). destruct (K (moved p u (h + r / 2))) as (_ & W).
  { rewrite E. replace (moved p u (h + r / 2)) with (moved (moved p u h) u (r / 2)) by (unfold moved; cbn [vx vy]; f_equal; ring). rewrite dist_sym, dist_moved; [lra|lra|apply B]. }
  rewrite <- W. apply (far_outside_raw _ p u (h + r / 2)); [exact B|lra|reflexivity].
Qed.

Theorem rd_region x : ~ on_path raw x ->
  (inside raw x = true <-> inside (polygon ps) x = true \/ exists q, on_path (polygon ps) q /\ dist x q < e).
Proof.
  intros O. rewrite inside_iff.
  assert (NR : rnear x <-> (inside (polygon ps) x = true \/ exists q, on_path (polygon ps) q /\ dist x q < e)).
  { split.
    - intros (y & Ky & D). destruct (classic (on_path (polygon ps) x)) as [Ox|Ox]; [right; exists x; split; [exact Ox|]; replace (dist x x) with 0 by (symmetry; apply dist_eq_sqr; [lra|ring]); exact He|].
      destruct (classic (rK x)) as [Kx|Nx]; [left; apply rK_cases in Kx as [C|C]; [contradiction|apply C]|]. right.
      destruct (nearest x Nx) as (p & u & h & Op & B & Hh & E). exists p. split; [exact Op|]. pose proof (behind_far h rK Hh p u y B Ky) as F. rewrite <- E in F. rewrite E at 1. rewrite dist_moved; [lra|lra|apply B].
    - intros [I|(q & Oq & D)]; [|exists q; split; [now apply rK_path|exact D]]. destruct (classic (on_path (polygon ps) x)) as [Ox|Ox].
      + exists x. split; [now apply rK_path|]. replace (dist x x) with 0 by (symmetry; apply dist_eq_sqr; [lra|ring]). exact He.
      + exists x. split; [apply rK_cases; right; now split|]. replace (dist x x) with 0 by (symmetry; apply dist_eq_sqr; [lra|ring]). exact He. }
  rewrite <- NR. split.
  - intros W. destruct (classic (rnear x)) as [N|N]; [exact N|]. exfalso. apply W. now apply raw_outside.
  - intros N. destruct (loop_sides raw raw_ok raw_valid raw_once) as (o & Ho & _ & Sd). pose proof rd_n3 as N3.
    destruct (Sd (pos (rW 0)) 1) as (_ & (y & Oy & _ & Wy)).
    + exists (rW 0), (rV 0). split; [apply nth_error_In with (2 * 0)%nat; apply raw_line; lia|]. exists 0. split; [lra|]. left. split; [apply rW_bulge|]. now rewrite line_pt_0.
    + lra.
    + assert (Ny : rnear y) by (destruct (classic (rnear y)) as [Q|Q]; [exact Q|]; exfalso; apply raw_outside in Q; [lia|exact Oy]).
      rewrite (wn_straight raw x y raw_ok); [lia|]. intros t Ht. apply rnear_off. now apply rnear_line.
Qed.

(** Every point of the path is at the distance from the polygon. *)
Lemma rd_distance x : on_path raw x -> (forall q, on_path (polygon ps) q -> e <= dist x q) /\ exists q, on_path (polygon ps) q /\ dist x q = e.
Proof.
  intros O.
  assert (H : exists p u, on_path (polygon ps) p /\ behind rK p u /\ x = moved p u e).
  { destruct O as (v & w & I & On). apply In_nth_error in I as (k & E). apply raw_seg_cases in E as (i & _ & [(_ & -> & ->)|(_ & -> & ->)]).
    - apply line_point in On as (t & Ht & B & Eq). exists (line_pt (rP i) (rP (i + 1)) t), (rO i). split; [apply polygon_path; exists (rP i), (rP (i + 1)), t; auto using side_in|]. now split.
    - apply arc_point in On as (u & B & Eq). exists (rP (i + 1)), u. split; [|now split]. apply polygon_path. exists (rP i), (rP (i + 1)), 1. split; [apply side_in|]. split; [lra|]. now rewrite line_pt_1. }
  destruct H as (p & u & Op & B & ->). split.
  - intros q Oq. apply (behind_far e rK He _ _ q B). now apply rK_path.
  - exists p. split; [exact Op|]. apply dist_moved; [lra|apply B].
Qed.
End Round.

Theorem round_exists s e eps m ps : s = 1 \/ s = -1 -> roomy s e m ps -> coarse eps e m -> exists vws, rounded_corners ps (- s * e) eps vws.
Proof. intros Hs Ro Co. pose proof Co as (_ & He & Hm & _). exact (corners_exist s e eps m ps Hs He Hm Ro Co). Qed.

Theorem round_offset mk s ps e m o idx vws : makes_index mk -> s = 1 \/ s = -1 -> roomy s e m ps -> coarse (oo_pos_equal_eps o) e m ->
  (forall a b, In (a, b) (spec_segs ps true) -> clear_direction a b) ->
  0 < oo_slice_join_eps o -> 0 < oo_offset_dist_eps o < 2 * e -> oo_handle_self_intersects o = false -> pline_index (polygon ps) idx ->
  rounded_corners ps (- s * e) (oo_pos_equal_eps o) vws ->
  parallel_offset mk (polygon ps) idx (- s * e) o = Ret [round_path vws]
  /\ passes_once (round_path vws)
  /\ (forall x, on_path (round_path vws) x -> (forall q, on_path (polygon ps) q -> e <= dist x q) /\ exists q, on_path (polygon ps) q /\ dist x q = e)
  /\ forall x, ~ on_path (round_path vws) x ->
     (inside (round_path vws) x = true <-> inside (polygon ps) x = true \/ exists q, on_path (polygon ps) q /\ dist x q < e).
Proof.
  intros MK Hs Ro Co CD Hj Ho HSI IDX RC. pose proof Co as (_ & He & Hm & _). split; [|split; [|split]].
  - exact (rd_whole s e (oo_pos_equal_eps o) m ps vws Hs He Hm Ro Co CD RC mk idx o MK IDX eq_refl HSI Hj Ho).
  - exact (raw_once s e (oo_pos_equal_eps o) m ps vws Hs He Hm Ro Co CD RC).
  - exact (rd_distance s e (oo_pos_equal_eps o) m ps vws Hs He Hm Ro Co CD RC).
  - exact (rd_region s e (oo_pos_equal_eps o) m ps vws Hs He Hm Ro Co CD RC).
Qed.
