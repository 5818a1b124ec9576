(** Points at the distance of the offset from a polygon are on its raw offset (C78). *)
From Coq Require Import Reals ZArith Bool List Arith Lra Lia Psatz Classical.
From Verif Require Import Num RNum Res ModelMath ModelSeg ModelPline.
From Verif Require Import Spec SpecPline SpecGeom SpecIntr SpecBox SpecView SpecPrune SpecBoolean SpecOffset SpecOffsetJoin SpecJordan SpecPolyOff SpecRound.
From Verif Require Import ProofR ProofArc ProofRound3 ProofRay ProofWinding2 ProofWinding6 ProofWinding7 ProofNest ProofOverlap ProofJordan ProofJordan2 ProofConvexOff ProofOff2.
From Verif Require ProofIntr ProofMeasure ProofConvex ProofPolyOff2 ProofRawNear2.
Import ListNotations.
Local Open Scope R_scope.

Section Sides.
Variables (ps : list (vec2 R)) (o : Z).
Let p := polygon ps.
Let sides := spec_segs ps true.
Hypothesis Vl : valid_loop p.
Hypothesis Po : passes_once p.
Hypothesis Ho : o = 1%Z \/ o = (-1)%Z.
Hypothesis W : forall x, ~ on_path p x -> wn p x = 0%Z \/ wn p x = o.

Lemma side_on a b t : In (a, b) sides -> 0 <= t <= 1 -> on_path p (line_pt a b t).
Proof. intros I Ht. apply ProofConvex.polygon_path. exists a, b, t. auto. Qed.

Lemma perp_at a b f n h s : left_normal a b n -> (exists t, f = line_pt a b t) ->
  sideof (vertex_at a 0, vertex_at b 0) (line_pt f (moved f n h) s) = dist a b * (s * h).
Proof.
  intros N (t & ->). destruct (normal_dir _ _ _ N) as (U & _ & Bx & By). unfold sideof, perp, moved, line_pt, vertex_at. cbn [fst snd pbulge px py vx vy].
  transitivity (dist a b * (s * h) * (vx n * vx n + vy n * vy n)); [rewrite Bx, By; ring|rewrite U; ring].
Qed.

(** From a point of a side straight to the left or to the right. *)
Lemma pt_side a b t n h : In (a, b) sides -> 0 < t < 1 -> left_normal a b n -> h <> 0 ->
  (forall s, 0 < s <= 1 -> ~ on_path p (line_pt (line_pt a b t) (moved (line_pt a b t) n h) s)) ->
  inside p (moved (line_pt a b t) n h) = true <-> 0 < IZR o * h.
Proof.
  intros I Ht N Hh Off. set (f := line_pt a b t) in *. set (z := moved f n h) in *.
  destruct (inside_left p (vertex_at a 0, vertex_at b 0) t f o (ProofConvex.polygon_ok ps) Vl Po) as (r & Hr & K); auto.
  { unfold p. change (is_closed (polygon ps)) with true. unfold polygon. cbn [vtx]. rewrite (ProofPolyOff2.spec_segs_map (fun q => vertex_at q 0)). apply in_map_iff. exists (a, b). split; [reflexivity|exact I]. }
  { apply seg_at_line; [reflexivity|]. reflexivity. }
  destruct (normal_dir _ _ _ N) as (_ & Lp & _ & _). pose proof (ProofIntr.dist_pos f z) as Dz.
  set (s := Rmin 1 (r / (2 * (dist f z + 1)))). assert (S0 : 0 < s) by (apply Rmin_glb_lt; [lra|apply Rdiv_lt_0_compat; lra]).
  assert (S1 : s <= 1) by apply Rmin_l.
  assert (Sr : s * (2 * (dist f z + 1)) <= r). { pose proof (Rmin_r 1 (r / (2 * (dist f z + 1)))) as Q. fold s in Q. apply Rmult_le_compat_r with (r := 2 * (dist f z + 1)) in Q; [|lra]. replace (r / (2 * (dist f z + 1)) * (2 * (dist f z + 1))) with r in Q by (field; lra). exact Q. }
  pose proof (perp_at a b f n h s N ltac:(now exists t)) as PE. fold z in PE.
  assert (Df : dist f (line_pt f z s) < r).
  { destruct (line_pt_ends f z) as (X0 & _). rewrite <- X0 at 1. rewrite ProofIntr.dist_line_pt, Rabs_left1 by lra. assert (0 <= s * dist f z) by (apply Rmult_le_pos; lra). lra. }
  assert (NZ : s * h <> 0) by (intros Q; apply Rmult_integral in Q as [Q|Q]; lra).
  destruct (K _ Df) as (_ & K2). { rewrite PE. intros Q. apply Rmult_integral in Q as [Q|Q]; lra. }
  assert (E : wn p (line_pt f z s) = wn p z).
  { apply wn_straight; [apply ProofConvex.polygon_ok|]. intros u Hu. destruct (line_pt_ends f z) as (_ & X1).
    replace (line_pt (line_pt f z s) z u) with (line_pt f z (s + u * (1 - s))) by (unfold line_pt; apply vec2_eq; cbn [vx vy]; ring). apply Off.
    assert (0 <= u * (1 - s)) by (apply Rmult_le_pos; lra). assert (0 <= (1 - u) * (1 - s)) by (apply Rmult_le_pos; lra). lra. }
  rewrite inside_iff, <- E, <- inside_iff, K2, PE. replace (IZR o * (dist a b * (s * h))) with (dist a b * s * (IZR o * h)) by ring.
  assert (Pq : 0 < dist a b * s) by (apply Rmult_lt_0_compat; lra). split; intros Q; [|now apply Rmult_lt_0_compat].
  apply Rmult_lt_reg_l with (dist a b * s); [exact Pq|]. lra.
Qed.

(** Near a corner there are only its two sides. *)
Lemma near_two b (l : list (vec2 R * vec2 R)) (Q : vec2 R * vec2 R -> Prop) : (forall s, In s l -> Q s \/ forall t, 0 <= t <= 1 -> line_pt (fst s) (snd s) t <> b) ->
  exists r, 0 < r /\ forall s t, In s l -> 0 <= t <= 1 -> dist b (line_pt (fst s) (snd s) t) < r -> Q s.
Proof.
  induction l as [|s l IH]; intros H; [exists 1; split; [lra|]; intros s t []|]. destruct (IH (fun s I => H s (or_intror I))) as (r & Hr & K).
  destruct (H s (or_introl eq_refl)) as [Qs|Ns].
  - exists r. split; [exact Hr|]. intros s' t [<-|I] Ht D; [exact Qs|]. now apply (K s' t).
  - destruct (nearest_on b (fst s) (snd s)) as (u & Hu & M). set (m := dist b (line_pt (fst s) (snd s) u)) in *.
    assert (Hm : 0 < m). { apply ProofConvex.dist_pos. intros E. now apply (Ns u Hu). }
    exists (Rmin r m). split; [now apply Rmin_glb_lt|]. pose proof (Rmin_l r m). pose proof (Rmin_r r m). intros s' t [<-|I] Ht D; [specialize (M t Ht); lra|]. apply (K s' t); auto. lra.
Qed.

Lemma sides_count : (2 <= length ps)%nat.
Proof. destruct Vl as (Q & _). unfold vertex_count, p, polygon in Q. cbn [vtx] in Q. rewrite map_length in Q. exact Q. Qed.
Lemma side_nth i : (i < length ps)%nat -> exists a b, nth_error sides i = Some (a, b).
Proof.
  clear Po Ho W. intros L. destruct (nth_error sides i) as [(a, b)|] eqn:E; [eauto|]. apply nth_error_None in E. unfold sides in E. rewrite ProofIter.spec_segs_length in E. pose proof sides_count. destruct ps as [|x [|y l]]; cbn in *; lia.
Qed.
Lemma side_point j s u b : nth_error sides j = Some s -> 0 <= u <= 1 -> line_pt (fst s) (snd s) u = b -> point_at p j u b.
Proof.
  destruct s as [x y]. intros E0 Hu Eu. exists (vertex_at x 0), (vertex_at y 0). change (is_closed p) with true. unfold p. rewrite ProofPolyOff2.polygon_segs. fold sides. rewrite E0. split; [reflexivity|]. split; [exact Hu|]. apply seg_at_line; [reflexivity|]. cbn [fst snd] in Eu. now rewrite <- Eu.
Qed.

Lemma corner_lone i a b c : nth_error sides i = Some (a, b) -> nth_error sides ((i + 1) mod length ps) = Some (b, c) ->
  exists r, 0 < r /\ forall q, on_path p q -> dist b q < r -> exists t, 0 <= t <= 1 /\ (q = line_pt a b t \/ q = line_pt b c t).
Proof.
  intros E1 E2. set (n := length ps) in *. pose proof sides_count as N2. fold n in N2.
  assert (PA : forall j s t, nth_error sides j = Some s -> 0 <= t <= 1 -> line_pt (fst s) (snd s) t = b -> s = (a, b) \/ s = (b, c)).
  { intros j s t Ej Ht Eb.
    assert (B0 : point_at p ((i + 1) mod n) 0 b) by (apply (side_point _ _ _ _ E2); [lra|cbn [fst snd]; apply line_pt_ends]).
    destruct (Req_dec t 1) as [->|Nt].
    - left. destruct s as [x y]. cbn [fst snd] in Eb. destruct (line_pt_ends x y) as (_ & X1). rewrite X1 in Eb. subst y.
      assert (Lj : (j < n)%nat). { pose proof Ej as E0. apply ProofPolyOff2.segs_nth in E0 as (E0 & _). unfold n. apply nth_error_Some. congruence. }
      assert (Li : (i < n)%nat). { pose proof E1 as E0. apply ProofPolyOff2.segs_nth in E0 as (E0 & _). unfold n. apply nth_error_Some. congruence. }
      destruct (side_nth ((j + 1) mod n)) as (b' & c' & E3); [apply Nat.mod_upper_bound; lia|].
      assert (b' = b). { pose proof E3 as E4. apply ProofPolyOff2.segs_nth in E4 as (E4 & _). apply ProofPolyOff2.segs_nth in Ej as (_ & Ej). fold n in Ej. congruence. } subst b'.
      assert (C0 : point_at p ((j + 1) mod n) 0 b) by (apply (side_point _ _ _ _ E3); [lra|cbn [fst snd]; apply line_pt_ends]).
      destruct (Po _ _ _ _ _ B0 C0 ltac:(lra) ltac:(lra)) as (Em & _).
      assert (i = j).
      { destruct (Nat.eq_dec (i + 1) n) as [Q|Q]; destruct (Nat.eq_dec (j + 1) n) as [Q'|Q']; [lia|rewrite Q, Nat.mod_same, Nat.mod_small in Em by lia; lia|rewrite Q', Nat.mod_same, Nat.mod_small in Em by lia; lia|rewrite !Nat.mod_small in Em by lia; lia]. }
      subst j. congruence.
    - destruct (Po _ _ _ _ _ (side_point _ _ _ _ Ej Ht Eb) B0 ltac:(lra) ltac:(lra)) as (-> & _). right. congruence. }
  destruct (near_two b sides (fun s => s = (a, b) \/ s = (b, c))) as (r & Hr & K).
  { intros s I. destruct (In_nth_error _ _ I) as (j & Ej). destruct (classic (s = (a, b) \/ s = (b, c))) as [Q|Q]; [now left|right]. intros t Ht Eb. apply Q. now apply (PA j s t). }
  exists r. split; [exact Hr|]. intros q Oq Dq. apply ProofConvex.polygon_path in Oq as (x & y & t & I & Ht & ->). exists t. split; [exact Ht|]. destruct (K (x, y) t I Ht Dq) as [[= -> ->]|[= -> ->]]; auto.
Qed.

(** Around a corner that is turned towards the side of [d], from the normal of the first side to the one of the second, the other side lies. *)
Lemma corner_out i a b c d z : nth_error sides i = Some (a, b) -> nth_error sides ((i + 1) mod length ps) = Some (b, c) ->
  0 < d * cross (vec a b) (vec b c) -> z <> b -> 0 <= dot (vec b z) (vec a b) -> dot (vec b z) (vec b c) <= 0 ->
  (forall s, 0 < s <= 1 -> ~ on_path p (line_pt b z s)) -> inside p z = true <-> IZR o * d < 0.
Proof.
  intros E1 E2 X Zb Da Dc Off. destruct (corner_lone i a b c E1 E2) as (r & Hr & Lone).
  assert (Dd : d <> 0) by (intros ->; lra).
  set (g := if Rle_dec 0 d then 1 else -1). assert (Hg : (g = 1 /\ 0 < d) \/ (g = -1 /\ d < 0)) by (unfold g; destruct (Rle_dec 0 d); [left|right]; split; lra).
  assert (GX : 0 < g * cross (vec a b) (vec b c)).
  { destruct Hg as [(-> & Q)|(-> & Q)].
    - apply Rmult_lt_reg_l with d; lra.
    - apply Rmult_lt_reg_l with (- d); lra. }
  assert (Nab : a <> b). { intros ->. unfold cross, vec in X. cbn [vx vy] in X. lra. }
  assert (exists n, left_normal a b n) as (n & N) by (eexists; apply ProofOffsetJoin4.left_normal_exists; exact Nab). destruct (normal_dir _ _ _ N) as (U & PL & Bx & By). set (L := dist a b) in *.
  (* the second side is above the first *)
  set (hc := (vx c - vx b) * vx n + (vy c - vy b) * vy n).
  assert (Hc : 0 < g * hc).
  { replace (g * cross (vec a b) (vec b c)) with (L * (g * hc)) in GX by (unfold hc, cross, vec; cbn [vx vy]; rewrite Bx, By; ring).
    apply Rmult_lt_reg_l with L; [exact PL|]. lra. }
  (* what avoids both *)
  assert (AV : forall x, dist b x < r -> (x <> b /\ 0 <= dot (vec b x) (vec a b) /\ dot (vec b x) (vec b c) <= 0) \/ g * ((vx x - vx b) * vx n + (vy x - vy b) * vy n) < 0 -> ~ on_path p x).
  { intros x Dx C Ox. destruct (Lone x Ox Dx) as (t & Ht & Q). destruct C as [(Nx & C1 & C2)|C].
    - apply Nx. assert (SQ : forall k y w, 0 <= k -> vx x - vx b = k * (vx y - vx w) -> vy x - vy b = k * (vy y - vy w) -> y <> w -> dot (vec b x) (vec w y) <= 0 -> x = b).
      { intros k y w K Ex Ey Ny D0. unfold dot, vec in D0. cbn [vx vy] in D0. rewrite Ex, Ey in D0.
        assert (P : 0 < (vx y - vx w) * (vx y - vx w) + (vy y - vy w) * (vy y - vy w)). { rewrite <- ProofIntr.dist_sqr. pose proof (ProofConvex.dist_pos w y) as P. assert (Q0 : 0 < dist w y) by (apply P; congruence). rewrite ProofJordan2.dist_sym in Q0. apply Rmult_lt_0_compat; assumption. }
        assert (K0 : k = 0). { destruct (Rle_lt_or_eq_dec _ _ K) as [K1|K1]; [|lra]. exfalso. assert (0 < k * ((vx y - vx w) * (vx y - vx w) + (vy y - vy w) * (vy y - vy w))) by (apply Rmult_lt_0_compat; assumption). lra. }
        rewrite K0 in Ex, Ey. apply vec2_eq; lra. }
      destruct Q as [-> | ->].
      + apply (SQ (1 - t) a b); [lra|unfold line_pt; cbn [vx]; ring|unfold line_pt; cbn [vy]; ring|exact Nab|]. unfold dot, vec in *. cbn [vx vy] in *. lra.
      + apply (SQ t c b); [lra|unfold line_pt; cbn [vx]; ring|unfold line_pt; cbn [vy]; ring| |exact C2]. intros ->. unfold hc in Hc. lra.
    - destruct Q as [-> | ->].
      + replace ((vx (line_pt a b t) - vx b) * vx n + (vy (line_pt a b t) - vy b) * vy n) with 0 in C; [lra|]. unfold line_pt. cbn [vx vy]. rewrite Bx, By. ring.
      + replace ((vx (line_pt b c t) - vx b) * vx n + (vy (line_pt b c t) - vy b) * vy n) with (t * hc) in C by (unfold line_pt, hc; cbn [vx vy]; ring).
        assert (0 <= t * (g * hc)) by (apply Rmult_le_pos; lra). lra. }
  set (k := Rmin (r / 4) (L / 2)). assert (K0 : 0 < k) by (apply Rmin_glb_lt; lra). assert (K1 : k <= r / 4) by apply Rmin_l. assert (K2 : k <= L / 2) by apply Rmin_r.
  pose proof (ProofIntr.dist_pos b z) as Dz. assert (Dz' : 0 < dist b z) by (apply ProofConvex.dist_pos; congruence).
  set (q := Rmin 1 (k / (dist b z + 1))). assert (Q0 : 0 < q) by (apply Rmin_glb_lt; [lra|apply Rdiv_lt_0_compat; lra]). assert (Q1 : q <= 1) by apply Rmin_l.
  assert (Q2 : q * (dist b z + 1) <= k). { pose proof (Rmin_r 1 (k / (dist b z + 1))) as Q. fold q in Q. apply Rmult_le_compat_r with (r := dist b z + 1) in Q; [|lra]. replace (k / (dist b z + 1) * (dist b z + 1)) with k in Q by (field; lra). exact Q. }
  assert (Q3 : 0 <= q * dist b z) by (apply Rmult_le_pos; lra).
  set (A := line_pt b z q). set (A2 := moved b n (- (q * g))). set (f := line_pt a b (1 - k / L)). set (B := moved f n (- (q * g))).
  assert (KL : 0 < k / L < 1). { split; [apply Rdiv_lt_0_compat; lra|]. apply Rmult_lt_reg_r with L; [exact PL|]. unfold Rdiv. rewrite Rmult_assoc, Rinv_l by lra. lra. }
  assert (KK : k / L * L = k) by (field; lra).
  assert (DM : forall x h, dist x (moved x n h) = Rabs h).
  { intros x h. rewrite <- (Rabs_pos_eq (dist x (moved x n h))) by apply ProofIntr.dist_pos. apply Rsqr_eq_abs_0. unfold Rsqr. rewrite ProofIntr.dist_sqr. unfold moved. cbn [vx vy]. transitivity (h * h * (vx n * vx n + vy n * vy n)); [ring|rewrite U; ring]. }
  assert (DA : dist b A <= k). { unfold A. destruct (line_pt_ends b z) as (X0 & _). rewrite <- X0 at 1. rewrite ProofIntr.dist_line_pt, Rabs_left1 by lra. lra. }
  assert (DG : Rabs (- (q * g)) = q). { rewrite Rabs_Ropp, Rabs_mult, (Rabs_pos_eq q) by lra. destruct Hg as [(-> & _)|(-> & _)]; [rewrite Rabs_R1; ring|rewrite Rabs_left1 by lra; ring]. }
  assert (DA2 : dist b A2 <= k) by (unfold A2; rewrite DM, DG; lra).
  assert (Df : dist b f = k). { unfold f. destruct (line_pt_ends a b) as (_ & X1). rewrite <- X1 at 1. rewrite ProofIntr.dist_line_pt. fold L. rewrite Rabs_right by lra. lra. }
  assert (DB : dist b B <= 2 * k). { pose proof (ProofJordan2.dist_triangle b f B) as T. unfold B in T at 2. rewrite DM, DG in T. lra. }
  assert (LB : forall x y t, 0 <= t <= 1 -> dist b x <= 2 * k -> dist b y <= 2 * k -> dist b (line_pt x y t) < r).
  { intros x y t Ht D1 D2. apply Rle_lt_trans with (2 * k); [|lra]. pose proof (ProofRawNear2.line_moves x y b b t Ht) as M. replace (line_pt b b t) with b in M by (unfold line_pt; apply vec2_eq; cbn [vx vy]; ring).
    assert ((1 - t) * dist b x <= (1 - t) * (2 * k)) by (apply Rmult_le_compat_l; lra). assert (t * dist b y <= t * (2 * k)) by (apply Rmult_le_compat_l; lra). lra. }
  assert (GG : g * g = 1) by (destruct Hg as [(-> & _)|(-> & _)]; lra).
  (* from the point back to near the corner *)
  assert (W1 : wn p A = wn p z).
  { apply wn_straight; [apply ProofConvex.polygon_ok|]. intros u Hu. unfold A.
    replace (line_pt (line_pt b z q) z u) with (line_pt b z (q + u * (1 - q))) by (unfold line_pt; apply vec2_eq; cbn [vx vy]; ring). apply Off.
    assert (0 <= u * (1 - q)) by (apply Rmult_le_pos; lra). assert (0 <= (1 - u) * (1 - q)) by (apply Rmult_le_pos; lra). lra. }
  assert (W2 : wn p A = wn p A2).
  { apply wn_straight; [apply ProofConvex.polygon_ok|]. intros u Hu. apply AV; [apply LB; auto; lra|]. left.
    assert (Nd : (vx n) * (vx c - vx b) + vy n * (vy c - vy b) = hc) by (unfold hc; ring).
    assert (Ex : vx (line_pt A A2 u) - vx b = q * ((1 - u) * (vx z - vx b) + u * (- g * vx n))) by (unfold A, A2, line_pt, moved; cbn [vx vy]; ring).
    assert (Ey : vy (line_pt A A2 u) - vy b = q * ((1 - u) * (vy z - vy b) + u * (- g * vy n))) by (unfold A, A2, line_pt, moved; cbn [vx vy]; ring).
    assert (DD : dot (vec b (line_pt A A2 u)) (vec a b) = q * ((1 - u) * dot (vec b z) (vec a b))).
    { unfold dot, vec. cbn [vx vy]. rewrite Ex, Ey, Bx, By. ring. }
    assert (DC : dot (vec b (line_pt A A2 u)) (vec b c) = q * ((1 - u) * dot (vec b z) (vec b c) + u * - (g * hc))).
    { unfold dot, vec. cbn [vx vy]. rewrite Ex, Ey, <- Nd. ring. }
    assert (T1 : 0 <= (1 - u) * dot (vec b z) (vec a b)) by (apply Rmult_le_pos; lra).
    assert (T2 : 0 <= (1 - u) * - dot (vec b z) (vec b c)) by (apply Rmult_le_pos; lra). assert (T3 : 0 <= u * (g * hc)) by (apply Rmult_le_pos; lra).
    split; [|split].
    - intros Q. rewrite Q in Ex, Ey. assert (DC0 : q * ((1 - u) * dot (vec b z) (vec b c) + u * - (g * hc)) = 0) by (rewrite <- DC, Q; unfold dot, vec; cbn [vx vy]; ring).
      apply Rmult_integral in DC0 as [DC0|DC0]; [lra|]. assert (U0 : u = 0). { assert (Z0 : u * (g * hc) = 0) by lra. apply Rmult_integral in Z0 as [Z0|Z0]; lra. }
      rewrite U0 in Ex, Ey. apply Zb. assert (Z1 : q * (vx z - vx b) = 0) by lra. assert (Z2 : q * (vy z - vy b) = 0) by lra. apply Rmult_integral in Z1 as [Z1|Z1]; [lra|]. apply Rmult_integral in Z2 as [Z2|Z2]; [lra|]. apply vec2_eq; lra.
    - rewrite DD. apply Rmult_le_pos; lra.
    - rewrite DC. assert (0 <= q * ((1 - u) * - dot (vec b z) (vec b c) + u * (g * hc))) by (apply Rmult_le_pos; lra). lra. }
  assert (W3 : wn p A2 = wn p B).
  { apply wn_straight; [apply ProofConvex.polygon_ok|]. intros u Hu. apply AV; [apply LB; auto; lra|]. right.
    replace ((vx (line_pt A2 B u) - vx b) * vx n + (vy (line_pt A2 B u) - vy b) * vy n) with (- (q * g)).
    - replace (g * - (q * g)) with (- q * (g * g)) by ring. rewrite GG. lra.
    - unfold B, A2, f, line_pt, moved. cbn [vx vy]. rewrite Bx, By. transitivity (- (q * g) * (vx n * vx n + vy n * vy n)); [rewrite U; ring|ring]. }
  pose proof (pt_side a b (1 - k / L) n (- (q * g)) (nth_error_In _ _ E1) ltac:(lra) N) as PS. fold f B in PS.
  rewrite inside_iff, <- W1, W2, W3, <- inside_iff. rewrite PS.
  - replace (IZR o * - (q * g)) with (q * (- (IZR o * g))) by ring. destruct Hg as [(-> & Q)|(-> & Q)]; destruct Ho as [-> | ->]; split; intros Y; try lra.
  - intros Q. apply Ropp_eq_0_compat in Q. rewrite Ropp_involutive in Q. apply Rmult_integral in Q as [Q|Q]; [lra|]. rewrite Q in GG. lra.
  - intros u Hu. apply AV; [apply LB; auto; lra|]. right.
    replace ((vx (line_pt f B u) - vx b) * vx n + (vy (line_pt f B u) - vy b) * vy n) with (- (u * (q * g))).
    + replace (g * - (u * (q * g))) with (- (u * q) * (g * g)) by ring. rewrite GG. assert (0 < u * q) by (apply Rmult_lt_0_compat; lra). lra.
    + unfold B, f, line_pt, moved. cbn [vx vy]. rewrite Bx, By. transitivity (- (u * (q * g)) * (vx n * vx n + vy n * vy n)); [rewrite U; ring|ring].
Qed.
End Sides.
