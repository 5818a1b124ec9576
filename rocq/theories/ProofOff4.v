(** The raw offset of a polygon holds every point at the distance of the offset, on its side (C78). *)
From Coq Require Import Reals ZArith Bool List Arith Lra Lia Psatz Classical.
From Verif Require Import Num RNum Res ModelMath ModelSeg ModelPline.
From Verif Require Import Spec SpecPline SpecGeom SpecIntr SpecBox SpecView SpecPrune SpecBoolean SpecOffset SpecOffsetJoin SpecJordan SpecPolyOff SpecRound.
From Verif Require Import ProofR ProofArc ProofRound3 ProofRay ProofWinding2 ProofWinding6 ProofWinding7 ProofNest ProofOverlap ProofJordan ProofJordan2 ProofConvexOff ProofOff2 ProofOff3.
From Verif Require ProofIntr ProofMeasure ProofConvex ProofPolyOff2 ProofRawNear2.
Import ListNotations.
Local Open Scope R_scope.

(** ** Neighbours going round *)
Definition follows {A} (l : list A) (x y : A) : Prop := (exists l1 l2, l = l1 ++ x :: y :: l2) \/ (exists m, l = y :: m ++ [x]).

Lemma follows_turn {A} (h : A) l x y : follows (h :: l) x y -> follows (l ++ [h]) x y.
Proof.
  intros [(l1 & l2 & E)|(m & E)].
  - destruct l1 as [|h' l1]; cbn in E; injection E as -> ->.
    + right. now exists l2.
    + left. exists l1, (l2 ++ [h']). rewrite <- app_assoc. reflexivity.
  - injection E as -> ->. left. exists m, []. rewrite <- app_assoc. reflexivity.
Qed.

Lemma follows_rotate {A} (a b : list A) x y : follows (a ++ b) x y -> follows (b ++ a) x y.
Proof.
  revert b. induction a as [|h a IH]; intros b H; [rewrite app_nil_r; exact H|]. cbn [app] in H. apply follows_turn in H. rewrite <- app_assoc in H. apply IH in H. rewrite <- app_assoc in H. exact H.
Qed.

Lemma combine_follow {A} (l : list A) x z y rest : combine (l ++ x :: z :: rest) (tl (l ++ x :: z :: rest) ++ [y]) = combine l (tl (l ++ [x])) ++ (x, z) :: combine (z :: rest) (rest ++ [y]).
Proof.
  induction l as [|h l IH]; [reflexivity|]. cbn [app tl]. destruct l as [|h' l]; [reflexivity|]. cbn [app] in *. exact (f_equal (cons (h, h')) IH).
Qed.

Lemma combine_end {A} (m : list A) x y : forall z, exists l, combine (z :: m ++ [x]) ((m ++ [x]) ++ [y]) = l ++ [(x, y)].
Proof.
  induction m as [|h m IH]; intros z; [exists [(z, x)]; reflexivity|]. destruct (IH h) as (l & E). exists ((z, h) :: l). exact (f_equal (cons (z, h)) E).
Qed.

Lemma follows_segs {A} (l : list A) x y : follows l x y -> In (x, y) (spec_segs l true).
Proof.
  intros [(l1 & l2 & ->)|(m & ->)].
  - assert (E : spec_segs (l1 ++ x :: y :: l2) true = combine (l1 ++ x :: y :: l2) (tl (l1 ++ x :: y :: l2) ++ [hd x (l1 ++ x :: y :: l2)])).
    { destruct l1 as [|h [|h' l1]]; reflexivity. }
    rewrite E, combine_follow. apply in_or_app. right. now left.
  - destruct (combine_end m x y y) as (l & E). assert (E' : spec_segs (y :: m ++ [x]) true = combine (y :: m ++ [x]) ((m ++ [x]) ++ [y])) by (destruct m; reflexivity). rewrite E', E. apply in_or_app. right. now left.
Qed.

Lemma follows_round (vss : list (list (vertex R))) x y : follows (concat vss) x y -> follows (going_round vss) x y.
Proof.
  destruct vss as [|vs t]; [exact (fun H => H)|]. cbn [concat going_round]. rewrite <- (firstn_skipn (length vs - 1) vs) at 1. rewrite <- app_assoc. intros H. apply follows_rotate in H. rewrite <- app_assoc in H. exact H.
Qed.

Lemma split_at {A} (l : list A) i x : nth_error l i = Some x -> exists l1 l2, l = l1 ++ x :: l2 /\ length l1 = i.
Proof. intros E. apply nth_error_split in E as (l1 & l2 & E & L). eauto. Qed.

Lemma round_in (vss : list (list (vertex R))) i vs l1 v w l2 : nth_error vss i = Some vs -> vs = l1 ++ v :: w :: l2 -> In (v, w) (spec_segs (going_round vss) true).
Proof.
  intros E ->. apply split_at in E as (A & B & -> & _). apply follows_segs, follows_round. left. exists (concat A ++ l1), (l2 ++ concat B). rewrite concat_app. cbn [concat]. rewrite <- !app_assoc. reflexivity.
Qed.

Lemma round_next (vss : list (list (vertex R))) i v w l1 l2 : (2 <= length vss)%nat -> nth_error vss i = Some (l1 ++ [v]) -> nth_error vss ((i + 1) mod length vss) = Some (w :: l2) ->
  In (v, w) (spec_segs (going_round vss) true).
Proof.
  intros L E1 E2. apply follows_segs, follows_round. assert (Li : (i < length vss)%nat) by (apply nth_error_Some; congruence).
  destruct (Nat.eq_dec (i + 1) (length vss)) as [Q|Q].
  - rewrite Q, Nat.mod_same in E2 by lia. right. destruct vss as [|v0 t]; [discriminate|]. injection E2 as ->.
    destruct i as [|i]; [cbn in Q; cbn in L; lia|]. cbn in E1. apply split_at in E1 as (A & B & -> & La). cbn in Q. rewrite app_length in Q. cbn in Q. destruct B as [|? B]; [|cbn in Q; lia].
    exists (l2 ++ concat A ++ l1). cbn [concat]. rewrite concat_app. cbn [concat]. rewrite app_nil_r. cbn [app]. f_equal. rewrite <- !app_assoc. reflexivity.
  - rewrite Nat.mod_small in E2 by lia. left. apply split_at in E1 as (A & B & -> & La). rewrite nth_error_app2 in E2 by lia. replace (i + 1 - length A)%nat with 1%nat in E2 by lia. cbn in E2. destruct B as [|b B]; [discriminate|]. cbn in E2. injection E2 as ->.
    exists (concat A ++ l1), (l2 ++ concat B). rewrite concat_app. cbn [concat]. rewrite <- !app_assoc. reflexivity.
Qed.

(** ** Where the moved line of a side begins and ends *)
Section Made.
Variables (d eps : R).
Hypothesis Hd : d <> 0.
Hypothesis He : 0 < eps.

Lemma line_starts a b c n vs : corner_made d eps a b c vs -> left_normal b c n ->
  exists l v u, vs = l ++ [v] /\ pbulge v = 0 /\ pos v = line_pt (moved b n d) (moved c n d) u /\ 0 <= u <= 1
    /\ forall s, 0 <= s < u -> exists k, 0 <= k <= 1 /\ dist (moved (line_pt b c s) n d) (line_pt a b k) < Rabs d.
Proof.
  intros [(q & (n1 & n' & t & u & N1 & N' & Ht & Hu & E1 & E2 & X) & ->)|(v & w & (n1 & n' & al & N1 & N' & X & _ & _ & Pv & -> & _) & ->)] N.
  - rewrite (normal_unique _ _ _ _ N' N) in *. exists [], (vertex_at q 0), u. split; [reflexivity|]. split; [reflexivity|]. split; [rewrite ProofConvex.pos_vertex; exact E2|]. split; [exact Hu|].
    intros s Hs. apply (trim_start d a b c n1 n t u s); auto; [congruence|]. intros Q. rewrite Q, Rabs_R0 in X. lra.
  - rewrite (normal_unique _ _ _ _ N' N) in *. exists [v], (vertex_at (moved b n d) 0), 0. split; [reflexivity|]. split; [reflexivity|]. split; [rewrite ProofConvex.pos_vertex; symmetry; apply line_pt_ends|]. split; [lra|]. intros s Hs. lra.
Qed.

Lemma line_ends a b c n vs : corner_made d eps a b c vs -> left_normal a b n ->
  exists v l t, vs = v :: l /\ pos v = line_pt (moved a n d) (moved b n d) t /\ 0 <= t <= 1
    /\ forall s, t < s <= 1 -> exists k, 0 <= k <= 1 /\ dist (moved (line_pt a b s) n d) (line_pt b c k) < Rabs d.
Proof.
  intros [(q & (n1 & n' & t & u & N1 & N' & Ht & Hu & E1 & E2 & X) & ->)|(v & w & (n1 & n' & al & N1 & N' & X & _ & _ & Pv & -> & _) & ->)] N.
  - rewrite (normal_unique _ _ _ _ N1 N) in *. exists (vertex_at q 0), [], t. split; [reflexivity|]. split; [rewrite ProofConvex.pos_vertex; exact E1|]. split; [exact Ht|].
    intros s Hs. apply (trim d a b c n n' t u); auto; [congruence|]. intros Q. rewrite Q, Rabs_R0 in X. lra.
  - rewrite (normal_unique _ _ _ _ N1 N) in *. exists v, [vertex_at (moved b n' d) 0], 1. split; [reflexivity|]. split; [rewrite Pv; symmetry; apply line_pt_ends|]. split; [lra|]. intros s Hs. lra.
Qed.

(** The points round a corner are on its arc. *)
Lemma arc_holds a b c v w z : corner_round d eps a b c v w -> dist z b = Rabs d -> 0 <= dot (vec b z) (vec a b) -> dot (vec b z) (vec b c) <= 0 -> on_seg v w z.
Proof.
  intros (n & n' & al & N & N' & X & _ & _ & Pv & -> & A & Bd) Dz Da Dc.
  destruct (normal_dir _ _ _ N) as (U & PL & Bx & By). destruct (normal_dir _ _ _ N') as (U' & PL' & Cx & Cy).
  set (e := Rabs d) in *. assert (Ee : 0 < e) by now apply Rabs_pos_lt.
  set (g := d / e). assert (GE : d = e * g) by (unfold g; field; lra).
  assert (GG : g * g = 1). { assert (e * e = d * d) by (unfold e; symmetry; exact (Rsqr_abs d)). unfold g. replace (d / e * (d / e)) with (d * d / (e * e)) by (field; lra). rewrite H. field. exact Hd. }
  set (N0 := V2 (g * vx n) (g * vy n)). set (N1 := V2 (g * vx n') (g * vy n')).
  assert (M0 : moved b n d = moved b N0 e) by (unfold moved, N0; cbn [vx vy]; apply vec2_eq; cbn [vx vy]; rewrite GE; ring).
  assert (M1 : moved b n' d = moved b N1 e) by (unfold moved, N1; cbn [vx vy]; apply vec2_eq; cbn [vx vy]; rewrite GE; ring).
  destruct A as (Ap & E1 & E2). rewrite Pv, M0, circle_moved in E1. rewrite ProofConvex.pos_vertex, M1, circle_moved in E2. apply moved_inj in E1; [|lra]. apply moved_inj in E2; [|lra].
  set (si := sweep (pbulge v)) in *.
  set (S := vx n * vy n' - vy n * vx n'). assert (XS : cross (vec a b) (vec b c) = dist a b * dist b c * S) by (unfold S, cross, vec; cbn [vx vy]; rewrite Cx, Cy, Bx, By; ring).
  assert (gS : g * S < 0).
  { rewrite XS, GE in X. replace (e * g * (dist a b * dist b c * S)) with ((e * (dist a b * dist b c)) * (g * S)) in X by ring.
    assert (P : 0 < e * (dist a b * dist b c)) by (apply Rmult_lt_0_compat; [|apply Rmult_lt_0_compat]; lra). apply Rmult_lt_reg_l with (e * (dist a b * dist b c)); lra. }
  assert (CN : cross N0 N1 = S). { unfold cross, N0, N1, S. cbn [vx vy]. transitivity (g * g * (vx n * vy n' - vy n * vx n')); [ring|rewrite GG; ring]. }
  assert (SN : S <> 0) by (intros Q; rewrite Q in gS; lra).
  assert (SS : sin si = S). { rewrite <- CN, E1, E2, cross_turn. f_equal. ring. }
  assert (Bs : - PI < si < PI /\ si <> 0).
  { pose proof (atan_1_bound _ Bd) as B. fold (sweep (pbulge v)) in B. fold si in B. split.
    - destruct B as ([B1|B1] & [B2|B2]); [lra|exfalso; apply SN; rewrite <- SS, B2; apply sin_PI|exfalso; apply SN; rewrite <- SS, <- B1, sin_neg, sin_PI; ring|exfalso; apply SN; rewrite <- SS, B2; apply sin_PI].
    - intros Z. apply SN. rewrite <- SS, Z. apply sin_0. }
  destruct Bs as (Bs & Nz).
  (* the direction of the point *)
  set (y := V2 ((vx z - vx b) / e) ((vy z - vy b) / e)).
  assert (Zy : z = moved b y e) by (unfold moved, y; cbn [vx vy]; apply vec2_eq; cbn [vx vy]; field; lra).
  assert (Uy : unit y).
  { unfold unit, dot, y. cbn [vx vy]. assert (Q : dist z b * dist z b = e * e) by (rewrite Dz; reflexivity). rewrite ProofIntr.dist_sqr in Q.
    replace ((vx z - vx b) / e * ((vx z - vx b) / e) + (vy z - vy b) / e * ((vy z - vy b) / e)) with (((vx z - vx b) * (vx z - vx b) + (vy z - vy b) * (vy z - vy b)) / (e * e)) by (field; lra). rewrite Q. field. lra. }
  assert (Ya : 0 <= vy n * vx y - vx n * vy y).
  { unfold dot, vec in Da. cbn [vx vy] in Da. replace ((vx z - vx b) * (vx b - vx a) + (vy z - vy b) * (vy b - vy a)) with ((e * dist a b) * (vy n * vx y - vx n * vy y)) in Da by (unfold y; cbn [vx vy]; rewrite Bx, By; field; lra).
    apply Rmult_le_reg_l with (e * dist a b); [apply Rmult_lt_0_compat; lra|lra]. }
  assert (Yc : vy n' * vx y - vx n' * vy y <= 0).
  { unfold dot, vec in Dc. cbn [vx vy] in Dc. replace ((vx z - vx b) * (vx c - vx b) + (vy z - vy b) * (vy c - vy b)) with ((e * dist b c) * (vy n' * vx y - vx n' * vy y)) in Dc by (rewrite Cx, Cy; unfold y; cbn [vx vy]; field; lra).
    apply Rmult_le_reg_l with (e * dist b c); [apply Rmult_lt_0_compat; lra|lra]. }
  destruct (cone_sweep al si Bs Nz y Uy) as (t & Ht & Et).
  { rewrite <- E1, <- E2. apply cone_of; rewrite CN; [exact SN| |]; apply quot_same_sign; auto.
    - unfold cross, N1. cbn [vx vy]. replace ((vx y * (g * vy n') - vy y * (g * vx n')) * S) with ((- (g * S)) * - (vy n' * vx y - vx n' * vy y)) by ring. apply Rmult_le_pos; lra.
    - unfold cross, N0. cbn [vx vy]. replace ((g * vx n * vy y - g * vy n * vx y) * S) with ((- (g * S)) * (vy n * vx y - vx n * vy y)) by ring. apply Rmult_le_pos; lra. }
  exists t. split; [exact Ht|]. right. split. { intros Z. apply Nz. unfold si, sweep. rewrite Z. rewrite atan_0. ring. }
  exists b, e, al. split.
  - split; [exact Ap|]. split; [rewrite Pv, M0, circle_moved; congruence|]. rewrite ProofConvex.pos_vertex, M1, circle_moved. fold si. congruence.
  - rewrite circle_moved, Zy. fold si. congruence.
Qed.
End Made.
