(** The offset of an open polyline of lines whose raw offset keeps the distance (C80). *)
From Coq Require Import Reals ZArith Bool List Arith Lra Lia Psatz Permutation Sorted.
From Verif Require Import Num RNum Res ModelMath ModelIntr ModelSeg ModelPline ModelView ModelSegIntr ModelIndex ModelIntersects ModelBoolean ModelOffset.
From Verif Require Import Spec SpecPline SpecGeom SpecIntr SpecSegIntr SpecOffset SpecOffsetJoin SpecIndex SpecIntersects SpecCuts SpecOffNear SpecBoolean SpecView SpecBox SpecShape SpecChain SpecPolyOff SpecRound SpecCurve SpecSimple SpecOpen.
From Verif Require Import ProofR ProofBase ProofIter ProofArc ProofView ProofRepeat ProofSlice ProofSegIntr2 ProofCuts ProofCuts2 ProofCuts3 ProofChain2 ProofShape3 ProofOffsetJoin2 ProofWhole ProofOffNear4 ProofRound1 ProofOff6 ProofPieces ProofOpen1.
From Verif Require SpecStitch ProofRegion7 ProofIntr ProofConvexOff ProofOff4 ProofWinding4 ProofIntr ProofSegIntr ProofCurve1 ProofPolyOff ProofPolyOff2 ProofConvex ProofOff9 ProofClosest2 ProofJordan2.
Import ListNotations.
Local Open Scope R_scope.

Lemma hd_rev_last {A} (l : list A) x : hd_error (rev (l ++ [x])) = Some x.
Proof. now rewrite rev_app_distr. Qed.

Lemma moved_apart a b n d t : left_normal a b n -> dist (line_pt (moved a n d) (moved b n d) t) a * dist (line_pt (moved a n d) (moved b n d) t) a = d * d + t * t * (dist a b * dist a b)
  /\ dist (line_pt (moved a n d) (moved b n d) t) b * dist (line_pt (moved a n d) (moved b n d) t) b = d * d + (1 - t) * (1 - t) * (dist a b * dist a b).
Proof.
  intros (N1 & N2 & _). unfold vec in N2. cbn [vx vy] in N2. rewrite !ProofIntr.dist_sqr. unfold line_pt, moved. cbn [vx vy]. split.
  - transitivity (d * d * (vx n * vx n + vy n * vy n) + t * t * ((vx a - vx b) * (vx a - vx b) + (vy a - vy b) * (vy a - vy b)) + 2 * t * d * ((vx b - vx a) * vx n + (vy b - vy a) * vy n)); [ring|rewrite N1, N2; ring].
  - transitivity (d * d * (vx n * vx n + vy n * vy n) + (1 - t) * (1 - t) * ((vx a - vx b) * (vx a - vx b) + (vy a - vy b) * (vy a - vy b)) - 2 * (1 - t) * d * ((vx b - vx a) * vx n + (vy b - vy a) * vy n)); [ring|rewrite N1, N2; ring].
Qed.

(** A point farther along the moved line is farther from the start. *)
Lemma start_far a b n d q t : left_normal a b n -> a <> b -> q = line_pt (moved a n d) (moved b n d) t -> moved a n d <> q ->
  dist (moved a n d) a = Rabs d /\ forall s, s <> 0 -> Rabs d < dist (line_pt (moved a n d) q s) a.
Proof.
  intros N NE -> NQ.
  assert (P0 : line_pt (moved a n d) (moved b n d) 0 = moved a n d) by (unfold line_pt; apply vec2_eq; cbn [vx vy]; ring).
  pose proof (ProofConvex.dist_pos _ _ NE) as DP.
  assert (T0 : t <> 0) by (intros ->; now apply NQ).
  split.
  - apply Rsqr_inj; [apply ProofIntr.dist_pos|apply Rabs_pos|]. unfold Rsqr. destruct (moved_apart a b n d 0 N) as (E & _). rewrite P0 in E. rewrite E. rewrite <- (Rsqr_abs d : _ = Rabs d * Rabs d). unfold Rsqr. ring.
  - intros s Hs. replace (line_pt (moved a n d) (line_pt (moved a n d) (moved b n d) t) s) with (line_pt (moved a n d) (moved b n d) (s * t)) by (unfold line_pt; apply vec2_eq; cbn [vx vy]; ring).
    apply Rsqr_incrst_0; [|apply Rabs_pos|apply ProofIntr.dist_pos]. rewrite <- Rsqr_abs. unfold Rsqr. rewrite (proj1 (moved_apart a b n d (s * t) N)).
    assert (0 < (s * t) * (s * t)) by (apply Rsqr_pos_lt; intros Z; apply Rmult_integral in Z as [Z|Z]; contradiction).
    assert (0 < dist a b * dist a b) by (apply Rmult_lt_0_compat; lra). assert (0 < s * t * (s * t) * (dist a b * dist a b)) by (apply Rmult_lt_0_compat; lra). lra.
Qed.

Lemma end_far a b n d q t : left_normal a b n -> a <> b -> q = line_pt (moved a n d) (moved b n d) t -> moved b n d <> q ->
  dist (moved b n d) b = Rabs d /\ forall s, s <> 1 -> Rabs d < dist (line_pt q (moved b n d) s) b.
Proof.
  intros N NE -> NQ.
  assert (P1 : line_pt (moved a n d) (moved b n d) 1 = moved b n d) by (unfold line_pt; apply vec2_eq; cbn [vx vy]; ring).
  pose proof (ProofConvex.dist_pos _ _ NE) as DP.
  assert (T0 : 1 - t <> 0) by (intros Z; apply NQ; rewrite <- P1 at 1; f_equal; lra).
  split.
  - apply Rsqr_inj; [apply ProofIntr.dist_pos|apply Rabs_pos|]. unfold Rsqr. destruct (moved_apart a b n d 1 N) as (_ & E). rewrite P1 in E. rewrite E. rewrite <- (Rsqr_abs d : _ = Rabs d * Rabs d). unfold Rsqr. ring.
  - intros s Hs. replace (line_pt (line_pt (moved a n d) (moved b n d) t) (moved b n d) s) with (line_pt (moved a n d) (moved b n d) (1 - (1 - s) * (1 - t))) by (unfold line_pt; apply vec2_eq; cbn [vx vy]; ring).
    apply Rsqr_incrst_0; [|apply Rabs_pos|apply ProofIntr.dist_pos]. rewrite <- Rsqr_abs. unfold Rsqr. rewrite (proj2 (moved_apart a b n d _ N)).
    replace (1 - (1 - (1 - s) * (1 - t))) with ((1 - s) * (1 - t)) by ring.
    assert (0 < ((1 - s) * (1 - t)) * ((1 - s) * (1 - t))) by (apply Rsqr_pos_lt; intros Z; apply Rmult_integral in Z as [Z|Z]; [lra|contradiction]).
    assert (0 < dist a b * dist a b) by (apply Rmult_lt_0_compat; lra). assert (0 < (1 - s) * (1 - t) * ((1 - s) * (1 - t)) * (dist a b * dist a b)) by (apply Rmult_lt_0_compat; lra). lra.
Qed.

(** The first vertex of a corner is on the moved line before, the last one on the moved line after; from the last one on it
    goes straight. *)
Lemma corner_first d eps a b c n vs : corner_made d eps a b c vs -> left_normal a b n -> exists v l t, vs = v :: l /\ pos v = line_pt (moved a n d) (moved b n d) t.
Proof.
  intros [(q & (n1 & n2 & t & u & N1 & N2 & _ & _ & Q1 & _) & ->)|(v & w & (n1 & n2 & al & N1 & N2 & _ & _ & _ & PV & _) & ->)] N.
  - exists (vertex_at q 0), [], t. split; [reflexivity|]. rewrite (ProofConvexOff.normal_unique a b n n1 N N1). unfold vertex_at, pos. cbn. destruct q. exact Q1.
  - exists v, [w], 1. split; [reflexivity|]. rewrite PV, (ProofConvexOff.normal_unique a b n n1 N N1). unfold line_pt. apply vec2_eq; cbn [vx vy]; ring.
Qed.
Lemma corner_last d eps a b c n vs : corner_made d eps a b c vs -> left_normal b c n -> exists v l t, vs = l ++ [v] /\ pbulge v = 0 /\ pos v = line_pt (moved b n d) (moved c n d) t.
Proof.
  intros [(q & (n1 & n2 & t & u & N1 & N2 & _ & _ & _ & Q1 & _) & ->)|(v & w & (n1 & n2 & al & N1 & N2 & _ & _ & _ & _ & EW & _) & ->)] N.
  - exists (vertex_at q 0), [], u. split; [reflexivity|]. split; [reflexivity|]. rewrite (ProofConvexOff.normal_unique b c n n2 N N2). unfold vertex_at, pos. cbn. destruct q. exact Q1.
  - exists w, [v], 0. split; [reflexivity|]. rewrite EW. split; [reflexivity|]. rewrite (ProofConvexOff.normal_unique b c n n2 N N2). unfold vertex_at, pos, line_pt. cbn. unfold moved. apply vec2_eq; cbn [vx vy]; ring.
Qed.

Lemma combine_end {A} (m : list A) s t : exists k, combine (m ++ [s; t]) (tl (m ++ [s; t])) = k ++ [(s, t)].
Proof.
  induction m as [|x m (k & IH)]; [now exists []|]. cbn [app tl]. destruct m as [|y m]; [exists [(x, s)]; reflexivity|]. cbn [app tl] in *. exists ((x, y) :: k). cbn [combine app] in *. now rewrite IH.
Qed.
Lemma segs_chain {A} (l : list A) (s t : A * A) : In (s, t) (combine (spec_segs l false) (tl (spec_segs l false))) -> fst t = snd s.
Proof.
  rewrite open_segs. induction l as [|u l IH]; [intros []|]. cbn [tl]. destruct l as [|v l]; [intros []|]. cbn [combine tl] in *. destruct l as [|w l]; [intros []|]. cbn [combine]. intros [I|I]; [injection I as <- <-; reflexivity|]. apply IH. exact I.
Qed.
Lemma two_last {A} (l : list A) : (2 <= length l)%nat -> exists m s t, l = m ++ [s; t].
Proof.
  intros L. destruct l as [|t l] using rev_ind; [cbn in L; lia|]. destruct l as [|s m] using rev_ind; [cbn in L; lia|]. exists m, s, t. now rewrite <- app_assoc.
Qed.
Lemma segs_first {A} (l : list A) a b : hd_error (spec_segs l false) = Some (a, b) -> hd_error l = Some a.
Proof. rewrite open_segs. destruct l as [|x [|y l]]; [discriminate..|]. intros E. cbn in *. now injection E as <- <-. Qed.
Lemma segs_last {A} (l : list A) a b : hd_error (rev (spec_segs l false)) = Some (a, b) -> hd_error (rev l) = Some b.
Proof.
  rewrite open_segs. intros E. destruct (Nat.lt_ge_cases (length l) 2) as [L|L]; [destruct l as [|x [|y l]]; [discriminate|discriminate|cbn in L; lia]|].
  destruct (two_last l L) as (m & s & t & ->). destruct (combine_end m s t) as (k & K). rewrite K, hd_rev_last in E. injection E as <- <-. rewrite rev_app_distr. reflexivity.
Qed.
Lemma forall2_last {A B} (P : A -> B -> Prop) k s l : Forall2 P (k ++ [s]) l -> exists l' t, l = l' ++ [t] /\ P s t.
Proof.
  revert l. induction k as [|x k IH]; intros l F; cbn [app] in F; inversion F as [|? y ? l0 H F']; subst.
  - inversion F'. subst. now exists [], y.
  - destruct (IH _ F') as (l' & t & -> & Q). now exists (y :: l'), t.
Qed.

Lemma miss_none eps a b c e : 0 < eps -> seg_ok a b -> seg_ok c e ->
  (sides_clear eps a b c e /\ forall q, on_seg a b q -> on_seg c e q -> False) \/ touches_elsewhere eps a b c e \/ touches_elsewhere eps c e a b ->
  pline_seg_intr a b c e eps = SINoIntersect.
Proof.
  intros He Ok1 Ok2 [(SC & No)|[T|T]].
  - destruct (ProofCurve1.sides_exact eps a b c e He Ok1 Ok2 SC) as (NO & RP & _).
    assert (Z : forall q, ~ reported (pline_seg_intr a b c e eps) q) by (intros q Rq; apply RP in Rq as (O1 & O2); exact (No q O1 O2)).
    destruct (pline_seg_intr a b c e eps) as [|q|q|q q'|q q'|q q']; [reflexivity| | | |destruct NO..]; exfalso; apply (Z q); cbn [reported]; auto.
  - pose proof T as (Z1 & Z2 & _). unfold pline_seg_intr. rewrite (ProofOffsetJoin2.is_zero_line a Z1), (ProofOffsetJoin2.is_zero_arc c e Ok2 Z2). cbn [andb]. now apply ProofOff9.touch_none.
  - pose proof T as (Z1 & Z2 & _). unfold pline_seg_intr. rewrite (ProofOffsetJoin2.is_zero_line c Z1), (ProofOffsetJoin2.is_zero_arc a b Ok1 Z2). cbn [andb]. now apply ProofOff9.touch_none.
Qed.
Lemma rebulge_end (l : list (vertex R)) x : pbulge x = 0 -> rebulge_last (l ++ [x]) 0 = l ++ [x].
Proof.
  intros Z. induction l as [|v l IH]; [cbn; destruct x; cbn in *; now subst|]. cbn [app rebulge_last]. rewrite IH. destruct l; reflexivity.
Qed.

(** The views of an open path that begins and ends with a line: the whole, and from its start to its end. *)
Section View.
Variables (raw : pline R) (eps : R) (w0 x we : vertex R) (l : list (vertex R)).
Hypothesis He : 0 < eps.
Hypothesis RC : is_closed raw = false.
Hypothesis EV : vtx raw = w0 :: l ++ [x; we].
Hypothesis B0 : pbulge w0 = 0.
Hypothesis Bx : pbulge x = 0.
Hypothesis Be : pbulge we = 0.
Hypothesis NF : forall a b, In (a, b) (spec_segs (vtx raw) false) -> v2fuzzy_eq_eps (pos b) (pos a) eps = false.
Let k := (length l + 1)%nat.
Let D := VD 0 k w0 0 (pos we) false.

Lemma vw_count : vertex_count raw = (k + 2)%nat.
Proof. unfold vertex_count, k. rewrite EV. cbn [length]. rewrite app_length. cbn [length]. lia. Qed.
Lemma vw_x : at_ raw k = Ret x.
Proof. unfold at_, index, k. rewrite EV. change (w0 :: l ++ [x; we]) with ((w0 :: l) ++ [x; we]). rewrite nth_error_app2 by (cbn; lia). cbn [length]. now replace (length l + 1 - S (length l))%nat with 0%nat by lia. Qed.
Lemma vw_e : at_ raw (k + 1) = Ret we.
Proof. unfold at_, index, k. rewrite EV. change (w0 :: l ++ [x; we]) with ((w0 :: l) ++ [x; we]). rewrite nth_error_app2 by (cbn; lia). cbn [length]. now replace (length l + 1 + 1 - S (length l))%nat with 1%nat by lia. Qed.
Lemma vw_0 : at_ raw 0 = Ret w0.
Proof. unfold at_, index. now rewrite EV. Qed.
Lemma vw_1 : exists u, at_ raw 1 = Ret u /\ In (w0, u) (spec_segs (vtx raw) false).
Proof. rewrite open_segs. unfold at_, index. rewrite EV. destruct l as [|u t]; cbn; eauto. Qed.
Lemma vw_last : In (x, we) (spec_segs (vtx raw) false).
Proof. rewrite open_segs, EV. change (w0 :: l ++ [x; we]) with ((w0 :: l) ++ [x; we]). destruct (combine_end (w0 :: l) x we) as (m & ->). apply in_or_app. right. now left. Qed.

Lemma vw_entire : view_from_entire_pline raw = Ret D.
Proof.
  unfold view_from_entire_pline. rewrite vw_count. destruct (Nat.ltb_spec (k + 2) 2) as [L|_]; [unfold k in L; lia|]. rewrite vw_0. cbn [rbind]. rewrite RC.
  replace (k + 2 - 2)%nat with k by lia. replace (k + 2 - 1)%nat with (k + 1)%nat by lia. rewrite vw_x, vw_e. cbn [rbind]. rewrite Bx. reflexivity.
Qed.

Lemma vw_slice : view_from_slice_points raw (pos w0) 0 (pos we) k eps = Ret (Some D).
Proof.
  destruct vw_1 as (u & E1 & I1). unfold view_from_slice_points. rewrite RC. cbn [negb andb].
  assert (K0 : (k <=? 0)%nat = false) by (apply Nat.leb_gt; unfold k; lia). rewrite K0.
  assert (N0 : next_wrapping_index raw 0 = 1%nat). { unfold next_wrapping_index. rewrite vw_count. cbn [Nat.add]. destruct (Nat.leb_spec (k + 2) 1) as [L|_]; [lia|reflexivity]. }
  rewrite N0, E1. cbn [rbind]. rewrite (NF _ _ I1). cbn [rbind]. unfold fwd_wrapping_dist. cbn [Nat.leb]. rewrite Nat.sub_0_r. cbn [rbind].
  assert (K1 : Nat.eqb k 0 = false) by (apply Nat.eqb_neq; unfold k; lia). rewrite K1. cbn [andb rbind]. rewrite vw_0. cbn [rbind]. rewrite N0, E1. cbn [rbind].
  rewrite K1. unfold seg_split_at_point at 1. rewrite (is_zero_line w0 B0). cbn [split_vertex]. unfold view_create. rewrite K1, vw_x. cbn [rbind].
  rewrite (NF _ _ vw_last). unfold next_wrapping_index. rewrite vw_count. destruct (Nat.leb_spec (k + 2) (k + 1)) as [L|_]; [lia|]. rewrite vw_e. cbn [rbind].
  unfold seg_split_at_point. rewrite (is_zero_line x Bx). cbn [updated_start]. rewrite Bx. unfold D. destruct w0 as [a b c]. cbn in B0 |- *. now subst.
Qed.

Lemma vw_none : view_from_slice_points raw (pos we) k (pos we) (k + 1) eps = Ret None.
Proof.
  unfold view_from_slice_points. rewrite RC. cbn [negb andb]. destruct (Nat.leb_spec (k + 1) k) as [L|_]; [lia|].
  assert (N0 : next_wrapping_index raw k = (k + 1)%nat). { unfold next_wrapping_index. rewrite vw_count. destruct (Nat.leb_spec (k + 2) (k + 1)) as [L|_]; [lia|reflexivity]. }
  rewrite N0, vw_e. cbn [rbind]. rewrite (ProofWinding4.v2fuzzy_refl (pos we) eps He). cbn [rbind]. unfold fwd_wrapping_dist. rewrite Nat.leb_refl, Nat.sub_diag. cbn [rbind Nat.eqb andb]. rewrite vw_e. cbn [rbind].
  assert (N1 : next_wrapping_index raw (k + 1) = 0%nat). { unfold next_wrapping_index. rewrite vw_count. destruct (Nat.leb_spec (k + 2) (k + 1 + 1)) as [_|L]; [reflexivity|lia]. }
  rewrite N1, vw_0. cbn [rbind]. unfold seg_split_at_point. rewrite (is_zero_line we Be). cbn [updated_start]. unfold create_on_single_segment. rewrite (ProofWinding4.v2fuzzy_refl (pos we) eps He). reflexivity.
Qed.

Lemma vw_path : view_path_of raw D = vtx raw.
Proof.
  unfold view_path_of, D. cbn [vd_updated_start vd_start_index vd_end_index_offset vd_updated_end_bulge vd_end_point]. unfold spec_view, spec_following, spec_rotate. rewrite EV. cbn [Nat.add skipn firstn].
  assert (F : firstn k ((l ++ [x; we]) ++ [w0]) = l ++ [x]).
  { replace ((l ++ [x; we]) ++ [w0]) with ((l ++ [x]) ++ [we; w0]) by (rewrite <- !app_assoc; reflexivity). unfold k. rewrite firstn_app, firstn_all2 by (rewrite app_length; cbn; lia). rewrite app_length. cbn [length]. rewrite Nat.sub_diag. cbn [firstn]. now rewrite app_nil_r. }
  rewrite F, (rebulge_end l x Bx). rewrite <- app_assoc. cbn [app]. do 3 f_equal. f_equal. destruct we as [a b c]. cbn in Be |- *. now subst.
Qed.
End View.

Section Open.
Variables (mk : list (aabb R) -> sindex R) (p : pline R) (d : R) (o : offset_options R) (raw dual : pline R).
Let eps := oo_pos_equal_eps o.
Hypothesis He : 0 < eps.
Hypothesis OL : open_lines p.
Hypothesis N3 : (3 <= length (vtx p))%nat.
Hypothesis PB : path_beside p d eps raw.
Hypothesis PD : path_beside p (- d) eps dual.
Hypothesis LO : lone_open eps raw.
Hypothesis CD : clear_pline eps dual.
Hypothesis CM : clearly_miss eps raw dual.
Hypothesis CP : clearly_miss eps raw p.
Hypothesis Keep : forall q y, on_path raw q -> on_path p y -> Rabs d <= dist q y.
Hypothesis OE : off_ends eps d p raw.

Lemma op_shape : exists w0 we u x L a z, vtx raw = w0 :: L ++ [we] /\ hd_error L = Some u /\ hd_error (rev L) = Some x /\ pbulge w0 = 0 /\ pbulge x = 0 /\ pbulge we = 0
  /\ hd_error (vtx p) = Some a /\ hd_error (rev (vtx p)) = Some z
  /\ (pos w0 <> pos u -> dist (pos w0) (pos a) = Rabs d /\ forall s, s <> 0 -> Rabs d < dist (line_pt (pos w0) (pos u) s) (pos a))
  /\ (pos x <> pos we -> dist (pos we) (pos z) = Rabs d /\ forall s, s <> 1 -> Rabs d < dist (line_pt (pos x) (pos we) s) (pos z)).
Proof.
  clear - PB N3. destruct PB as (_ & _ & vss & a & b & y & z & n & m & C & H0 & H1 & Nn & Nm & EV).
  assert (LS : (2 <= length (spec_segs (vtx p) false))%nat). { rewrite spec_segs_length. destruct (Nat.ltb_spec (length (vtx p)) 2); lia. }
  pose proof (fun s t => segs_chain (vtx p) s t) as AD. pose proof (segs_first _ _ _ H0) as HA. pose proof (segs_last _ _ _ H1) as HZ.
  set (SS := spec_segs (vtx p) false) in *.
  assert (FIRST : exists vs0 vss', vss = vs0 :: vss' /\ exists c, corner_made d eps (pos a) (pos b) (pos c) vs0).
  { destruct SS as [|s0 [|s1 rest]] eqn:ES; [cbn in LS; lia|cbn in LS; lia|]. cbn in H0. injection H0 as ->. cbn [tl combine] in C. inversion C as [|? vs0 ? vss' C0 C1]. subst. exists vs0, vss'. split; [reflexivity|]. exists (snd s1). exact C0. }
  assert (LAST : exists vse vss', vss = vss' ++ [vse] /\ exists x, corner_made d eps (pos x) (pos y) (pos z) vse).
  { destruct (two_last SS LS) as (k & s & t & ES). rewrite ES in *. rewrite rev_app_distr in H1. cbn in H1. injection H1 as ->. destruct (combine_end k s (y, z)) as (k' & K). rewrite K in *.
    destruct (forall2_last _ _ _ _ C) as (l' & vse & -> & Q). cbn [fst snd] in Q. exists vse, l'. split; [reflexivity|]. exists (fst s).
    assert (E : snd s = y). { specialize (AD s (y, z)). cbn [fst snd] in AD. symmetry. apply AD. apply in_or_app. right. now left. } rewrite E in Q. exact Q. }
  destruct FIRST as (vs0 & vss0 & E0 & c & C0). destruct LAST as (vse & vss1 & E1 & x0 & C1).
  destruct (corner_first _ _ _ _ _ _ _ C0 Nn) as (u & l0 & t & -> & Pu). destruct (corner_last _ _ _ _ _ _ _ C1 Nm) as (x & l1 & t' & -> & Bx & Px).
  assert (Wp : forall q, pos (vertex_at q 0) = q) by (intros [qx qy]; reflexivity).
  exists (vertex_at (moved (pos a) n d) 0), (vertex_at (moved (pos z) m d) 0), u, x, (concat vss), a, z. split; [exact EV|].
  split; [rewrite E0; reflexivity|]. split; [rewrite E1, concat_app; cbn [concat]; rewrite app_nil_r, app_assoc; apply hd_rev_last|].
  split; [reflexivity|]. split; [exact Bx|]. split; [reflexivity|]. split; [exact HA|]. split; [exact HZ|]. rewrite !Wp. split.
  - intros NE. exact (start_far (pos a) (pos b) n d (pos u) t Nn (ProofPolyOff.left_normal_neq _ _ _ Nn) Pu NE).
  - intros NE. exact (end_far (pos y) (pos z) m d (pos x) t' Nm (ProofPolyOff.left_normal_neq _ _ _ Nm) Px (not_eq_sym NE)).
Qed.

Lemma op_closed : is_closed raw = false. Proof. apply PB. Qed.
Lemma op_seg i v1 v2 : nth_error (spec_segs (vtx raw) false) i = Some (v1, v2) -> seg_ok v1 v2 /\ ~ is_point (pos v1) (pos v2) eps /\ pos v1 <> pos v2.
Proof. apply (ol_seg raw eps He LO). Qed.
Lemma op_in v1 v2 : In (v1, v2) (spec_segs (vtx raw) false) -> seg_ok v1 v2 /\ ~ is_point (pos v1) (pos v2) eps /\ pos v1 <> pos v2.
Proof. intros I. apply In_nth_error in I as (i & E). exact (op_seg i v1 v2 E). Qed.
Lemma op_pline v1 v2 : In (v1, v2) (spec_segs (vtx p) false) -> pbulge v1 = 0 /\ seg_ok v1 v2.
Proof.
  clear - OL. intros I. apply ProofPolyOff.spec_segs_In_both in I as (I & _). destruct OL as (_ & B). specialize (B _ I). split; [exact B|]. split; [now left|]. intros H. contradiction.
Qed.

Lemma op_cuts cuts : 0 < Rabs d -> offset_cuts p d o raw cuts -> exists w0 x we l, vtx raw = w0 :: l ++ [x; we] /\ pbulge w0 = 0 /\ pbulge x = 0 /\ pbulge we = 0
  /\ (cuts = [] \/ cuts = [((length l + 1)%nat, pos we)]).
Proof.
  intros Hd. unfold offset_cuts. destruct OL as (PC & _). rewrite PC. cbn [andb]. fold eps. intros (dual' & pairs & cross & ends & ED & PO & CO & HE & ->).
  change (nneg d) with (- d) in ED. rewrite (open_made p (- d) eps dual He OL PD) in ED. injection ED as <-. change (nabs d) with (Rabs d) in HE.
  destruct op_shape as (w0 & we & u & x & L & a & z & EV & HU & HX & B0 & Bx & Be & HA & HZ & FS & FE).
  destruct L as [|x' l IHl] using rev_ind; [discriminate|]. clear IHl. rewrite hd_rev_last in HX. injection HX as ->.
  exists w0, x, we, l. rewrite <- app_assoc in EV. cbn [app] in EV. split; [exact EV|]. split; [exact B0|]. split; [exact Bx|]. split; [exact Be|].
  destruct HE as (a' & z' & h1 & h2 & Ea & Ez & H1 & H2 & ->). rewrite HA in Ea. rewrite HZ in Ez. injection Ea as <-. injection Ez as <-.
  assert (LR : length (vtx raw) = (length l + 3)%nat) by (rewrite EV; cbn [length]; rewrite app_length; cbn [length]; lia).
  assert (LS : length (spec_segs (vtx raw) false) = (length l + 2)%nat). { rewrite spec_segs_length, LR. destruct (Nat.ltb_spec (length l + 3) 2); lia. }
  rewrite (ol_no_cuts raw eps He LO ltac:(lia) pairs PO).
  assert (DC : dual_cuts raw dual eps cross = []).
  { assert (E : flat_map (cross_pair raw dual eps) cross = []); [|unfold dual_cuts; rewrite E; reflexivity]. clear CO. induction cross as [|ij t IH]; [reflexivity|]. cbn [flat_map]. rewrite IH, app_nil_r. apply (miss_pair eps raw dual ij He (proj1 (proj2 LO)) CD CM). }
  rewrite DC. cbn [app]. rewrite app_nil_r.
  assert (S0 : forall v1 v2, nth_error (spec_segs (vtx raw) false) 0 = Some (v1, v2) -> v1 = w0 /\ v2 = u).
  { intros v1 v2 E. apply open_nth in E as (E1 & E2). rewrite EV in E1, E2. cbn in E1. injection E1 as <-. split; [reflexivity|]. cbn in E2. destruct l; cbn in *; congruence. }
  assert (SE : forall v1 v2, nth_error (spec_segs (vtx raw) false) (length l + 1) = Some (v1, v2) -> v1 = x /\ v2 = we).
  { intros v1 v2 E. apply open_nth in E as (E1 & E2). rewrite EV in E1, E2. change (w0 :: l ++ [x; we]) with ((w0 :: l) ++ [x; we]) in E1, E2.
    rewrite nth_error_app2 in E1, E2 by (cbn; lia). cbn [length] in E1, E2. replace (length l + 1 + 1 - S (length l))%nat with 1%nat in E2 by lia. replace (length l + 1 - S (length l))%nat with 0%nat in E1 by lia. cbn in E1, E2. split; congruence. }
  assert (C1 : forall h, circle_cuts raw (pos a) (Rabs d) eps h = []).
  { intros h. unfold circle_cuts. rewrite op_closed. induction h as [|i h IH]; [reflexivity|]. cbn [flat_map]. rewrite IH, app_nil_r.
    destruct (nth_error (spec_segs (vtx raw) false) i) as [(v1, v2)|] eqn:E; [|reflexivity]. destruct (op_seg i v1 v2 E) as (Ok & NP & NE). destruct (OE i v1 v2 E) as (O1 & O2 & _).
    destruct i as [|i].
    - destruct (S0 v1 v2 E) as (-> & ->). destruct (FS NE) as (D0 & DS). unfold circle_points. rewrite (is_zero_line w0 B0), (touches_at _ _ _ _ 0 eps He NP (O1 (or_introl eq_refl))); [|rewrite <- D0; f_equal; unfold line_pt; apply vec2_eq; cbn [vx vy]; ring|exact DS].
      cbn [filter]. rnum. rewrite Rabs_R0. rewrite (proj2 (rltb_false eps 0)) by lra. rewrite !andb_false_r. reflexivity.
    - rewrite (off_points eps (pos a) (Rabs d) v1 v2 He (Rabs_pos d) Ok NP (O2 ltac:(lia) a HA)). reflexivity. }
  rewrite C1. cbn [app]. destruct H2 as (ND & HH).
  assert (C2 : forall i, i <> (length l + 1)%nat -> match nth_error (spec_segs (vtx raw) (is_closed raw)) i with Some (v1, v2) => map (pair i) (circle_points (pos z) (Rabs d) eps v1 v2) | None => [] end = []).
  { intros i Ni. rewrite op_closed. destruct (nth_error (spec_segs (vtx raw) false) i) as [(v1, v2)|] eqn:E; [|reflexivity]. destruct (op_seg i v1 v2 E) as (Ok & NP & NE). destruct (OE i v1 v2 E) as (_ & _ & O3).
    rewrite (off_points eps (pos z) (Rabs d) v1 v2 He (Rabs_pos d) Ok NP (O3 ltac:(lia) z HZ)). reflexivity. }
  assert (C3 : match nth_error (spec_segs (vtx raw) (is_closed raw)) (length l + 1) with Some (v1, v2) => map (pair (length l + 1)%nat) (circle_points (pos z) (Rabs d) eps v1 v2) | None => [] end = []
    \/ match nth_error (spec_segs (vtx raw) (is_closed raw)) (length l + 1) with Some (v1, v2) => map (pair (length l + 1)%nat) (circle_points (pos z) (Rabs d) eps v1 v2) | None => [] end = [((length l + 1)%nat, pos we)]).
  { rewrite op_closed. destruct (nth_error (spec_segs (vtx raw) false) (length l + 1)) as [(v1, v2)|] eqn:E; [|left; reflexivity]. destruct (op_seg _ v1 v2 E) as (Ok & NP & NE). destruct (OE _ v1 v2 E) as (O1 & _ & _).
    destruct (SE v1 v2 eq_refl) as (-> & ->). destruct (FE NE) as (D1 & DS). unfold circle_points. rewrite (is_zero_line x Bx), (touches_at _ _ _ _ 1 eps He NP (O1 ltac:(right; lia))); [|rewrite <- D1; f_equal; unfold line_pt; apply vec2_eq; cbn [vx vy]; ring|exact DS].
    cbn [filter]. destruct (_ && _); [right|left]; [|reflexivity]. cbn [map]. do 2 f_equal. rewrite from_parametric_R. unfold line_pt. apply vec2_eq; cbn [vx vy]; ring. }
  clear HH H1. unfold circle_cuts. induction h2 as [|i h IH]; [left; reflexivity|]. inversion ND as [|? ? NI ND']. subst. cbn [flat_map]. destruct (Nat.eq_dec i (length l + 1)) as [->|Ni]; [|rewrite (C2 i Ni); cbn [app]; now apply IH].
  replace (flat_map _ h) with (@nil (nat * vec2 R)); [rewrite app_nil_r; exact C3|]. symmetry. clear - NI C2. induction h as [|j h IH]; [reflexivity|]. cbn [flat_map]. rewrite (C2 j); [|intros ->; apply NI; now left]. cbn [app]. apply IH. intros I. apply NI. now right.
Qed.

Lemma op_point q : 0 < oo_offset_dist_eps o < 2 * Rabs d -> on_path raw q -> clear_point p d o q.
Proof.
  intros Ht Hq a b I _. destruct OL as (PC & _). pose proof I as I'. rewrite PC in I. destruct (op_pline a b I) as (Z & Ok). fold eps.
  pose proof (proj1 (ProofClosest2.seg_closest a b q eps Ok He) ltac:(intros (X & _); contradiction)) as ON.
  assert (G : Rabs d <= dist q (seg_closest_point a b q eps)) by (apply Keep; [exact Hq|exists a, b; split; assumption]).
  rnum. apply rltb_true. rewrite ProofPolyOff2.dist_squared_dist, ProofJordan2.dist_sym. set (E := Rabs d - oo_offset_dist_eps o) in *. assert (A : Rabs E < Rabs d) by (apply Rabs_def1; unfold E; lra). pose proof (Rabs_pos E).
  replace (E * E) with (Rabs E * Rabs E) by (unfold Rabs; destruct (Rcase_abs E); ring). nra.
Qed.

Lemma op_clear : 0 < oo_offset_dist_eps o < 2 * Rabs d -> (2 <= length (vtx raw))%nat -> clear_of p d o (vtx raw).
Proof.
  intros Ht TW. assert (ON : forall v1 v2 q, In (v1, v2) (spec_segs (vtx raw) false) -> on_seg v1 v2 q -> on_path raw q) by (intros v1 v2 q I O; exists v1, v2; rewrite op_closed; auto).
  split; [|split].
  - intros w I. apply op_point; [exact Ht|]. apply In_nth_error in I as (i & E).
    destruct (nth_error (spec_segs (vtx raw) false) i) as [(v1, v2)|] eqn:ES.
    + pose proof (nth_error_In _ _ ES) as I. destruct (open_nth _ _ _ _ ES) as (Q & _). assert (v1 = w) by congruence. subst v1. apply (ON w v2 _ I). exists 0. split; [lra|]. apply seg_at_0. apply op_in, I.
    + assert (Li : (i < length (vtx raw))%nat) by (apply nth_error_Some; congruence). apply nth_error_None in ES. rewrite spec_segs_length in ES. destruct (Nat.ltb_spec (length (vtx raw)) 2); [lia|].
      assert (Ei : i = (length (vtx raw) - 2 + 1)%nat) by lia.
      destruct (nth_error (spec_segs (vtx raw) false) (length (vtx raw) - 2)) as [(v1, v2)|] eqn:ET.
      * pose proof (nth_error_In _ _ ET) as I. destruct (open_nth _ _ _ _ ET) as (_ & Q). rewrite <- Ei in Q. assert (v2 = w) by congruence. subst v2. apply (ON v1 w _ I). exists 1. split; [lra|]. apply seg_at_1. apply op_in, I.
      * apply nth_error_None in ET. rewrite spec_segs_length in ET. destruct (Nat.ltb_spec (length (vtx raw)) 2); lia.
  - intros v1 v2 I a b J _. fold eps. apply miss_none; [exact He|apply op_in, I| |].
    + destruct OL as (PC & _). rewrite PC in J. apply op_pline, J.
    + apply CP; [rewrite op_closed; exact I|exact J].
  - intros k v1 v2 _ E. apply op_point; [exact Ht|]. pose proof (nth_error_In _ _ E) as I. apply (ON v1 v2 _ I). exists (1 / 2). split; [lra|]. apply seg_midpoint_spec. apply op_in, I.
Qed.

Theorem open_offset idx : makes_index mk -> pline_index p idx -> 0 < oo_offset_dist_eps o < 2 * Rabs d -> parallel_offset mk p idx d o = Ret [raw].
Proof.
  intros MK IDX Ht. destruct (offset_cut mk p idx d o MK IDX) as (raw' & ER & H); [unfold vertex_count; lia|]. fold eps in ER. rewrite (open_made p d eps raw He OL PB) in ER. injection ER as <-.
  destruct op_shape as (w0' & we' & u' & x' & L' & _ & _ & EV' & _).
  destruct H as [(Z & _)|(TW & slices & last & chains & Ks & OS & EO & AC & PM)]; [unfold vertex_count in Z; rewrite EV' in Z; discriminate Z|]. clear w0' we' u' x' L' EV'. rewrite EO. f_equal.
  destruct (offset_slices_cuts _ _ _ _ _ OS) as (cuts & OC & CS). destruct (op_cuts cuts ltac:(lra) OC) as (w0 & x & we & l & EV & B0 & Bx & Be & HC).
  destruct OL as (PC & _). rewrite PC in CS. pose proof op_closed as RC.
  assert (NF : forall a b, In (a, b) (spec_segs (vtx raw) false) -> v2fuzzy_eq_eps (pos b) (pos a) eps = false).
  { intros a b I. apply not_true_is_false. intros F. apply ProofIntr.v2fuzzy_R in F. destruct (op_in a b I) as (_ & NP & _). apply NP. exact F. }
  set (d0 := VD 0 (length l + 1) w0 0 (pos we) false).
  pose proof (vw_path raw eps w0 x we l RC EV Bx Be NF) as EP. fold d0 in EP. pose proof (vw_count raw eps w0 x we l RC EV NF) as VC.
  assert (SL : slices = [d0]).
  { destruct HC as [-> | ->].
    - destruct CS as (C0 & _). destruct (C0 eq_refl) as (d1 & b & E & -> & HB). rewrite (vw_entire raw eps w0 x we l RC EV Bx NF) in E. injection E as <-.
      replace b with true; [reflexivity|]. symmetry. apply HB. intros v HV. apply (op_clear Ht TW). rewrite EV in HV |- *. cbn in HV. injection HV as <-. now left.
    - destruct CS as (_ & C1). destruct (C1 ltac:(discriminate)) as (order & vos & PO & _ & _ & F & K).
      apply Permutation_sym, Permutation_length_1_inv in PO. subst order. fold eps in F. unfold stretches in F. rewrite VC in F. replace (length l + 1 + 2 - 1)%nat with (length l + 1 + 1)%nat in F by lia.
      assert (HH : hd_error (vtx raw) = Some w0) by now rewrite EV. assert (HT : hd_error (rev (vtx raw)) = Some we) by (rewrite EV; replace (w0 :: l ++ [x; we]) with ((w0 :: l ++ [x]) ++ [we]) by (cbn [app]; rewrite <- app_assoc; reflexivity); apply hd_rev_last).
      rewrite HH, HT in F. cbn [app combine tl] in F.
      inversion F as [|? vo1 ? ? V1 F1]. subst. inversion F1 as [|? vo2 ? ? V2 F2]. subst. inversion F2. subst. cbn [fst snd] in V1, V2.
      rewrite (vw_none raw eps w0 x we l He RC EV Be NF) in V2. injection V2 as <-. rewrite (vw_slice raw eps w0 x we l RC EV B0 Bx NF) in V1. injection V1 as <-. fold d0 in K.
      inversion K as [|?|? ? ? T1 K1|? ? ? T1 K1]; subst.
      + inversion K1 as [|? ? K2| |]; subst. inversion K2. reflexivity.
      + exfalso. destruct T1 as (_ & T1). rewrite EP in T1. discriminate (T1 (op_clear Ht TW)). }
  subst slices. cbn [length seq] in PM.
  assert (K : Ks = [vtx raw]).
  { rewrite <- EP. apply (single_chain raw d0 (oo_slice_join_eps o) last (oo_pos_equal_eps o) chains Ks); [|exact AC|exact PM]. apply ProofRegion7.all_pairs_no_repeat. intros (a, w) I. rewrite EP in I. cbn [fst snd]. unfold SpecStitch.close_by. fold eps.
    rewrite open_segs in NF. destruct (op_in a w) as (_ & NP & _); [rewrite open_segs; exact I|]. apply not_true_is_false. intros G. apply NP. apply ProofIntr.v2fuzzy_R in G. unfold is_point. rewrite (Rabs_minus_sym (vx (pos w))), (Rabs_minus_sym (vy (pos w))). exact G. }
  rewrite K, PC. cbn [offset_results map]. f_equal. unfold close_path. destruct raw as [vs c]. cbn in RC. cbn [vtx]. subst c. cbn [andb]. destruct (hd_error vs); [|reflexivity]. destruct (hd_error (rev vs)); reflexivity.
Qed.
End Open.

(** ** How far the path is from the polyline *)
Lemma moved_line_dist a b n d s : left_normal a b n -> dist (line_pt (moved a n d) (moved b n d) s) (line_pt a b s) = Rabs d.
Proof.
  intros (N1 & _). apply Rsqr_inj; [apply ProofIntr.dist_pos|apply Rabs_pos|]. rewrite <- Rsqr_abs. unfold Rsqr. rewrite ProofIntr.dist_sqr. unfold line_pt, moved. cbn [vx vy].
  transitivity (d * d * (vx n * vx n + vy n * vy n)); [ring|rewrite N1; ring].
Qed.
Lemma part_of_moved a b n d v w t u q : left_normal a b n -> pbulge v = 0 -> pos v = line_pt (moved a n d) (moved b n d) t -> pos w = line_pt (moved a n d) (moved b n d) u -> 0 <= t <= 1 -> 0 <= u <= 1 -> on_seg v w q ->
  exists s, 0 <= s <= 1 /\ dist q (line_pt a b s) = Rabs d.
Proof.
  intros N Z Pv Pw Ht Hu (s & Hs & Q). apply seg_at_line in Q; [|exact Z]. exists (t + s * (u - t)). split; [nra|]. rewrite <- (moved_line_dist a b n d (t + s * (u - t)) N). f_equal. rewrite Q, Pv, Pw. unfold line_pt. apply vec2_eq; cbn [vx vy]; ring.
Qed.
Lemma on_circle_dist c r a : 0 <= r -> dist (circle_pt c r a) c = r.
Proof.
  intros Hr. apply Rsqr_inj; [apply ProofIntr.dist_pos|exact Hr|]. unfold Rsqr. rewrite ProofIntr.dist_sqr. unfold circle_pt. cbn [vx vy]. pose proof (sin2_cos2 a) as SC. unfold Rsqr in SC. nra.
Qed.
Lemma round_dist d eps a b c v w q : corner_round d eps a b c v w -> on_seg v w q -> dist q b = Rabs d.
Proof.
  intros (n & n' & al & _ & _ & _ & _ & _ & _ & _ & A & _) (s & _ & Q). destruct (Req_dec (pbulge v) 0) as [Z|NZ].
  - apply seg_at_line in Q; [|exact Z]. destruct A as (_ & A1 & A2). rewrite Z in A2. unfold sweep in A2. rewrite atan_0, Rmult_0_r, Rplus_0_r in A2. rewrite <- (on_circle_dist b (Rabs d) al (Rabs_pos d)). f_equal. rewrite Q, A1, A2. unfold line_pt. apply vec2_eq; cbn [vx vy]; ring.
  - destruct Q as [(Z & _)|(_ & c0 & r0 & a0 & A0 & ->)]; [contradiction|].
    destruct (ProofArc.arc_unique _ _ _ _ _ _ NZ A) as (E1 & E2). destruct (ProofArc.arc_unique _ _ _ _ _ _ NZ A0) as (E3 & E4). rewrite <- E1 in E3. rewrite <- E2 in E4. subst c0 r0. apply on_circle_dist, Rabs_pos.
Qed.

Lemma beside_near d eps (l : list (vertex R)) : forall a b vss y z n m v t0 v1 v2 q,
  Forall2 (fun ss vs => corner_made d eps (pos (fst (fst ss))) (pos (snd (fst ss))) (pos (snd (snd ss))) vs) (combine (combine (a :: b :: l) (b :: l)) (combine (b :: l) l)) vss ->
  hd_error (rev (combine (a :: b :: l) (b :: l))) = Some (y, z) -> left_normal (pos a) (pos b) n -> left_normal (pos y) (pos z) m ->
  pbulge v = 0 -> pos v = line_pt (moved (pos a) n d) (moved (pos b) n d) t0 -> 0 <= t0 <= 1 ->
  In (v1, v2) (combine (v :: concat vss ++ [vertex_at (moved (pos z) m d) 0]) (concat vss ++ [vertex_at (moved (pos z) m d) 0])) -> on_seg v1 v2 q ->
  exists c e s, In (c, e) (combine (a :: b :: l) (b :: l)) /\ 0 <= s <= 1 /\ dist q (line_pt (pos c) (pos e) s) = Rabs d.
Proof.
  induction l as [|c l IH]; intros a b vss y z n m v t0 v1 v2 q F HL Na Nm Zv Pv Ht I O.
  - cbn in F. inversion F. subst. cbn in HL. injection HL as <- <-. cbn in I. destruct I as [I|[]]. injection I as <- <-. rewrite (ProofConvexOff.normal_unique _ _ m n Nm Na) in O.
    destruct (part_of_moved (pos a) (pos b) n d v (vertex_at (moved (pos b) n d) 0) t0 1 q Na Zv Pv) as (s & Hs & D); auto; [|lra|].
    + unfold vertex_at, pos, line_pt, moved. apply vec2_eq; cbn [vx vy px py]; ring.
    + exists a, b, s. split; [now left|auto].
  - cbn [combine] in F. inversion F as [|? vs ? vss' C F']. subst. cbn [fst snd] in C.
    assert (HL' : hd_error (rev (combine (b :: c :: l) (c :: l))) = Some (y, z)).
    { change (combine (a :: b :: c :: l) (b :: c :: l)) with ((a, b) :: combine (b :: c :: l) (c :: l)) in HL. cbn [rev] in HL. destruct (rev (combine (b :: c :: l) (c :: l))) as [|x r] eqn:ER; [|exact HL].
      exfalso. apply (f_equal (@rev _)) in ER. rewrite rev_involutive in ER. discriminate. }
    assert (STEP : forall w u, pbulge w = 0 -> (exists n', left_normal (pos b) (pos c) n' /\ pos w = line_pt (moved (pos b) n' d) (moved (pos c) n' d) u) -> 0 <= u <= 1 ->
      In (v1, v2) (combine (w :: concat vss' ++ [vertex_at (moved (pos z) m d) 0]) (concat vss' ++ [vertex_at (moved (pos z) m d) 0])) ->
      exists c0 e s, In (c0, e) (combine (a :: b :: c :: l) (b :: c :: l)) /\ 0 <= s <= 1 /\ dist q (line_pt (pos c0) (pos e) s) = Rabs d).
    { intros w u Zw (n' & Nb & Pw) Hu J. destruct (IH b c vss' y z n' m w u v1 v2 q F' HL' Nb Nm Zw Pw Hu J O) as (c0 & e & s & K & D). exists c0, e, s. split; [now right|exact D]. }
    destruct C as [(q0 & (n1 & n2 & t & u & N1 & N2 & T & U & Q1 & Q2 & _) & ->)|(v' & w' & CR & ->)].
    + cbn [concat app combine] in I. destruct I as [I|I].
      * injection I as <- <-. rewrite (ProofConvexOff.normal_unique _ _ n1 n N1 Na) in Q1. destruct (part_of_moved (pos a) (pos b) n d v (vertex_at q0 0) t0 t q Na Zv Pv) as (s & Hs & D); auto; [destruct q0; exact Q1|]. exists a, b, s. split; [now left|auto].
      * apply (STEP (vertex_at q0 0) u); auto. exists n2. split; [exact N2|]. destruct q0; exact Q2.
    + pose proof CR as (n1 & n2 & al & N1 & N2 & _ & _ & _ & PV & EW & _). cbn [concat app combine] in I. destruct I as [I|[I|I]].
      * injection I as <- <-. rewrite (ProofConvexOff.normal_unique _ _ n1 n N1 Na) in PV. destruct (part_of_moved (pos a) (pos b) n d v v' t0 1 q Na Zv Pv) as (s & Hs & D); auto; [rewrite PV; unfold line_pt; apply vec2_eq; cbn [vx vy]; ring|lra|]. exists a, b, s. split; [now left|auto].
      * injection I as <- <-. exists a, b, 1. split; [now left|]. split; [lra|]. rewrite <- (round_dist d eps _ _ _ _ _ q CR O). f_equal. unfold line_pt. apply vec2_eq; cbn [vx vy]; ring.
      * apply (STEP w' 0); auto; [now rewrite EW| |lra]. exists n2. split; [exact N2|]. rewrite EW. unfold vertex_at, pos, line_pt, moved. apply vec2_eq; cbn [vx vy px py]; ring.
Qed.

Theorem open_near p d eps raw q : open_lines p -> path_beside p d eps raw -> on_path raw q -> exists y, on_path p y /\ dist q y = Rabs d.
Proof.
  intros (PC & PL) (RC & _ & vss & a & b & y & z & n & m & C & H0 & H1 & Nn & Nm & EV) (v1 & v2 & I & O). rewrite RC, open_segs, EV in I. cbn [tl] in I.
  assert (W : forall c e s, In (c, e) (spec_segs (vtx p) false) -> 0 <= s <= 1 -> on_path p (line_pt (pos c) (pos e) s)).
  { intros c e s J Hs. exists c, e. rewrite PC. split; [exact J|]. exists s. split; [exact Hs|]. apply seg_at_line; [|reflexivity]. apply PL. apply ProofPolyOff.spec_segs_In_both in J. apply J. }
  rewrite open_segs in *. destruct (vtx p) as [|a' [|b' l]]; [discriminate|discriminate|]. cbn in H0. injection H0 as -> ->. cbn [tl] in *.
  change (combine (a :: b :: l) (b :: l)) with ((a, b) :: combine (b :: l) l) in C at 2. cbn [tl] in C.
  destruct (beside_near d eps l a b vss y z n m (vertex_at (moved (pos a) n d) 0) 0 v1 v2 q C H1 Nn Nm) as (c & e & s & J & Hs & D); auto.
  - unfold vertex_at, pos, line_pt, moved. apply vec2_eq; cbn [vx vy px py]; ring.
  - lra.
  - exists (line_pt (pos c) (pos e) s). split; [|exact D]. now apply W.
Qed.

Lemma open_raw p d eps raw : 0 < eps -> open_lines p -> path_beside p d eps raw ->
  create_raw_offset_polyline p d eps = Ret raw /\ forall q, on_path raw q -> exists y, on_path p y /\ dist q y = Rabs d.
Proof. intros He OL PB. split; [now apply open_made|]. intros q O. exact (open_near p d eps raw q OL PB O). Qed.

Lemma open_whole mk p idx d o raw dual : makes_index mk -> pline_index p idx ->
  0 < oo_pos_equal_eps o -> 0 < oo_offset_dist_eps o < 2 * Rabs d -> open_lines p -> (3 <= length (vtx p))%nat ->
  path_beside p d (oo_pos_equal_eps o) raw -> path_beside p (- d) (oo_pos_equal_eps o) dual ->
  lone_open (oo_pos_equal_eps o) raw -> clear_pline (oo_pos_equal_eps o) dual ->
  clearly_miss (oo_pos_equal_eps o) raw dual -> clearly_miss (oo_pos_equal_eps o) raw p ->
  (forall q y, on_path raw q -> on_path p y -> Rabs d <= dist q y) -> off_ends (oo_pos_equal_eps o) d p raw ->
  parallel_offset mk p idx d o = Ret [raw]
  /\ forall q, on_path raw q -> (forall y, on_path p y -> Rabs d <= dist q y) /\ exists y, on_path p y /\ dist q y = Rabs d.
Proof.
  intros MK IX He Ht OL N3 PB PD LO CD CM CP K OE. split; [exact (open_offset mk p d o raw dual He OL N3 PB PD LO CD CM CP K OE idx MK IX Ht)|].
  intros q O. split; [intros y Oy; now apply K|]. exact (open_near p d _ raw q OL PB O).
Qed.
