(** The slices kept by a boolean operation and the winding numbers of the loops made of them (C51). *)
From Coq Require Import Reals ZArith Bool List Arith Lra Lia Psatz Permutation Sorted.
From Verif Require Import Num RNum Res ModelMath ModelSeg ModelPline ModelView ModelIntersects ModelBoolean.
From Verif Require Import Spec SpecPline SpecGeom SpecBox SpecWinding SpecView SpecPruneR SpecStitch SpecPrune SpecRegion SpecJordan.
From Verif Require Import ProofR ProofBase ProofIter ProofView ProofArc ProofIntr ProofSlice ProofPruneR ProofWinding6 ProofWinding7 ProofRegion ProofRegion2 ProofRegion3 ProofRegion4 ProofRegion5 ProofHalf ProofRegion6 ProofRegion7 ProofRegion8 ProofRegion9 ProofCurve.
Import ListNotations.
Local Open Scope R_scope.

(** What is known of the slices of one loop. *)
Record cut_up (p1 p2 : pline R) (second : bool) (eps : R) (bs : list (basic_intr R)) (cs : list (boolean_slice R * vec2 R)) : Prop := CutUp {
  cu_seg : forall c w q, In c cs -> In w (vsegs (if second then p2 else p1) (bs_view (fst c))) ->
    okseg w /\ close_by eps (fst w) (snd w) = false /\ (on w q -> on_path (if second then p2 else p1) q);
  cu_side : forall c w q, In c cs -> In w (vsegs (if second then p2 else p1) (bs_view (fst c))) -> on w q -> q <> pos (fst w) -> q <> pos (snd w) ->
    ~ on_path (if second then p1 else p2) q /\ wn (if second then p1 else p2) q = wn (if second then p1 else p2) (snd c);
  cu_sum : forall x, ~ on_path (if second then p2 else p1) x ->
    zsum (map (nw x) (flat_map (fun c => vsegs (if second then p2 else p1) (bs_view (fst c))) cs)) = wn (if second then p2 else p1) x;
  cu_once : forall (g : seg -> Z) q, let p := if second then p2 else p1 in let all := flat_map (fun c => vsegs p (bs_view (fst c))) cs in passes_once p ->
    (forall w, In w all \/ In w (spec_segs (vtx p) (is_closed p)) -> q <> pos (fst w) /\ q <> pos (snd w) /\ (on w q -> g w = 1%Z) /\ (~ on w q -> g w = 0%Z)) ->
    (zsum (map g all) <= 1)%Z;
  cu_half : forall (g : seg -> Z) q (first : bool), let p := if second then p2 else p1 in let all := flat_map (fun c => vsegs p (bs_view (fst c))) cs in passes_once p ->
    (forall w, In w all \/ In w (spec_segs (vtx p) (is_closed p)) -> (half first w q -> g w = 1%Z) /\ (~ half first w q -> g w = 0%Z)) ->
    (zsum (map g all) <= 1)%Z;
  cu_cover : forall q, on_path (if second then p2 else p1) q -> exists c w, In c cs /\ In w (vsegs (if second then p2 else p1) (bs_view (fst c))) /\ on w q;
  cu_ends : forall f : vec2 R -> Z, zsum (map (fun w : seg => (f (pos (snd w)) - f (pos (fst w)))%Z)
    (flat_map (fun c => vsegs (if second then p2 else p1) (bs_view (fst c))) cs)) = 0%Z;
  cu_view : forall c, In c cs -> let d := bs_view (fst c) in
    bs_source_is_pline1 (fst c) = negb second
    /\ (vd_start_index d < vertex_count (if second then p2 else p1))%nat /\ (vd_end_index_offset d <= vertex_count (if second then p2 else p1))%nat
    /\ vd_inverted d = false /\ (vd_end_index_offset d = 0%nat -> vd_updated_end_bulge d = pbulge (vd_updated_start d));
  cu_points : forall c, In c cs -> exists b b', In b bs /\ In b' bs
    /\ pos (vd_updated_start (bs_view (fst c))) = bi_point b /\ vd_end_point (bs_view (fst c)) = bi_point b';
  cu_tele : forall c (f : vec2 R -> Z), In c cs -> let d := bs_view (fst c) in
    zsum (map (fun w : seg => (f (pos (snd w)) - f (pos (fst w)))%Z) (vsegs (if second then p2 else p1) d)) = (f (vd_end_point d) - f (pos (vd_updated_start d)))%Z
}.

Lemma pairs_telescope (f : vec2 R -> Z) (m : list (vertex R)) a z :
  zsum (map (fun w : seg => (f (pos (snd w)) - f (pos (fst w)))%Z) (pairs (a :: m ++ [z]))) = (f (pos z) - f (pos a))%Z.
Proof.
  revert a. induction m as [|v m IH]; intros a; [cbn; lia|]. change ((v :: m) ++ [z]) with (v :: m ++ [z]). rewrite pairs_cons. cbn [map zsum fold_right fst snd].
  change (fold_right Z.add 0%Z) with zsum. rewrite IH. lia.
Qed.

Lemma cut_up_ok (p1 p2 : pline R) (second : bool) eps bs o1 o2 : let p := if second then p2 else p1 in
  0 < eps -> (2 <= vertex_count p)%nat -> is_closed p = true -> clear_pline eps p -> pline_ok (if second then p1 else p2) ->
  (forall b, In b bs -> ((if second then bi_index2 b else bi_index1 b) < vertex_count p)%nat) ->
  clear_cuts eps p (cut_points p eps second bs []) -> heads_ok p (cut_points p eps second bs []) ->
  all_found p (if second then p1 else p2) (map (fun b => (if second then bi_index2 b else bi_index1 b, bi_point b)) bs) -> bs <> [] ->
  exists cs, cut_up p1 p2 second eps bs cs /\ Forall (candidate p1 p2 second) cs
  /\ (forall pred g, (forall x, pred x = Ret (g x)) ->
       slice_at_intersects p (BInfo [] bs o1 o2) second pred eps = Ret (map fst (filter (fun c => g (snd c)) cs))).
Proof.
  intros p epos vc cl clear ok' range cuts heads found ne.
  destruct (one_side_ok p1 p2 second eps bs o1 o2 epos vc cl clear range cuts heads found ne) as (order & cs & NE & PL & SS & PA & F2 & CM & CA & SL & FN & BI).
  fold p in PL, PA, F2, CM, SL, FN.
  pose proof (okp p1 p2 second eps epos clear) as OK. fold p in OK.
  assert (VW : forall c, In c cs -> let d := bs_view (fst c) in
    bs_source_is_pline1 (fst c) = negb second /\ (vd_start_index d < vertex_count p)%nat /\ (vd_end_index_offset d <= vertex_count p)%nat
    /\ vd_inverted d = false /\ (vd_end_index_offset d = 0%nat -> vd_updated_end_bulge d = pbulge (vd_updated_start d))).
  { intros c Ic d. rewrite Forall_forall in CA. destruct (CA c Ic) as (_ & CS & _).
    destruct (gap_slice p order cs F2 c Ic) as (i & t & x & j & u & y & IG & B). destruct B as (V & _). destruct V as (V1 & V2' & V3 & V4 & _).
    split; [exact CS|]. split; [exact V1|]. split; [exact V2'|]. split; [exact V3|exact V4]. }
  exists cs. split; [|split; [exact CA|exact SL]]. constructor.
  - intros c w q Ic Iw. destruct (slices_on p vc cl OK order PL PA cs F2 c w q Ic Iw) as (K1 & K2). split; [exact K1|]. split; [exact (FN c w Ic Iw)|exact K2].
  - intros c w q. apply (slice_side p (if second then p1 else p2) vc cl OK ok' order PL SS PA cs F2 CM).
  - intros x. apply (slices_winding p vc cl OK order NE PL SS PA cs F2).
  - intros g q p0 all PO. apply (slices_once p vc cl OK order NE PL SS PA cs F2 g q PO).
  - intros g q first p0 all PO. apply (slices_half p vc cl OK order NE PL SS PA cs F2 g q first PO).
  - intros q. apply (slices_cover p vc cl OK order NE PL SS PA cs F2).
  - intros f. apply (slices_ends p vc cl OK order NE PL SS PA cs F2).
  - exact VW.
  - exact BI.
  - intros c f Ic d. destruct (VW c Ic) as (_ & H1 & H2 & H3 & _). fold d in H1, H2, H3.
    destruct (view_forward_spec d p H1 H2 H3) as (_ & EV & _). unfold vsegs. fold p. rewrite EV, spec_segs_pairs. unfold fwd_list, spec_view.
    rewrite pairs_telescope. destruct (vd_end_point d). reflexivity.
Qed.

Definition mark (p p' : pline R) (want : bool) (cs : list (boolean_slice R * vec2 R)) : list marked :=
  flat_map (fun c => map (fun s : seg => (s, Bool.eqb (inside p' (snd c)) want)) (vsegs p (bs_view (fst c)))) cs.

Lemma mark_In p p' want cs e : In e (mark p p' want cs) <-> exists c, In c cs /\ In (fst e) (vsegs p (bs_view (fst c))) /\ snd e = Bool.eqb (inside p' (snd c)) want.
Proof.
  unfold mark. rewrite in_flat_map. split.
  - intros (c & Ic & I). apply in_map_iff in I as (w & <- & I). exists c. auto.
  - intros (c & Ic & I & E). exists c. split; [exact Ic|]. apply in_map_iff. exists (fst e). split; [|exact I]. destruct e. cbn in *. congruence.
Qed.

Lemma mark_all (g : seg -> Z) p p' want cs :
  zsum (map (fun e : marked => g (fst e)) (mark p p' want cs)) = zsum (map g (flat_map (fun c => vsegs p (bs_view (fst c))) cs)).
Proof.
  unfold mark. rewrite !zsum_flat. f_equal. apply map_ext. intros c. now rewrite map_map.
Qed.

Lemma mark_kept (g : seg -> Z) p p' want cs :
  zsum (map (fun e : marked => if snd e then g (fst e) else 0%Z) (mark p p' want cs))
  = zsum (map (fun c => zsum (map g (vsegs p (bs_view (fst c))))) (filter (fun c => Bool.eqb (inside p' (snd c)) want) cs)).
Proof.
  unfold mark. rewrite zsum_flat. induction cs as [|c cs IH]; [reflexivity|]. cbn [map filter]. rewrite map_map. cbn [fst snd].
  destruct (Bool.eqb (inside p' (snd c)) want).
  - cbn [map zsum fold_right]. change (fold_right Z.add 0%Z) with zsum. rewrite IH. reflexivity.
  - rewrite <- IH. cbn [zsum fold_right]. change (fold_right Z.add 0%Z) with zsum. rewrite zsum_zero by reflexivity. reflexivity.
Qed.

Lemma inside_wn p q : inside p q = negb (Z.eqb (wn p q) 0).
Proof. unfold inside. now rewrite winding_wn. Qed.

Lemma orientation_closed (p : pline R) o : is_closed p = true -> orientation p = Ret o -> o <> Open.
Proof. unfold orientation. intros ->. cbn. destruct (area p); cbn; [|discriminate]. match goal with |- context [if ?c then _ else _] => destruct c end; intros [= <-]; discriminate. Qed.

Lemma turned_false {T} (s : boolean_slice T) : turned false s = s.
Proof. destruct s as [[] ? ?]. reflexivity. Qed.

Definition straight (d : view_data R) : view_data R :=
  VD (vd_start_index d) (vd_end_index_offset d) (vd_updated_start d) (vd_updated_end_bulge d) (vd_end_point d) false.

Lemma straight_turned b s : vd_inverted (bs_view s) = false -> straight (bs_view (turned b s)) = bs_view s.
Proof. destruct s as [[] ? ?]. cbn. intros ->. reflexivity. Qed.

Lemma zsum_scale {X} (k : Z) (f : X -> Z) l : zsum (map (fun c => (k * f c)%Z) l) = (k * zsum (map f l))%Z.
Proof. induction l as [|c l IH]; cbn [map zsum fold_right]; [lia|]. change (fold_right Z.add 0%Z) with zsum. rewrite IH. lia. Qed.

Lemma path_right p : pline_ok p -> exists M, forall q, on_path p q -> vx q < M.
Proof.
  unfold pline_ok, on_path. induction (spec_segs (vtx p) (is_closed p)) as [|[a b] l IH]; intros H.
  - exists 0. intros q (v1 & v2 & [] & _).
  - destruct IH as (M & HM); [intros; apply H; now right|]. destruct (seg_right (a, b)) as (M' & HM'); [apply H; now left|].
    exists (Rmax M M'). intros q (v1 & v2 & [[= <- <-]|I] & On).
    + specialize (HM' q On). pose proof (Rmax_r M M'). lra.
    + specialize (HM q ltac:(eauto)). pose proof (Rmax_l M M'). lra.
Qed.

Lemma far_off p1 p2 : pline_ok p1 -> pline_ok p2 -> exists x, ~ on_path p1 x /\ ~ on_path p2 x.
Proof.
  intros ok1 ok2. destruct (path_right p1 ok1) as (M1 & B1). destruct (path_right p2 ok2) as (M2 & B2).
  exists (V2 (Rmax M1 M2) 0). split; intros On; [specialize (B1 _ On)|specialize (B2 _ On)]; cbn [vx] in *; pose proof (Rmax_l M1 M2); pose proof (Rmax_r M1 M2); lra.
Qed.

(** ** Counting the segments through a point *)
Lemma same_on s w q : same_way s w -> (on s q <-> on w q).
Proof.
  assert (G : forall s w, SpecPline.seg_data s = SpecPline.seg_data w -> on s q -> on w q).
  { intros [a b] [c d] E (t & Ht & At). unfold SpecPline.seg_data in E. cbn in E. injection E as E1 E2 E3 E4 E5. exists t. split; [exact Ht|]. cbn [fst snd] in *.
    eapply seg_at_ext; [| | |exact At]; unfold pos; congruence. }
  intros [E|E]; (split; [|]).
  - now apply G.
  - apply G. congruence.
  - now apply (reverse_on w s).
  - apply (reverse_on s w). rewrite E. destruct (SpecPline.seg_data w) as [[a b] c]. unfold SpecPline.seg_reverse. f_equal. cbn. ring.
Qed.

Lemma data_dec (x y : (R * R) * (R * R) * R) : {x = y} + {x <> y}.
Proof. repeat decide equality; apply Req_EM_T. Defined.

Lemma filter_classic {X} (P : X -> Prop) (l : list X) : exists l', forall x, In x l' <-> In x l /\ P x.
Proof.
  induction l as [|a l (l' & IH)]; [exists []; intros x; split; [intros []|intros ([] & _)]|].
  destruct (Classical_Prop.classic (P a)) as [H|H].
  - exists (a :: l'). intros x. cbn. rewrite IH. split; [intros [<-|(I & Q)]; auto|intros ([<-|I] & Q); auto].
  - exists l'. intros x. rewrite IH. cbn. split; [intros (I & Q); auto|intros ([<-|I] & Q); [contradiction|auto]].
Qed.

Lemma counter (l0 : list seg) q : exists g : seg -> Z, (forall s, (0 <= g s)%Z) /\ (forall s s', SpecPline.seg_data s = SpecPline.seg_data s' -> g s = g s')
  /\ forall s w, In w l0 -> same_way s w -> (on s q -> g s = 1%Z) /\ (~ on s q -> g s = 0%Z).
Proof.
  destruct (filter_classic (fun w => on w q) l0) as (D & HD).
  set (f := fun s w : seg => if data_dec (SpecPline.seg_data s) (SpecPline.seg_data w) then true else if data_dec (SpecPline.seg_data s) (SpecPline.seg_reverse (SpecPline.seg_data w)) then true else false).
  assert (Hf : forall s w, f s w = true <-> same_way s w).
  { intros s w. unfold f, same_way. destruct (data_dec _ _); [tauto|]. destruct (data_dec _ _); [tauto|]. split; [discriminate|tauto]. }
  exists (fun s => if existsb (f s) D then 1%Z else 0%Z). split; [|split].
  - intros s. destruct (existsb _ _); lia.
  - intros s s' E. unfold f. now rewrite E.
  - intros s w Iw SW. split; intros H; destruct (existsb (f s) D) eqn:EX; try reflexivity; exfalso.
    + assert (existsb (f s) D = true); [|congruence]. apply existsb_exists. exists w. split; [|now apply Hf]. apply HD. split; [exact Iw|]. now apply (same_on s w).
    + apply existsb_exists in EX as (w' & I' & F'). apply Hf in F'. apply H. apply (same_on s w'); [exact F'|]. now apply HD.
Qed.

Lemma zsum_le {X} (f : X -> Z) (k : X -> bool) l : (forall x, (0 <= f x)%Z) -> (zsum (map f (filter k l)) <= zsum (map f l))%Z.
Proof.
  intros H. induction l as [|a l IH]; unfold zsum in *; cbn [map filter fold_right]; [lia|]. specialize (H a). destruct (k a); cbn [map fold_right]; lia.
Qed.

Lemma zsum_nonneg {X} (f : X -> Z) l : (forall x, In x l -> (0 <= f x)%Z) -> (0 <= zsum (map f l))%Z.
Proof.
  induction l as [|a l IH]; intros H; unfold zsum in *; cbn [map fold_right]; [lia|]. specialize (IH ltac:(intros; apply H; now right)). specialize (H a (or_introl eq_refl)). lia.
Qed.

Lemma zsum_In {X} (f : X -> Z) l x : (forall x, In x l -> (0 <= f x)%Z) -> In x l -> (f x <= zsum (map f l))%Z.
Proof.
  induction l as [|a l IH]; intros H; [intros []|]. pose proof (zsum_nonneg f l ltac:(intros; apply H; now right)) as N.
  unfold zsum in *; cbn [map fold_right]. intros [<-|I]; [lia|]. specialize (IH ltac:(intros; apply H; now right) I). specialize (H a (or_introl eq_refl)). lia.
Qed.

Section Crossing.
Variables (p1 p2 : pline R) (eps : R) (bs : list (basic_intr R)) (op : boolean_op) (o1 o2 : orientation_t).
Variables (cs1 cs2 : list (boolean_slice R * vec2 R)) (w : bool * bool) (loops : list (boolean_result_pline R)).
Hypothesis epos : 0 < eps.
Hypothesis C1 : cut_up p1 p2 false eps bs cs1.
Hypothesis C2 : cut_up p1 p2 true eps bs cs2.
Hypothesis ok1 : pline_ok p1.
Hypothesis ok2 : pline_ok p2.
Hypothesis cl1 : is_closed p1 = true.
Hypothesis cl2 : is_closed p2 = true.
Hypothesis simple1 : simple_loop p1 o1.
Hypothesis simple2 : simple_loop p2 o2.
Hypothesis apart : spread eps bs.
Hypothesis wants : In w (wanted op).
Hypothesis trace : traced p1 p2 op o1 o2 eps cs1 cs2 [] w loops.

Let back := backward op o1 o2.
Let sg : Z := if back then (-1)%Z else 1%Z.
Let A := mark p1 p2 (fst w) cs1.
Let B := mark p2 p1 (snd w) cs2.
Let F1 := filter (fun c => Bool.eqb (inside p2 (snd c)) (fst w)) cs1.
Let F2 := filter (fun c => Bool.eqb (inside p1 (snd c)) (snd w)) cs2.
Let k1 (z : Z) := Bool.eqb (negb (Z.eqb z 0)) (fst w).
Let k2 (z : Z) := Bool.eqb (negb (Z.eqb z 0)) (snd w).
Let e1 := once o1.
Let e2 := once o2.

(** The sum of the winding numbers, from those of the two loops. *)
Definition expected (a b : Z) : Z :=
  match op, fst w with
  | BOr, _ => if Z.eqb a 0 && Z.eqb b 0 then 0 else e2
  | BAnd, _ => if Z.eqb a 0 || Z.eqb b 0 then 0 else e2
  | _, false => if negb (Z.eqb a 0) && Z.eqb b 0 then - e2 else 0
  | _, true => if negb (Z.eqb b 0) && Z.eqb a 0 then e2 else 0
  end%Z.

Lemma off1 x : off A x <-> ~ on_path p1 x.
Proof.
  split.
  - intros H N. destruct (cu_cover _ _ _ _ _ _ C1 x N) as (c & s & Ic & Is & On). apply (H (s, Bool.eqb (inside p2 (snd c)) (fst w))); [|exact On].
    apply mark_In. exists c. auto.
  - intros N e I On. apply mark_In in I as (c & Ic & I & _). apply N. now apply (cu_seg _ _ _ _ _ _ C1 c (fst e) x Ic I).
Qed.

Lemma off2 x : off B x <-> ~ on_path p2 x.
Proof.
  split.
  - intros H N. destruct (cu_cover _ _ _ _ _ _ C2 x N) as (c & s & Ic & Is & On). apply (H (s, Bool.eqb (inside p1 (snd c)) (snd w))); [|exact On].
    apply mark_In. exists c. auto.
  - intros N e I On. apply mark_In in I as (c & Ic & I & _). apply N. now apply (cu_seg _ _ _ _ _ _ C2 c (fst e) x Ic I).
Qed.

Lemma total1 x : off A x -> total A x = wn p1 x.
Proof. intros H. apply off1 in H. unfold total, A. rewrite (mark_all (nw x)). now apply (cu_sum _ _ _ _ _ _ C1). Qed.
Lemma total2 x : off B x -> total B x = wn p2 x.
Proof. intros H. apply off2 in H. unfold total, B. rewrite (mark_all (nw x)). now apply (cu_sum _ _ _ _ _ _ C2). Qed.

Lemma ok_A : ok_all A.
Proof. intros e I. apply mark_In in I as (c & Ic & I & _). apply (cu_seg _ _ _ _ _ _ C1 c (fst e) (pos (fst (fst e))) Ic I). Qed.
Lemma ok_B : ok_all B.
Proof. intros e I. apply mark_In in I as (c & Ic & I & _). apply (cu_seg _ _ _ _ _ _ C2 c (fst e) (pos (fst (fst e))) Ic I). Qed.

Lemma keep_A e q : In e A -> on (fst e) q -> q <> pos (fst (fst e)) -> q <> pos (snd (fst e)) -> off B q /\ snd e = k1 (total B q).
Proof.
  intros I On N1 N2. apply mark_In in I as (c & Ic & I & E). destruct (cu_side _ _ _ _ _ _ C1 c (fst e) q Ic I On N1 N2) as (O & W). cbv iota in O, W.
  assert (O' : off B q) by now apply off2. split; [exact O'|]. rewrite total2 by exact O'. rewrite W, E, inside_wn. reflexivity.
Qed.
Lemma keep_B e q : In e B -> on (fst e) q -> q <> pos (fst (fst e)) -> q <> pos (snd (fst e)) -> off A q /\ snd e = k2 (total A q).
Proof.
  intros I On N1 N2. apply mark_In in I as (c & Ic & I & E). destruct (cu_side _ _ _ _ _ _ C2 c (fst e) q Ic I On N1 N2) as (O & W). cbv iota in O, W.
  assert (O' : off A q) by now apply off1. split; [exact O'|]. rewrite total1 by exact O'. rewrite W, E, inside_wn. reflexivity.
Qed.

Lemma vals_A x : off A x -> total A x = 0%Z \/ total A x = e1.
Proof. intros H. rewrite total1 by exact H. apply (proj2 simple1 x); [now apply off1|apply winding_wn]. Qed.
Lemma vals_B x : off B x -> total B x = 0%Z \/ total B x = e2.
Proof. intros H. rewrite total2 by exact H. apply (proj2 simple2 x); [now apply off2|apply winding_wn]. Qed.

Lemma local_A x x' : (forall t, 0 <= t <= 1 -> off A (line_pt x x' t)) -> total A x = total A x'.
Proof.
  intros H. destruct (line_pt_ends x x') as (L0 & L1).
  assert (H0 : off A x) by (rewrite <- L0; apply H; lra). assert (H1 : off A x') by (rewrite <- L1; apply H; lra).
  rewrite !total1 by assumption. unfold wn. rewrite (winding_straight p1 x x' ok1); [reflexivity|]. intros t Ht. apply off1, H, Ht.
Qed.
Lemma local_B x x' : (forall t, 0 <= t <= 1 -> off B (line_pt x x' t)) -> total B x = total B x'.
Proof.
  intros H. destruct (line_pt_ends x x') as (L0 & L1).
  assert (H0 : off B x) by (rewrite <- L0; apply H; lra). assert (H1 : off B x') by (rewrite <- L1; apply H; lra).
  rewrite !total2 by assumption. unfold wn. rewrite (winding_straight p2 x x' ok2); [reflexivity|]. intros t Ht. apply off2, H, Ht.
Qed.

Lemma closed_A f : all_ends f A = 0%Z.
Proof. unfold all_ends, A. rewrite (mark_all (fun s => (f (pos (snd s)) - f (pos (fst s)))%Z)). apply (cu_ends _ _ _ _ _ _ C1). Qed.
Lemma closed_B f : all_ends f B = 0%Z.
Proof. unfold all_ends, B. rewrite (mark_all (fun s => (f (pos (snd s)) - f (pos (fst s)))%Z)). apply (cu_ends _ _ _ _ _ _ C2). Qed.

Lemma exp_0 : expected 0 0 = 0%Z.
Proof. unfold expected. destruct op, (fst w); reflexivity. Qed.
Lemma exp_1 a a' b : (a = 0 \/ a = e1)%Z -> (a' = 0 \/ a' = e1)%Z -> (b = 0 \/ b = e2)%Z ->
  (expected a' b - expected a b = sg * (if k1 b then a' - a else 0))%Z.
Proof.
  unfold expected, sg, k1, back, e1, e2. pose proof (orientation_closed _ _ cl1 (proj1 simple1)) as N1. pose proof (orientation_closed _ _ cl2 (proj1 simple2)) as N2.
  intros H1 H2 H3. destruct op; cbn in wants; [| | |destruct wants as [<-|wants']]; try destruct wants as [<-|[]]; try destruct wants' as [<-|[]];
  destruct o1; try contradiction; destruct o2; try contradiction; destruct H1 as [-> | ->], H2 as [-> | ->], H3 as [-> | ->]; reflexivity.
Qed.
Lemma exp_2 a b b' : (a = 0 \/ a = e1)%Z -> (b = 0 \/ b = e2)%Z -> (b' = 0 \/ b' = e2)%Z ->
  (expected a b' - expected a b = if k2 a then b' - b else 0)%Z.
Proof.
  unfold expected, sg, k2, back, e1, e2. pose proof (orientation_closed _ _ cl1 (proj1 simple1)) as N1. pose proof (orientation_closed _ _ cl2 (proj1 simple2)) as N2.
  intros H1 H2 H3. destruct op; cbn in wants; [| | |destruct wants as [<-|wants']]; try destruct wants as [<-|[]]; try destruct wants' as [<-|[]];
  destruct o1; try contradiction; destruct o2; try contradiction; destruct H1 as [-> | ->], H2 as [-> | ->], H3 as [-> | ->]; reflexivity.
Qed.

Let slices := ps_slices (boundary back (map fst F1) (map fst F2) []).

Lemma slices_eq : slices = map (turned back) (map fst F1) ++ map fst F2.
Proof. unfold slices, boundary. cbn [ps_slices map]. now rewrite !app_nil_r. Qed.

Lemma slices_In s : In s slices -> exists (second : bool) c, In c (if second then cs2 else cs1) /\ s = turned (if second then false else back) (fst c)
  /\ inside (if second then p1 else p2) (snd c) = (if second then snd w else fst w).
Proof.
  rewrite slices_eq. intros I. apply in_app_or in I as [I|I].
  - apply in_map_iff in I as (s0 & <- & I). apply in_map_iff in I as (c & <- & I). apply filter_In in I as (I & E). apply eqb_prop in E. exists false, c. auto.
  - apply in_map_iff in I as (c & <- & I). apply filter_In in I as (I & E). apply eqb_prop in E. exists true, c. split; [exact I|]. split; [now rewrite turned_false|exact E].
Qed.

Lemma slices_add (h : boolean_slice R -> Z) : zsum (map h slices) = (zsum (map (fun c => h (turned back (fst c))) F1) + zsum (map (fun c => h (fst c)) F2))%Z.
Proof. rewrite slices_eq, map_app, zsum_app, !map_map. reflexivity. Qed.

Definition gain (x : vec2 R) (s : boolean_slice R) : Z :=
  ((if vd_inverted (bs_view s) then -1 else 1) * zsum (map (nw x) (vsegs (slice_source p1 p2 s) (straight (bs_view s)))))%Z.

Lemma slice_view (second : bool) c : In c (if second then cs2 else cs1) -> let d := bs_view (fst c) in let p := if second then p2 else p1 in
  slice_source p1 p2 (fst c) = p
  /\ (vd_start_index d < vertex_count p)%nat /\ (vd_end_index_offset d <= vertex_count p)%nat
  /\ vd_inverted d = false /\ (vd_end_index_offset d = 0%nat -> vd_updated_end_bulge d = pbulge (vd_updated_start d)).
Proof.
  intros I d p. destruct second.
  - destruct (cu_view _ _ _ _ _ _ C2 c I) as (E & R). split; [|exact R]. unfold slice_source. now rewrite E.
  - destruct (cu_view _ _ _ _ _ _ C1 c I) as (E & R). split; [|exact R]. unfold slice_source. now rewrite E.
Qed.

Lemma gain_turned (second : bool) b c x : In c (if second then cs2 else cs1) ->
  gain x (turned b (fst c)) = ((if b then -1 else 1) * zsum (map (nw x) (vsegs (if second then p2 else p1) (bs_view (fst c)))))%Z.
Proof.
  intros I. destruct (slice_view second c I) as (E & _ & _ & H & _). unfold gain. rewrite straight_turned by exact H.
  replace (slice_source p1 p2 (turned b (fst c))) with (slice_source p1 p2 (fst c)) by reflexivity. rewrite E.
  unfold turned. cbn [bs_view vd_inverted]. rewrite H, orb_false_r. reflexivity.
Qed.

Lemma gain_sum x : zsum (map (gain x) slices) = (sg * kept A x + kept B x)%Z.
Proof.
  rewrite slices_add. unfold kept, A, B. rewrite !(mark_kept (nw x)). fold F1 F2. rewrite <- zsum_scale. f_equal; f_equal.
  - apply map_ext_in. intros c I. apply filter_In in I as (I & _). apply (gain_turned false back c x I).
  - apply map_ext_in. intros c I. apply filter_In in I as (I & _). rewrite <- (turned_false (fst c)) at 1. rewrite (gain_turned true false c x I). lia.
Qed.

Lemma bal_turned (second : bool) b c q : In c (if second then cs2 else cs1) -> let d := bs_view (fst c) in
  bal q (turned b (fst c)) = ((if b then -1 else 1) * (here q (vd_end_point d) - here q (pos (vd_updated_start d))))%Z.
Proof.
  intros I d. destruct (slice_view second c I) as (_ & _ & _ & H & _). unfold bal, slice_begin, slice_end, turned. cbn [bs_view vd_inverted vd_end_point vd_updated_start].
  fold d. fold d in H. rewrite H, orb_false_r. destruct b; lia.
Qed.

Lemma slices_balanced q : zsum (map (bal q) slices) = 0%Z.
Proof.
  rewrite slices_add. rewrite <- (point_balance A B k1 k2 expected sg e1 e2 ok_A ok_B keep_A keep_B vals_A vals_B local_A local_B closed_A closed_B exp_0 exp_1 exp_2 q).
  unfold kept_ends, A, B. rewrite !(mark_kept (fun s => (here q (pos (snd s)) - here q (pos (fst s)))%Z)). fold F1 F2. rewrite <- zsum_scale. f_equal; f_equal.
  - apply map_ext_in. intros c I. apply filter_In in I as (I & _). rewrite (bal_turned false back c q I). f_equal. symmetry. apply (cu_tele _ _ _ _ _ _ C1 c (here q) I).
  - apply map_ext_in. intros c I. apply filter_In in I as (I & _). rewrite <- (turned_false (fst c)) at 1. rewrite (bal_turned true false c q I).
    rewrite Z.mul_1_l. symmetry. apply (cu_tele _ _ _ _ _ _ C2 c (here q) I).
Qed.

(** A point of one of the two loops that is on the other or on the side of it that is wanted. *)
Definition edge (q : vec2 R) : Prop := (on_path p1 q \/ on_path p2 q)
  /\ (on_path p2 q \/ inside p2 q = fst w) /\ (on_path p1 q \/ inside p1 q = snd w).
Definition near (s : seg) : Prop := okseg s /\ pos (fst s) <> pos (snd s) /\ forall q, on s q -> edge q.

Lemma cut_side (second : bool) c s q : In c (if second then cs2 else cs1) -> In s (vsegs (if second then p2 else p1) (bs_view (fst c))) -> okseg s -> on s q ->
  on_path (if second then p1 else p2) q \/ inside (if second then p1 else p2) q = inside (if second then p1 else p2) (snd c).
Proof.
  intros I Is Os (t & Ht & Hq). set (p' := if second then p1 else p2).
  assert (OK : pline_ok p') by (unfold p'; destruct second; assumption).
  assert (C : forall q, on s q -> q <> pos (fst s) -> q <> pos (snd s) -> ~ on_path p' q /\ wn p' q = wn p' (snd c)).
  { intros x. unfold p'. destruct second; [apply (cu_side _ _ _ _ _ _ C2 c s x I Is)|apply (cu_side _ _ _ _ _ _ C1 c s x I Is)]. }
  destruct (Classical_Prop.classic (on_path p' q)) as [N|N]; [now left|]. right. rewrite !inside_wn.
  destruct (winding_local p' q OK N) as (e & He & K).
  assert (E : pos (fst s) <> pos (snd s)).
  { apply (fuzzy_false_neq _ _ eps epos). destruct second; [apply (cu_seg _ _ _ _ _ _ C2 c s q I Is)|apply (cu_seg _ _ _ _ _ _ C1 c s q I Is)]. }
  assert (X : exists z, on s z /\ z <> pos (fst s) /\ z <> pos (snd s) /\ dist q z < e).
  { destruct (curve_near s t q e Os Ht Hq He) as (t' & z & Ht' & Hz & Dz). exists z. split; [exists t'; split; [lra|exact Hz]|].
    split; [|split; [|exact Dz]]; intros ->.
    - assert (t' = 0); [|lra]. apply (seg_at_inj (fst s) (snd s) t' 0 (pos (fst s))); auto; try lra. now apply seg_at_0.
    - assert (t' = 1); [|lra]. apply (seg_at_inj (fst s) (snd s) t' 1 (pos (snd s))); auto; try lra. now apply seg_at_1. }
  destruct X as (z & Oz & Z1 & Z2 & Dz). destruct (C z Oz Z1 Z2) as (_ & <-). destruct (K z Dz) as (_ & EW). unfold wn. now rewrite EW.
Qed.

Lemma near_data (s s' : seg) : SpecPline.seg_data s = SpecPline.seg_data s' -> near s -> near s'.
Proof.
  intros E (H1 & HD & H2). destruct s as [a b], s' as [c d]. unfold SpecPline.seg_data in E. cbn in E. injection E as E1 E2 E3 E4 E5.
  assert (P1 : pos a = pos c) by (unfold pos; congruence). assert (P2 : pos b = pos d) by (unfold pos; congruence). assert (P3 : pbulge a = pbulge c) by congruence.
  split; [|split; [cbn [fst snd] in *; congruence|]].
  - destruct H1 as (B1 & B2). cbn [fst snd] in *. split; cbn [fst snd]; [now rewrite <- P3|]. rewrite <- P3, <- P1, <- P2. exact B2.
  - intros q (t & Ht & At). apply H2. exists t. split; [exact Ht|]. cbn [fst snd] in *. eapply seg_at_ext; [| | |exact At]; congruence.
Qed.

Lemma slices_path x : ~ on_path p1 x -> ~ on_path p2 x -> forall i s l, nth_error slices i = Some s -> slice_path_is p1 p2 s l ->
  exists a m z, l = a :: m ++ [z] /\ pos a = slice_begin s /\ pos z = slice_end s
  /\ (forall pr, In pr (pairs l) -> close_by eps (fst pr) (snd pr) = false /\ near pr)
  /\ zsum (map (nw x) (pairs l)) = gain x s.
Proof.
  intros N1 N2 i s l I Hl. apply nth_error_In in I. apply slices_In in I as (second & c & I & -> & Ins).
  destruct (slice_view second c I) as (E & H1 & H2 & H3 & H4).
  assert (SEG : forall s, In s (vsegs (if second then p2 else p1) (bs_view (fst c))) -> okseg s /\ close_by eps (fst s) (snd s) = false /\ forall q, on s q -> on_path (if second then p2 else p1) q).
  { intros s Is. destruct second.
    - split; [apply (cu_seg _ _ _ _ _ _ C2 c s (pos (fst s)) I Is)|]. split; [apply (cu_seg _ _ _ _ _ _ C2 c s (pos (fst s)) I Is)|]. intros q. apply (cu_seg _ _ _ _ _ _ C2 c s q I Is).
    - split; [apply (cu_seg _ _ _ _ _ _ C1 c s (pos (fst s)) I Is)|]. split; [apply (cu_seg _ _ _ _ _ _ C1 c s (pos (fst s)) I Is)|]. intros q. apply (cu_seg _ _ _ _ _ _ C1 c s q I Is). }
  destruct (turned_path p1 p2 eps edge (if second then false else back) (fst c) l) as (a & m & z & K1 & K2 & K3 & K4 & K5);
    try (rewrite E; assumption); try assumption.
  { rewrite E. intros s Is. destruct (SEG s Is) as (S1 & S2 & S3). split; [exact S1|]. split; [exact S2|]. intros q On. specialize (S3 q On).
    pose proof (cut_side second c s q I Is S1 On) as CS. rewrite Ins in CS. destruct second; (split; [tauto|split; tauto]). }
  exists a, m, z. split; [exact K1|]. split; [exact K2|]. split; [exact K3|]. split.
  - intros pr Ip. destruct (K4 pr Ip) as (Q1 & Q2 & Q3). split; [exact Q1|]. split; [exact Q2|]. split; [exact (fuzzy_false_neq _ _ eps epos Q1)|exact Q3].
  - rewrite (gain_turned second). 2: exact I. rewrite K5; [now rewrite E|]. rewrite E. intros s Is On. destruct (SEG s Is) as (_ & _ & S3). specialize (S3 x On). destruct second; contradiction.
Qed.

Lemma slices_points s : In s slices -> exists b b', In b bs /\ In b' bs /\ slice_begin s = bi_point b /\ slice_end s = bi_point b'.
Proof.
  intros I. apply slices_In in I as (second & c & I & -> & _).
  assert (X : exists b b', In b bs /\ In b' bs /\ pos (vd_updated_start (bs_view (fst c))) = bi_point b /\ vd_end_point (bs_view (fst c)) = bi_point b').
  { destruct second; [apply (cu_points _ _ _ _ _ _ C2 c I)|apply (cu_points _ _ _ _ _ _ C1 c I)]. }
  destruct X as (b & b' & I1 & I2 & E1 & E2). unfold slice_begin, slice_end, turned. cbn [bs_view vd_inverted vd_end_point vd_updated_start].
  destruct (_ || _); [exists b', b|exists b, b']; auto.
Qed.

Lemma within_true (q r : vec2 R) : within eps q r = true <-> Rabs (vx q - vx r) <= eps /\ Rabs (vy q - vy r) <= eps.
Proof.
  unfold within. cbn. unfold rltb. rewrite !andb_true_iff, !negb_true_iff.
  split.
  - intros (((H1 & H2) & H3) & H4). split; apply Rabs_le;
    repeat match goal with H : (if ?d then _ else _) = false |- _ => destruct d; [discriminate|]; clear H end; lra.
  - intros (H1 & H2). pose proof (Rle_abs (vx q - vx r)). pose proof (Rle_abs (- (vx q - vx r))). pose proof (Rle_abs (vy q - vy r)). pose proof (Rle_abs (- (vy q - vy r))).
    rewrite !Rabs_Ropp in *.
    repeat split; match goal with |- (if ?d then _ else _) = false => destruct d end; auto; exfalso; lra.
Qed.

Lemma slices_apart s s' : In s slices -> In s' slices -> within eps (slice_end s) (slice_begin s') = true <-> slice_end s = slice_begin s'.
Proof.
  intros I I'. destruct (slices_points s I) as (b & b' & I1 & I2 & E1 & E2). destruct (slices_points s' I') as (c & c' & J1 & J2 & F1' & F2').
  rewrite E2, F1', within_true. split.
  - intros (H1 & H2). destruct (apart b' c I2 J1) as [E|[L|L]]; [exact E|lra|lra].
  - intros ->. rewrite !Rminus_diag_eq, Rabs_R0 by reflexivity. lra.
Qed.

Lemma slices_select select : prefers op (boundary back (map fst F1) (map fst F2) []) select -> forall cur avail, (cur < length slices)%nat ->
  (forall i, In i avail -> (i < length slices)%nat) -> avail <> [] -> exists b, select cur avail = Ret (Some b) /\ In b avail.
Proof.
  intros H cur avail Hc Hi NE. set (ps := boundary back (map fst F1) (map fst F2) []) in *.
  assert (EL : length slices = ps_start1_overlapping ps). { rewrite slices_eq. unfold ps, boundary. cbn [ps_start1_overlapping]. rewrite app_length, !map_length. reflexivity. }
  assert (EL2 : ps_start2_overlapping ps = ps_start1_overlapping ps) by (unfold ps, boundary; cbn [ps_start1_overlapping ps_start2_overlapping length]; lia).
  assert (K : forall i, (i < length slices)%nat -> of_pline1 ps i \/ of_pline2 ps i) by (intros i Li; unfold of_pline1, of_pline2; lia).
  assert (HD : exists i, hd_error avail = Some i /\ In i avail) by (destruct avail as [|i l]; [contradiction|exists i; split; [reflexivity|now left]]).
  assert (PR : forall f g o, preference f g (hd_error avail) avail o -> exists b, o = Some b /\ In b avail).
  { intros f g o [(i & -> & I & _)|(_ & [(i & -> & I & _)|(_ & ->)])]; [eauto|eauto|exact HD]. }
  destruct op; cbn [prefers] in H; destruct (H cur avail NE) as (o & -> & H'); clear H.
  1,2: destruct H' as (H1 & H2); destruct (K cur Hc) as [Kc|Kc];
    [destruct (PR _ _ o (H1 (or_introl Kc))) as (b & -> & I)|destruct (PR _ _ o (H2 ltac:(unfold of_pline1, of_pline2, of_overlap1 in *; lia))) as (b & -> & I)]; eauto.
  all: destruct H' as (H1 & H2 & _); destruct (K cur Hc) as [Kc|Kc]; [destruct (PR _ _ o (H1 Kc)) as (b & -> & I)|destruct (PR _ _ o (H2 Kc)) as (b & -> & I)]; eauto.
Qed.

Lemma near_ok r : result_ok near r -> pline_ok (brp_pline r) /\ is_closed (brp_pline r) = true /\ (2 <= vertex_count (brp_pline r))%nat
  /\ (forall q, on_path (brp_pline r) q -> edge q) /\ forall v1 v2, In (v1, v2) (spec_segs (vtx (brp_pline r)) (is_closed (brp_pline r))) -> pos v1 <> pos v2.
Proof.
  intros (H1 & H2 & H3). split; [|split; [exact H1|split; [exact H2|]]].
  - intros v1 v2 I. rewrite H1 in I. apply (H3 (v1, v2) I).
  - split.
    + intros q (v1 & v2 & I & On). rewrite H1 in I. destruct (H3 (v1, v2) I) as (_ & _ & K). now apply K.
    + intros v1 v2 I. rewrite H1 in I. exact (proj1 (proj2 (H3 (v1, v2) I))).
Qed.

Lemma loops_sum x : ~ on_path p1 x -> ~ on_path p2 x ->
  Forall (result_ok near) loops /\ zsum (map (fun r => wn (brp_pline r) x) loops) = (sg * kept A x + kept B x)%Z.
Proof.
  intros N1 N2. destruct trace as (select & chains & _ & PF & ST & PM). fold back in PF, ST, PM. fold F1 F2 in PF, ST, PM. fold slices in ST, PM.
  destruct (stitching_ok (slice_path_is p1 p2) slices select eps (nw x) (gain x) near epos (nw_data x) near_data (slices_path x N1 N2)
    (fun s s' I I' => proj1 (slices_apart s s' I I')) (fun s s' I I' => proj2 (slices_apart s s' I I')) slices_balanced (slices_select select PF) chains loops ST)
    as (_ & _ & _ & SUM & OK). split; [exact OK|].
  rewrite <- gain_sum, <- (sumi_all slices (gain x)), <- (sumi_perm slices (gain x) _ _ PM), <- SUM. f_equal. apply map_ext_in. intros r I.
  rewrite Forall_forall in OK. destruct (near_ok r (OK r I)) as (K1 & K2 & K3 & K4 & _). unfold wn. rewrite (winding_nw _ x K1 K2 K3).
  - now rewrite K2.
  - intros On. destruct (K4 x On) as ([N|N] & _); contradiction.
Qed.

(** No two of the loops have a point in common but the ends of their segments. *)
Lemma loops_once : passes_once p1 -> passes_once p2 -> exists F : list (vec2 R), forall q, ~ In q F -> ~ (on_path p1 q /\ on_path p2 q) /\
  exists h : boolean_result_pline R -> Z, (forall r, In r loops -> (0 <= h r)%Z /\ (on_path (brp_pline r) q -> (1 <= h r)%Z)) /\ (zsum (map h loops) <= 1)%Z.
Proof.
  intros PO1 PO2.
  set (all1 := flat_map (fun c => vsegs p1 (bs_view (fst c))) cs1). set (all2 := flat_map (fun c => vsegs p2 (bs_view (fst c))) cs2).
  set (l0 := (all1 ++ spec_segs (vtx p1) (is_closed p1)) ++ (all2 ++ spec_segs (vtx p2) (is_closed p2))).
  exists (flat_map (fun e : seg => [pos (fst e); pos (snd e)]) l0). intros q NF.
  assert (NE : forall e, In e l0 -> q <> pos (fst e) /\ q <> pos (snd e)).
  { intros e I. split; intros ->; apply NF; apply in_flat_map; exists e; (split; [exact I|]); cbn; auto. }
  destruct (counter l0 q) as (g & G0 & GD & GS).
  assert (GL : forall e, In e l0 -> (on e q -> g e = 1%Z) /\ (~ on e q -> g e = 0%Z)) by (intros e I; apply (GS e e I); now left).
  assert (I1 : forall c e, In c cs1 -> In e (vsegs p1 (bs_view (fst c))) -> In e all1) by (intros c e Ic Iw; apply in_flat_map; eauto).
  assert (I2 : forall c e, In c cs2 -> In e (vsegs p2 (bs_view (fst c))) -> In e all2) by (intros c e Ic Iw; apply in_flat_map; eauto).
  assert (L1 : forall e, In e all1 \/ In e (spec_segs (vtx p1) (is_closed p1)) -> In e l0) by (intros e I; apply in_or_app; left; now apply in_or_app).
  assert (L2 : forall e, In e all2 \/ In e (spec_segs (vtx p2) (is_closed p2)) -> In e l0) by (intros e I; apply in_or_app; right; now apply in_or_app).
  assert (S1 : (zsum (map g all1) <= 1)%Z).
  { apply (cu_once _ _ _ _ _ _ C1 g q PO1). intros e I. cbv iota in I. specialize (L1 e I). destruct (NE e L1), (GL e L1). auto. }
  assert (S2 : (zsum (map g all2) <= 1)%Z).
  { apply (cu_once _ _ _ _ _ _ C2 g q PO2). intros e I. cbv iota in I. specialize (L2 e I). destruct (NE e L2), (GL e L2). auto. }
  assert (S12 : (zsum (map g all1) + zsum (map g all2) <= 1)%Z).
  { destruct (Classical_Prop.classic (exists e, In e all1 /\ on e q)) as [(e & Iw & On)|N].
    - assert (Z2 : zsum (map g all2) = 0%Z); [|lia]. apply zsum_zero. intros w' I'.
      apply (GL w' (L2 w' (or_introl I'))). intros On'. pose proof Iw as Iw0. apply in_flat_map in Iw as (c & Ic & Iw). apply in_flat_map in I' as (c' & Ic' & I').
      destruct (NE e (L1 e (or_introl Iw0))) as (X1 & X2). destruct (cu_side _ _ _ _ _ _ C1 c e q Ic Iw On X1 X2) as (X & _). cbv iota in X. apply X.
      now apply (cu_seg _ _ _ _ _ _ C2 c' w' q Ic' I').
    - assert (Z1 : zsum (map g all1) = 0%Z); [|lia]. apply zsum_zero. intros w' I'.
      apply (GL w' (L1 w' (or_introl I'))). intros On'. apply N. eauto. }
  split.
  { intros (O1 & O2). destruct (cu_cover _ _ _ _ _ _ C1 q O1) as (c & e & Ic & Ie & On). cbv iota in Ie. destruct (NE e (L1 e (or_introl (I1 c e Ic Ie)))) as (X1 & X2).
    destruct (cu_side _ _ _ _ _ _ C1 c e q Ic Ie On X1 X2) as (X & _). now apply X. }
  exists (fun r => zsum (map g (spec_segs (vtx (brp_pline r)) true))).
  set (Q := fun s : seg => on s q -> g s = 1%Z).
  set (G := fun s : boolean_slice R => zsum (map g (vsegs (slice_source p1 p2 s) (straight (bs_view s))))).
  assert (QD : forall s s' : seg, SpecPline.seg_data s = SpecPline.seg_data s' -> Q s -> Q s').
  { intros s s' E H On. rewrite <- (GD s s' E). apply H. apply (same_on s s'); [now left|exact On]. }
  assert (GT : forall (second : bool) b c, In c (if second then cs2 else cs1) -> G (turned b (fst c)) = zsum (map g (vsegs (if second then p2 else p1) (bs_view (fst c))))).
  { intros second b c I. destruct (slice_view second c I) as (E & _ & _ & H & _). unfold G. rewrite straight_turned by exact H.
    replace (slice_source p1 p2 (turned b (fst c))) with (slice_source p1 p2 (fst c)) by reflexivity. now rewrite E. }
  assert (FAR : exists x, ~ on_path p1 x /\ ~ on_path p2 x) by exact (far_off p1 p2 ok1 ok2).
  destruct FAR as (x & N1 & N2).
  assert (PATH : forall i s l, nth_error slices i = Some s -> slice_path_is p1 p2 s l ->
    exists a m z, l = a :: m ++ [z] /\ pos a = slice_begin s /\ pos z = slice_end s
    /\ (forall pr, In pr (pairs l) -> close_by eps (fst pr) (snd pr) = false /\ Q pr) /\ zsum (map g (pairs l)) = G s).
  { intros i s l I Hl. destruct (slices_path x N1 N2 i s l I Hl) as (a & m & z & E1 & E2 & E3 & E4 & _).
    exists a, m, z. split; [exact E1|]. split; [exact E2|]. split; [exact E3|].
    apply nth_error_In in I. apply slices_In in I as (second & c & I & -> & _). destruct (slice_view second c I) as (E & H1 & H2 & H3 & H4).
    destruct (turned_data p1 p2 (if second then false else back) (fst c) l) as (L & PM & F2'); try (rewrite E; assumption); try assumption. rewrite E in PM.
    assert (IL : forall e, In e L -> In e l0).
    { intros e Iw. apply (Permutation_in _ PM) in Iw. destruct second; [apply L2; left; now apply (I2 c)|apply L1; left; now apply (I1 c)]. }
    split.
    - intros pr Ip. split; [now apply E4|]. destruct (forall2_left _ _ _ _ F2' Ip) as (w' & Iw & SW). intros On. now apply (GS pr w' (IL w' Iw) SW).
    - rewrite (GT second) by exact I. rewrite <- (zsum_perm _ _ (Permutation_map g PM)).
      clear - F2' IL GS. revert IL. induction F2' as [|s w' A B' SW F2' IH]; intros IL; [reflexivity|]. unfold zsum in *. cbn [map fold_right]. rewrite IH by (intros; apply IL; now right). f_equal.
      destruct (GS s w' (IL w' (or_introl eq_refl)) SW) as (X1 & X0). destruct (GS w' w' (IL w' (or_introl eq_refl)) (or_introl eq_refl)) as (Y1 & Y0).
      destruct (Classical_Prop.classic (on w' q)) as [O|O]; [rewrite Y1, X1; auto; now apply (same_on s w')|rewrite Y0, X0; auto; intros O'; apply O; now apply (same_on s w')]. }
  destruct trace as (select & chains & _ & PF & ST & PM). fold back in PF, ST, PM. fold F1 F2 in PF, ST, PM. fold slices in ST, PM.
  destruct (stitching_ok (slice_path_is p1 p2) slices select eps g G Q epos GD QD PATH
    (fun s s' I I' => proj1 (slices_apart s s' I I')) (fun s s' I I' => proj2 (slices_apart s s' I I')) slices_balanced (slices_select select PF) chains loops ST)
    as (_ & _ & _ & SUM & OK). split.
  - intros r Ir. split; [apply zsum_nonneg; intros; apply G0|]. intros (v1 & v2 & I & On). rewrite Forall_forall in OK. destruct (OK r Ir) as (CL & _ & HQ). rewrite CL in I.
    pose proof (zsum_In g (spec_segs (vtx (brp_pline r)) true) (v1, v2) (fun s _ => G0 s) I) as LE. rewrite (HQ (v1, v2) I On) in LE. exact LE.
  - rewrite SUM, (sumi_perm slices G _ _ PM), (sumi_all slices G), slices_add.
    assert (K1 : (zsum (map (fun c => G (turned back (fst c))) F1) <= zsum (map g all1))%Z).
    { unfold all1. rewrite zsum_flat. unfold F1. etransitivity; [|apply (zsum_le (fun c => zsum (map g (vsegs p1 (bs_view (fst c))))) (fun c => Bool.eqb (inside p2 (snd c)) (fst w)))].
      - apply Z.eq_le_incl. f_equal. apply map_ext_in. intros c I. apply filter_In in I as (I & _). apply (GT false back c I).
      - intros c. apply zsum_nonneg. intros; apply G0. }
    assert (K2 : (zsum (map (fun c => G (fst c)) F2) <= zsum (map g all2))%Z).
    { unfold all2. rewrite zsum_flat. unfold F2. etransitivity; [|apply (zsum_le (fun c => zsum (map g (vsegs p2 (bs_view (fst c))))) (fun c => Bool.eqb (inside p1 (snd c)) (snd w)))].
      - apply Z.eq_le_incl. f_equal. apply map_ext_in. intros c I. apply filter_In in I as (I & _). rewrite <- (turned_false (fst c)) at 1. apply (GT true false c I).
      - intros c. apply zsum_nonneg. intros; apply G0. }
    lia.
Qed.

Lemma loops_local x : ~ on_path p1 x -> ~ on_path p2 x -> forall l, Forall (result_ok near) l ->
  exists e, 0 < e /\ forall x', dist x x' < e -> map (fun r => wn (brp_pline r) x') l = map (fun r => wn (brp_pline r) x) l.
Proof.
  intros N1 N2. induction l as [|r l IH]; intros H.
  - exists 1. split; [lra|reflexivity].
  - inversion H; subst. destruct IH as (e & Pe & He); [assumption|]. destruct (near_ok r) as (K1 & K2 & K3 & K4 & _); [assumption|].
    destruct (winding_local (brp_pline r) x K1) as (e' & Pe' & He'); [intros On; destruct (K4 x On) as ([N|N] & _); contradiction|].
    exists (Rmin e e'). split; [now apply Rmin_pos|]. intros x' D. cbn [map]. f_equal.
    + unfold wn. destruct (He' x') as (_ & ->); [eapply Rlt_le_trans; [exact D|apply Rmin_r]|reflexivity].
    + apply He. eapply Rlt_le_trans; [exact D|apply Rmin_l].
Qed.

Theorem loops_region x : ~ on_path p1 x -> ~ on_path p2 x ->
  zsum (map (fun r => wn (brp_pline r) x) loops) = expected (wn p1 x) (wn p2 x).
Proof.
  intros N1 N2. destruct (loops_sum x N1 N2) as (OK & ->).
  rewrite <- (total1 x) by now apply off1. rewrite <- (total2 x) by now apply off2.
  apply (region_everywhere A B k1 k2 expected sg e1 e2 ok_A ok_B keep_A keep_B vals_A vals_B exp_0 exp_1 exp_2); [now apply off1|now apply off2|].
  destruct (loops_local x N1 N2 loops OK) as (e & Pe & He).
  destruct (winding_local p1 x ok1 N1) as (r1 & P1 & H1). destruct (winding_local p2 x ok2 N2) as (r2 & P2 & H2).
  exists (Rmin e (Rmin r1 r2)). split; [repeat apply Rmin_pos; assumption|]. intros x' D.
  destruct (H1 x') as (N1' & W1); [eapply Rlt_le_trans; [exact D|eapply Rle_trans; [apply Rmin_r|apply Rmin_l]]|].
  destruct (H2 x') as (N2' & W2); [eapply Rlt_le_trans; [exact D|eapply Rle_trans; [apply Rmin_r|apply Rmin_r]]|].
  assert (O1 : off A x) by now apply off1. assert (O2 : off B x) by now apply off2.
  assert (O1' : off A x') by now apply off1. assert (O2' : off B x') by now apply off2.
  split; [exact O1'|]. split; [exact O2'|]. rewrite !total1, !total2 by assumption. unfold wn at 1 2 3 4. rewrite W1, W2. split; [reflexivity|]. split; [reflexivity|].
  destruct (loops_sum x N1 N2) as (_ & <-). destruct (loops_sum x' N1' N2') as (_ & <-). f_equal. apply He. eapply Rlt_le_trans; [exact D|apply Rmin_l].
Qed.
End Crossing.
