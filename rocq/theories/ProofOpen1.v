(** The raw offset of an open polyline of lines, and where it is cut (C80). *)
From Coq Require Import Reals ZArith Bool List Arith Lra Lia Psatz.
From Verif Require Import Num RNum Res ModelMath ModelIntr ModelSeg ModelPline ModelView ModelSegIntr ModelIndex ModelIntersects ModelBoolean ModelOffset.
From Verif Require Import Spec SpecPline SpecGeom SpecIntr SpecSegIntr SpecOffset SpecOffsetJoin SpecIndex SpecIntersects SpecCuts SpecOffNear SpecBoolean SpecView SpecBox SpecPolyOff SpecRound SpecCurve SpecSimple SpecOpen.
From Verif Require Import ProofR ProofBase ProofIter ProofArc ProofRepeat ProofSlice ProofSegIntr2 ProofSegIntr5 ProofSegIntr6 ProofCuts2 ProofRawNear3 ProofOffsetJoin2 ProofOffsetJoin3 ProofOffsetJoin4 ProofShape3 ProofWhole ProofPolyOff ProofRound1 ProofRound2 ProofOff6 ProofPieces.
From Verif Require ProofWinding4 ProofIntr ProofSegIntr ProofCurve1 ProofPolyOff2 ProofConvex.
Import ListNotations.
Local Open Scope R_scope.

(** ** The raw path *)
Lemma open_segs {A} (l : list A) : spec_segs l false = combine l (tl l).
Proof. destruct l as [|x l]; [reflexivity|]. cbn [spec_segs tl]. destruct l; [reflexivity|]. now rewrite app_nil_r. Qed.

Lemma open_made p d eps raw : 0 < eps -> open_lines p -> path_beside p d eps raw -> create_raw_offset_polyline p d eps = Ret raw.
Proof.
  intros He (HC & HB) (RC & F & vss & a & b & y & z & n & m & C & H0 & H1 & Nn & Nm & EV).
  assert (ES : create_untrimmed_raw_offset_segs p d = Ret (map (fun s => raw_line_seg d (fst s) (snd s)) (spec_segs (vtx p) false))).
  { unfold create_untrimmed_raw_offset_segs. rewrite iter_segments_spec. cbn [rbind]. rewrite HC. f_equal. apply map_ext_in. intros (u, v) I. cbn [fst snd]. apply ProofPolyOff.spec_segs_In_both in I as (Ia & _). rewrite (is_zero_line u (HB u Ia)). reflexivity. }
  pose proof (fun a b => @ProofPolyOff.spec_segs_In_both _ (vtx p) false a b) as IB.
  assert (AD : forall s t, In (s, t) (combine (spec_segs (vtx p) false) (tl (spec_segs (vtx p) false))) -> fst t = snd s).
  { rewrite open_segs. clear. induction (vtx p) as [|u l IH]; [intros s t []|]. cbn [tl]. destruct l as [|v l]; [intros s t []|]. cbn [combine tl] in *. destruct l as [|w l]; [intros s t []|]. cbn [combine]. intros s t [I|I]; [injection I as <- <-; reflexivity|]. apply IH. exact I. }
  assert (VC : (vertex_count p <? 2)%nat = false).
  { unfold vertex_count. destruct (vtx p) as [|u [|v l]]; [discriminate H0|discriminate H0|reflexivity]. }
  unfold create_raw_offset_polyline. rewrite VC, ES. cbn [rbind]. set (SS := spec_segs (vtx p) false) in *.
  assert (JS : Forall2 (joinsv eps (d <? nzero)%num) (windows2 (map (fun s => raw_line_seg d (fst s) (snd s)) SS)) vss).
  { rewrite windows2_map, windows2_combine. eapply Forall2_map_in; [exact C|]. intros (s, t) vs I CM. cbn [fst snd] in *. pose proof (AD _ _ I) as E. destruct s as (u, v), t as (v', w). cbn [fst snd] in *. subst v'.
    pose proof (in_combine_l _ _ _ _ I) as I1. pose proof (in_combine_r _ _ _ _ I) as I2. assert (I2' : In (v, w) SS) by (destruct SS; [destruct I2|now right]). apply IB in I1 as (Iu & Iv). apply corner_joins_made; auto. }
  destruct SS as [|s0 rest] eqn:ESS; [discriminate H0|]. cbn in H0. injection H0 as ->. cbn [map]. cbn [map] in JS.
  pose proof (raw_line_val d a b n (left_normal_neq _ _ _ Nn) Nn) as R0. cbn [fst snd] in *.
  assert (LST : rs_v2 (last (map (fun s => raw_line_seg d (fst s) (snd s)) rest) (raw_line_seg d a b)) = vertex_at (moved (pos z) m d) 0).
  { pose proof (last_map (fun s => raw_line_seg d (fst s) (snd s)) rest (a, b)) as LM. cbn [fst snd] in LM. rewrite LM. clear LM.
    assert (EL : last rest (a, b) = (y, z)). { destruct rest as [|r rest'] using rev_ind; [cbn in H1; injection H1 as <- <-; reflexivity|]. rewrite last_last. cbn [rev] in H1. rewrite rev_app_distr in H1. cbn in H1. now injection H1 as ->. }
    rewrite EL. cbn [fst snd]. rewrite (raw_line_val d y z m (left_normal_neq _ _ _ Nm) Nm). reflexivity. }
  assert (NC : match map (fun s => raw_line_seg d (fst s) (snd s)) rest with [] => rs_collapsed_arc (raw_line_seg d a b) | _ => false end = false) by (rewrite R0; cbn; destruct (map _ rest); reflexivity).
  rewrite NC. rewrite HC.
  set (W := windows2 (raw_line_seg d a b :: map (fun s => raw_line_seg d (fst s) (snd s)) rest)) in *.
  assert (R1 : rs_v1 (raw_line_seg d a b) = vertex_at (moved (pos a) n d) 0) by (rewrite R0; reflexivity). rewrite R1.
  set (w0 := vertex_at (moved (pos a) n d) 0) in *. set (we := vertex_at (moved (pos z) m d) 0) in *.
  assert (SP : spreadv eps w0 (concat vss ++ [we])). { apply spreadv_of. rewrite EV in F. rewrite open_segs in F. exact F. }
  apply spreadv_app in SP as (S1 & S2).
  assert (FO : forall ps r, rfold (join_seg_pair (d <? nzero)%num eps) ps r = (let! r1 := rfold (join_seg_pair (d <? nzero)%num eps) (firstn 1 ps) r in rfold (join_seg_pair (d <? nzero)%num eps) (skipn 1 ps) r1)).
  { intros [|x ps] r; [reflexivity|]. cbn [firstn skipn rfold]. destruct (join_seg_pair _ _ r x); reflexivity. }
  pose proof (fold_joinsv eps (d <? nzero)%num false W vss [] w0 JS S1) as FJ. cbn [app] in FJ. rewrite FO in FJ.
  destruct (rfold (join_seg_pair (d <? nzero)%num eps) (firstn 1 W) (PL [w0] false)) as [r1|]; [|discriminate FJ]. cbn [rbind] in *. rewrite FJ. cbn [rbind andb]. rewrite LST.
  assert (AF : add_or_replace_vertex (PL (w0 :: concat vss) false) we eps = PL (w0 :: concat vss ++ [we]) false).
  { cbn [spreadv] in S2. destruct S2 as (S2 & _). destruct (concat vss) as [|v l] using rev_ind; [exact (add_farv eps [] w0 false we S2)|]. rewrite last_last in S2.
    change (w0 :: l ++ [v]) with ((w0 :: l) ++ [v]). rewrite add_farv by exact S2. cbn [app]. now rewrite <- app_assoc. }
  rewrite AF. replace (Nat.eqb (vertex_count (PL (w0 :: concat vss ++ [we]) false)) 1) with false.
  2:{ unfold vertex_count. cbn [vtx length]. rewrite app_length. cbn [length]. symmetry. apply Nat.eqb_neq. lia. }
  f_equal. destruct raw as [l c]. cbn in EV, RC. now subst.
Qed.

(** ** The circles about the ends *)
Lemma touches_at p0 p1 c r s eps : 0 < eps -> ~ is_point p0 p1 eps -> clear_direction p0 p1 -> dist (line_pt p0 p1 s) c = r -> (forall t, t <> s -> r < dist (line_pt p0 p1 t) c) ->
  line_circle_intr p0 p1 r c eps = LCTangentIntersect s.
Proof.
  intros He NP CD D0 DS. pose proof (ProofIntr.line_circle_main p0 p1 r c eps He NP CD) as LC. destruct (line_circle_intr p0 p1 r c eps) as [|t|t0 t1].
  - destruct LC as (k & L & M). specialize (M s). lra.
  - destruct LC as (M & _). f_equal. destruct (Req_dec t s) as [E|E]; [exact E|]. specialize (M s). specialize (DS t E). lra.
  - exfalso. destruct LC as (_ & _ & LC). destruct LC as (L & A & B & _); [exists s; lra|]. destruct (Req_dec t0 s) as [->|E]; [|specialize (DS t0 E); lra]. specialize (DS t1 ltac:(lra)). lra.
Qed.

Lemma off_points eps c r v1 v2 : 0 < eps -> 0 <= r -> seg_ok v1 v2 -> ~ is_point (pos v1) (pos v2) eps -> off_circle eps c r v1 v2 -> circle_points c r eps v1 v2 = [].
Proof.
  intros He Hr Ok NP (OL & OA). unfold circle_points. destruct (Req_dec (pbulge v1) 0) as [Z|Z].
  - rewrite (is_zero_line v1 Z). destruct (OL Z) as (CD & H). pose proof (ProofIntr.line_circle_main (pos v1) (pos v2) r c eps He NP CD) as LC.
    assert (K : forall t, r = dist (line_pt (pos v1) (pos v2) t) c \/ dist (line_pt (pos v1) (pos v2) t) c < r + eps -> (negb (t <? nzero) && negb (none_ <? t) && (eps <? nabs t))%num = false).
    { intros t Dt. destruct H as [(D & L & M)|(_ & M)]; [specialize (M t); lra|]. rnum. destruct (rltb_spec t 0) as [T0|T0]; [reflexivity|]. destruct (rltb_spec 1 t) as [T1|T1]; [reflexivity|]. specialize (M t ltac:(lra)). lra. }
    destruct (line_circle_intr (pos v1) (pos v2) r c eps) as [|t|t0 t1]; [reflexivity| |].
    + destruct LC as (_ & A). cbn [filter]. rewrite K; [reflexivity|]. right. apply Rabs_def2 in A. lra.
    + destruct LC as (_ & (k & Dk) & LC). assert (X : exists t, dist (line_pt (pos v1) (pos v2) t) c < r + eps).
      { destruct H as [(D & L & M)|(E & _)]; [specialize (M k); lra|exact E]. }
      destruct (LC X) as (_ & A & B & _). cbn [filter]. rewrite (K t0), (K t1) by (left; lra). reflexivity.
  - rewrite (is_zero_arc v1 v2 Ok Z). assert (HP : pos v1 <> pos v2) by (apply Ok, Z). pose proof (ProofArc.computed_is_arc _ _ _ HP Z) as A.
    rewrite (ProofArc.arc_radius_and_center_eq v1 v2 HP Z). cbn [fst snd]. set (k := centre_of (pos v1) (pos v2) (pbulge v1)) in *. set (rk := radius_of (pos v1) (pos v2) (pbulge v1)) in *.
    assert (Hk : 0 <= rk) by apply A.
    destruct (OA Z k rk (ex_intro _ _ A)) as [F|(W & Dk & (x & y & X1 & X2 & Y1 & Y2 & N) & NN)].
    + rewrite (circle_none rk k r c eps He Hk Hr (or_introl F)). reflexivity.
    + destruct (ProofIntr.circle_circle_two rk k r c eps x y He Hk Hr Dk N X1 X2 Y1 Y2) as (q1 & q2 & E & _). pose proof (ProofIntr.circle_circle_spec rk k r c eps He Hk Hr) as CC. rewrite E in *.
      destruct CC as (_ & A1 & A2 & B1 & B2 & _).
      assert (SW : forall q, dist q k = rk -> dist q c = r -> point_within_arc_sweep k (pos v1) (pos v2) (pbulge v1 <? nzero)%num q eps = false).
      { intros q D1 D2. apply not_true_is_false. intros T. apply (NN q D1 D2). apply (ProofSegIntr.within_near v1 v2 Ok Z q eps eps); [lra|exact W| |exact T]. fold k rk. rewrite D1, Rminus_diag_eq, Rabs_R0 by reflexivity. lra. }
      cbn [filter]. rewrite (SW q1), (SW q2), !andb_false_r by assumption. reflexivity.
Qed.

(** ** Open paths that clearly do not meet themselves *)
Section Lone.
Variables (p : pline R) (eps : R).
Hypothesis He : 0 < eps.
Hypothesis LP : lone_open eps p.
Hypothesis N3 : (3 <= length (vtx p))%nat.
Let segs := spec_segs (vtx p) false.
Let n := length (vtx p).

Lemma ol_closed : is_closed p = false. Proof. apply LP. Qed.
Lemma ol_len : length segs = (n - 1)%nat.
Proof. unfold segs. rewrite spec_segs_length. fold n. destruct (Nat.ltb_spec n 2); unfold n in *; lia. Qed.
Lemma ol_seg i v1 v2 : nth_error segs i = Some (v1, v2) -> seg_ok v1 v2 /\ ~ is_point (pos v1) (pos v2) eps /\ pos v1 <> pos v2.
Proof.
  intros E. destruct LP as (C & CP & _). destruct (CP v1 v2) as (Ok & D). { rewrite C. exact (nth_error_In _ _ E). }
  assert (NP : ~ is_point (pos v1) (pos v2) eps). { intros (A & B). unfold pos in A, B. cbn [vx vy] in A, B. rewrite Rabs_minus_sym in A. rewrite Rabs_minus_sym in B. destruct D; lra. }
  split; [exact Ok|]. split; [exact NP|]. intros Q. apply NP. rewrite Q. split; rewrite Rminus_diag_eq, Rabs_R0 by reflexivity; exact He.
Qed.

Lemma open_nth {A} (l : list A) i a b : nth_error (spec_segs l false) i = Some (a, b) -> nth_error l i = Some a /\ nth_error l (i + 1) = Some b.
Proof.
  rewrite open_segs. revert i. induction l as [|x l IH]; intros i E; [destruct i; discriminate|]. destruct l as [|y l]; [destruct i; discriminate|].
  cbn [tl combine] in E. destruct i as [|i]; [cbn in E; injection E as <- <-; auto|]. cbn [nth_error Nat.add]. apply (IH i). exact E.
Qed.

Lemma ol_local i : basics (local_pair p eps i ((i + 1) mod n)) = [].
Proof.
  unfold local_pair. rewrite ol_closed. fold segs.
  destruct (nth_error segs i) as [(a, b)|] eqn:E1; [|reflexivity]. destruct (nth_error segs ((i + 1) mod n)) as [(b', c)|] eqn:E2; [|reflexivity].
  assert (Li : (i < n - 1)%nat) by (rewrite <- ol_len; apply nth_error_Some; congruence). rewrite Nat.mod_small in E2 by lia.
  assert (b' = b). { pose proof (open_nth _ _ _ _ E1) as (_ & Q1). pose proof (open_nth _ _ _ _ E2) as (Q2 & _). congruence. } subst b'.
  destruct (v2fuzzy_eq_eps _ _ _); [reflexivity|]. pose proof LP as (_ & _ & J & _). specialize (J i a b c E1 E2).
  destruct (ol_seg _ _ _ E1) as (Ok1 & P1 & D1). destruct (ol_seg _ _ _ E2) as (Ok2 & P2 & D2).
  destruct J as [(Z1 & Z2 & X)|[(Z1 & Z2 & CD & k & r & (al & A) & RA & F)|(Z1 & Z2 & CD & k & r & (al & A) & RA)]].
  - unfold pline_seg_intr. rewrite (is_zero_line a Z1), (is_zero_line b Z2). cbn [andb].
    destruct (ProofIntr.line_line_nonparallel (pos a) (pos b) (pos b) (pos c) eps He X) as (s & t & E & U & [(_ & EL)|(_ & EL)]); rewrite EL; [|reflexivity].
    destruct (U 1 0) as (S1 & T0). { rewrite line_pt_1. unfold line_pt. apply vec2_eq; cbn [vx vy]; ring. }
    cbn [events_of]. rewrite from_parametric_R, <- S1, line_pt_1. cbn [filter]. rewrite (ProofWinding4.v2fuzzy_refl (pos b) eps He). reflexivity.
  - rewrite (into_arc a b c k r al eps He Z1 Ok2 Z2 A P1 CD); [cbn [events_of filter]; rewrite (ProofWinding4.v2fuzzy_refl (pos b) eps He); reflexivity| |exact F].
    intros t Ht. apply foot_far; auto. apply (arc_far_start b c k r). now exists al.
  - rewrite (out_of_arc a b c k r al eps He Z2 Ok1 Z1 A P2 CD); [cbn [events_of filter]; rewrite (ProofWinding4.v2fuzzy_refl (pos b) eps He); reflexivity|].
    intros t Ht. replace (line_pt (pos b) (pos c) t) with (line_pt (pos c) (pos b) (1 - t)) by (unfold line_pt; apply vec2_eq; cbn [vx vy]; ring). apply foot_far; [congruence|exact RA|apply (arc_far_start a b k r); now exists al|lra].
Qed.

Lemma ol_global i j : SpecIntersects.apart p i j -> global_pair p eps (i, j) = [].
Proof.
  intros (A1 & A2 & A3). unfold global_pair. rewrite ol_closed. fold segs. unfold vertex_count in A2, A3. fold n in A2, A3.
  destruct (nth_error segs i) as [(a, b)|] eqn:E1; [|reflexivity]. destruct (nth_error segs j) as [(c, e)|] eqn:E2; [|reflexivity].
  assert (Li : (i < n - 1)%nat) by (rewrite <- ol_len; apply nth_error_Some; congruence). assert (Lj : (j < n - 1)%nat) by (rewrite <- ol_len; apply nth_error_Some; congruence).
  rewrite Nat.mod_small in A2, A3 by lia.
  pose proof LP as (_ & _ & _ & J). destruct (J i j a b c e E1 E2 A1 A2 A3) as (SC & No).
  destruct (ProofCurve1.sides_exact eps a b c e He (proj1 (ol_seg _ _ _ E1)) (proj1 (ol_seg _ _ _ E2)) SC) as (NO & RP & _).
  assert (Z : forall q, ~ reported (pline_seg_intr a b c e eps) q) by (intros q Rq; apply RP in Rq as (O1 & O2); exact (No q O1 O2)).
  destruct (pline_seg_intr a b c e eps) as [|q|q|q q'|q q'|q q']; [reflexivity| | | |destruct NO..]; exfalso; apply (Z q); cbn [reported]; auto.
Qed.

Lemma ol_no_cuts pairs : pairs_ok p eps (boxes_of p) pairs -> self_cuts p eps pairs = [].
Proof.
  intros (PO & _). unfold self_cuts.
  assert (B : basics (local_events p eps ++ flat_map (global_pair p eps) pairs) = []).
  { unfold basics. rewrite flat_map_app.
    assert (FM : forall (f : nat -> list (intr_event R)) l, (forall x, In x l -> basics (f x) = []) -> basics (flat_map f l) = []).
    { intros f l K. induction l as [|x l IH]; [reflexivity|]. cbn. unfold basics in *. rewrite flat_map_app, (K x (or_introl eq_refl)), IH; [reflexivity|]. intros y I. apply K. now right. }
    assert (FM' : forall (f : nat * nat -> list (intr_event R)) l, (forall x, In x l -> f x = []) -> flat_map f l = []).
    { intros f l K. induction l as [|x l IH]; [reflexivity|]. cbn. rewrite (K x (or_introl eq_refl)), IH; [reflexivity|]. intros y I. apply K. now right. }
    rewrite (FM' (global_pair p eps) pairs).
    - cbn [flat_map]. rewrite app_nil_r. unfold local_events. unfold vertex_count. fold n. destruct (Nat.ltb_spec n 3) as [L|L]; [unfold n in L; lia|]. rewrite ol_closed.
      apply FM. intros i I. apply ol_local.
    - intros (i, j) I. destruct (PO i j I) as (_ & _ & A & _). now apply ol_global. }
  rewrite B. reflexivity.
Qed.
End Lone.
