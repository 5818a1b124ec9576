(** Boolean operations on loops along the same segments (C75). *)
From Coq Require Import Reals ZArith Bool List Arith Lra Lia.
From Verif Require Import Num RNum Res ModelMath ModelSeg ModelPline ModelView ModelIndex ModelIntr ModelSegIntr ModelIntersects ModelBoolean.
From Verif Require Import Spec SpecPline SpecGeom SpecBox SpecIntr SpecWinding SpecView SpecPruneR SpecPrune SpecJordan SpecRegion SpecBoolean SpecIndex SpecIntersects SpecOffset SpecOffsetJoin SpecPolyOff SpecCircle SpecSame.
From Verif Require Import ProofR ProofBase ProofIter ProofArc ProofArc2 ProofIntr ProofIndex2 ProofMeasure ProofSlice ProofWinding4 ProofWinding6 ProofPolyOff ProofPolyOff2 ProofNest ProofRegion10 ProofOverlap ProofConn3 ProofArea6 ProofDisc ProofDisc2 ProofConvexEx ProofCurveEx ProofSame1 ProofSame2 ProofSame3.
Import ListNotations.
Local Open Scope R_scope.

Lemma same_on_seg v1 v2 u1 u2 q : same_seg v1 v2 u1 u2 -> on_seg v1 v2 q -> on_seg u1 u2 q.
Proof.
  intros [(A & B & C)|(A & B & C)] (t & Ht & H).
  - exists t. split; [exact Ht|]. unfold seg_at in *. rewrite A, B, C. exact H.
  - exists (1 - t). split; [lra|]. now apply (seg_at_reverse v1 v2).
Qed.

Lemma follows_on p1 p2 q : follows p1 p2 -> on_path p2 q -> on_path p1 q.
Proof.
  intros F (u1 & u2 & I & O). destruct (F u1 u2 I) as (v1 & v2 & J & S). exists v1, v2. split; [exact J|]. now apply (same_on_seg u1 u2); [apply same_sym|].
Qed.
Lemma outline_on p1 p2 q : same_outline p1 p2 -> (on_path p1 q <-> on_path p2 q).
Proof. intros (A & B). split; apply follows_on; assumption. Qed.

(** Loops that pass no point twice along the same points go around the same points. *)
Lemma joined_on p1 p2 x y : (forall q, on_path p1 q <-> on_path p2 q) -> joined p1 x y -> joined p2 x y.
Proof. intros E. induction 1 as [|x y z _ IH L]; [constructor|]. apply (joined_line _ x y z IH). intros t Ht O. apply (L t Ht), E, O. Qed.

Lemma same_inside p1 p2 x : pline_ok p1 -> pline_ok p2 -> valid_loop p1 -> valid_loop p2 -> passes_once p1 -> passes_once p2 ->
  (forall q, on_path p1 q <-> on_path p2 q) -> ~ on_path p1 x -> inside p1 x = inside p2 x.
Proof.
  intros O1 O2 L1 L2 P1 P2 E N.
  assert (N' : ~ on_path p2 x) by (intros K; apply N, E, K).
  destruct (path_right p1 O1) as (M & HM). set (y := V2 M 0).
  assert (Y1 : ~ on_path p1 y) by (intros K; apply HM in K; unfold y in K; cbn [vx] in K; lra).
  assert (Y2 : ~ on_path p2 y) by (intros K; apply Y1, E, K).
  assert (Z1 : wn p1 y = 0%Z) by (apply wn_right; auto).
  assert (Z2 : wn p2 y = 0%Z) by (apply wn_right; auto; intros q Q; apply HM, E, Q).
  assert (J : wn p1 x = 0%Z <-> wn p2 x = 0%Z).
  { pose proof (one_piece p1 x y O1 L1 P1 N Y1) as A. pose proof (one_piece p2 x y O2 L2 P2 N' Y2) as B. rewrite !winding_wn, Z1 in A. rewrite !winding_wn, Z2 in B. split; intros K.
    - assert (K' : joined p1 x y) by (apply A; now rewrite K). apply (joined_on p1 p2 _ _ E) in K'. apply B in K'. now injection K'.
    - assert (K' : joined p2 x y) by (apply B; now rewrite K). apply (joined_on p2 p1 _ _ (fun q => iff_sym (E q))) in K'. apply A in K'. now injection K'. }
  destruct (inside p1 x) eqn:I1, (inside p2 x) eqn:I2; try reflexivity; exfalso.
  - apply inside_iff in I1. apply I1, J. destruct (Z.eq_dec (wn p2 x) 0) as [|K]; [assumption|]. apply inside_iff in K. congruence.
  - apply inside_iff in I2. apply I2, J. destruct (Z.eq_dec (wn p1 x) 0) as [|K]; [assumption|]. apply inside_iff in K. congruence.
Qed.

Section Loops.
Context (p1 p2 : pline R) (eps : R) (He : 0 < eps) (O1 : pline_ok p1) (O2 : pline_ok p2) (V1 : valid_loop p1) (V2' : valid_loop p2).
Context (PT : parted_pline eps p1) (F : follows p1 p2).

Lemma outline_over j : (j < length (spec_segs (vtx p2) (is_closed p2)))%nat -> exists i, over p1 p2 eps i j.
Proof.
  intros Hj. destruct (nth_error (spec_segs (vtx p2) (is_closed p2)) j) as [(u1, u2)|] eqn:Eu; [|apply nth_error_None in Eu; lia].
  pose proof (nth_error_In _ _ Eu) as Iu. destruct (F u1 u2 Iu) as (v1 & v2 & Iv & S). destruct (In_nth_error _ _ Iv) as (i & Ev).
  destruct PT as (NP & PD). pose proof (O1 _ _ Iv) as Sv. pose proof (O2 _ _ Iu) as Su.
  exists i, v1, v2, u1, u2. split; [exact Ev|]. split; [exact Eu|]. split; [exact Sv|]. split; [exact Su|]. split; [|split].
  - assert (O : on_seg v1 v2 (pos v1)) by (exists 0; split; [lra|now apply seg_at_0]). exists (pos v1). split; [exact O|]. now apply (same_on_seg v1 v2).
  - destruct (Req_dec (pbulge v1) 0) as [Z|Z]; [left; apply line_same; auto|right; apply arc_same; auto].
  - intros i' w1 w2 NE Ew. pose proof (nth_error_In _ _ Ew) as Iw. apply parted_plain; auto. apply (parted_same eps w1 w2 v1 v2); [|exact S]. now apply (PD i' i).
Qed.

Theorem outline_boolean mk op idx : pline_index p1 idx ->
  polyline_boolean mk p1 p2 op idx eps
  = Ret (BR (match op with BOr | BAnd => [BRP p2 []] | BNot | BXor => [] end) [] Overlapping).
Proof.
  intros IO. rewrite (same_boolean p1 p2 eps He V1 V2' outline_over mk op idx IO). destruct op; reflexivity.
Qed.

Theorem outline_region mk op idx : pline_index p1 idx -> follows p2 p1 -> passes_once p1 -> passes_once p2 ->
  exists r, polyline_boolean mk p1 p2 op idx eps = Ret r
  /\ forall x, ~ on_path p1 x -> (region (fun p y => inside p y = true) r x <-> operation op (inside p1 x = true) (inside p2 x = true)).
Proof.
  intros IO F' P1 P2. eexists. split; [now apply outline_boolean|]. intros x N.
  rewrite (same_inside p1 p2 x O1 O2 V1 V2' P1 P2 (fun q => outline_on p1 p2 q (conj F F')) N).
  assert (NN : ~ exists s : boolean_result_pline R, In s [] /\ inside (brp_pline s) x = true) by (intros (s & [] & _)).
  destruct op; unfold region, operation; cbn [br_pos br_neg].
  - split; [intros ((s & [<-|[]] & K) & _); auto|]. intros [K|K]; (split; [|exact NN]); exists (BRP p2 []); (split; [now left|exact K]).
  - split; [intros ((s & [<-|[]] & K) & _); auto|]. intros (K & _). split; [|exact NN]. exists (BRP p2 []). split; [now left|exact K].
  - split; [intros ((s & [] & _) & _)|]. intros (K & K'). contradiction.
  - split; [intros ((s & [] & _) & _)|]. intros [(K & K')|(K & K')]; contradiction.
Qed.
End Loops.

(** *** Polygons *)

Lemma lone_parted eps ps : 0 < eps -> lone_polygon eps ps -> (forall a b, In (a, b) (spec_segs ps true) -> ~ is_point a b eps) -> parted_pline eps (polygon ps).
Proof.
  intros He (L & A & B) S. split.
  - intros v1 v2 I. apply In_nth_error in I as (i & E). change (is_closed (polygon ps)) with true in E. rewrite polygon_segs in E.
    destruct (nth_error (spec_segs ps true) i) as [(a, b)|] eqn:Ea; [|discriminate]. cbn [option_map fst snd] in E. injection E as <- <-. cbn [pos]. intros K. apply (S a b); [eapply nth_error_In; exact Ea|].
    destruct a, b. exact K.
  - intros i j v1 v2 u1 u2 E1 E2 NE. change (is_closed (polygon ps)) with true in E1, E2. rewrite polygon_segs in E1, E2.
    destruct (nth_error (spec_segs ps true) i) as [(a, b)|] eqn:Ea; [|discriminate]. destruct (nth_error (spec_segs ps true) j) as [(c, e)|] eqn:Ec; [|discriminate].
    cbn [option_map fst snd] in E1, E2. injection E1 as <- <-. injection E2 as <- <-. split; [|intros Z; exfalso; now apply Z]. intros _ _.
    assert (PV : forall q : vec2 R, pos (lv q) = q) by (intros []; reflexivity). rewrite !PV.
    set (n := length ps) in *.
    destruct (Nat.eq_dec ((i + 1) mod n) j) as [K|K]; [|destruct (Nat.eq_dec i ((j + 1) mod n)) as [K'|K']].
    + left. subst j. destruct (segs_nth _ _ _ _ Ea) as (_ & N1). destruct (segs_nth _ _ _ _ Ec) as (N2 & _). unfold n in N2. rewrite N1 in N2. injection N2 as <-.
      exact (A i a b e Ea Ec).
    + left. subst i. destruct (segs_nth _ _ _ _ Ec) as (_ & N1). destruct (segs_nth _ _ _ _ Ea) as (N2 & _). unfold n in N2. rewrite N1 in N2. injection N2 as <-.
      pose proof (A j c e b Ec Ea) as Q. assert (E : cross (vec e b) (vec c e) = - cross (vec c e) (vec e b)) by (unfold cross, vec; cbn [vx vy]; ring). rewrite E, Rabs_Ropp. exact Q.
    + right. apply (B i j); auto.
Qed.

Lemma polygon_seg_ok ps : pline_ok (polygon ps).
Proof.
  intros v1 v2 I. apply In_nth_error in I as (i & E). change (is_closed (polygon ps)) with true in E. rewrite polygon_segs in E.
  destruct (nth_error (spec_segs ps true) i) as [(a, b)|]; [|discriminate]. injection E as <- <-. split; [now left|]. intros Z. exfalso. now apply Z.
Qed.

Theorem polygon_same mk eps ps qs op idx : 0 < eps -> lone_polygon eps ps -> lone_polygon eps qs -> (forall a b, In (a, b) (spec_segs ps true) -> ~ is_point a b eps) ->
  same_outline (polygon ps) (polygon qs) -> pline_index (polygon ps) idx ->
  exists r, polyline_boolean mk (polygon ps) (polygon qs) op idx eps = Ret r
  /\ r = BR (match op with BOr | BAnd => [BRP (polygon qs) []] | BNot | BXor => [] end) [] Overlapping
  /\ forall x, ~ on_path (polygon ps) x ->
     (region (fun p y => inside p y = true) r x <-> operation op (inside (polygon ps) x = true) (inside (polygon qs) x = true)).
Proof.
  intros He L1 L2 S (F & F') IO.
  assert (V1 : valid_loop (polygon ps)) by (destruct L1 as (L & _); split; [unfold vertex_count, polygon; cbn [vtx]; rewrite map_length; lia|reflexivity]).
  assert (V2' : valid_loop (polygon qs)) by (destruct L2 as (L & _); split; [unfold vertex_count, polygon; cbn [vtx]; rewrite map_length; lia|reflexivity]).
  pose proof (lone_parted eps ps He L1 S) as PT.
  destruct (outline_region (polygon ps) (polygon qs) eps He (polygon_seg_ok _) (polygon_seg_ok _) V1 V2' PT F mk op idx IO F' (lone_once eps ps He L1) (lone_once eps qs He L2)) as (r & E & H).
  exists r. split; [exact E|]. split; [|exact H].
  rewrite (outline_boolean (polygon ps) (polygon qs) eps He (polygon_seg_ok _) (polygon_seg_ok _) V1 V2' PT F mk op idx IO) in E. now injection E.
Qed.
