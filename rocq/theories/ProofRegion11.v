(** The region of a boolean operation on two loops that cross (C51). *)
From Coq Require Import Reals ZArith Bool List Arith Lra Lia Psatz Permutation Sorted.
From Verif Require Import Num RNum Res ModelMath ModelSeg ModelPline ModelView ModelIndex ModelIntersects ModelBoolean.
From Verif Require Import Spec SpecPline SpecGeom SpecBox SpecWinding SpecView SpecPruneR SpecStitch SpecPrune SpecRegion SpecJordan SpecBoolean SpecIndex SpecIntersects.
From Verif Require Import ProofR ProofBase ProofIter ProofView ProofArc ProofFind ProofBoolean ProofPrune2 ProofPruneR ProofWinding6 ProofWinding7 ProofRegion7 ProofRegion10.
Import ListNotations.
Local Open Scope R_scope.

Lemma clear_ok eps p : clear_pline eps p -> pline_ok p.
Proof. intros H v1 v2 I. now apply H. Qed.

Lemma wind_sum (rs : list (boolean_result_pline R)) x : wind_together (map brp_pline rs) x (zsum (map (fun r => wn (brp_pline r) x) rs)).
Proof.
  exists (map (fun r => wn (brp_pline r) x) rs). split; [|reflexivity].
  induction rs as [|r rs IH]; constructor; [apply winding_wn|exact IH].
Qed.

Lemma sorted_perm {T} {N : Num T} op o2 (l : list (boolean_result_pline T)) : Permutation (br_pos (sorted_out op o2 l) ++ br_neg (sorted_out op o2 l)) l.
Proof.
  unfold sorted_out. cbn [br_pos br_neg]. eapply perm_trans; [apply Permutation_app_comm|]. apply filter_split_perm.
Qed.

Theorem region_edges mk (p1 p2 : pline R) op idx eps boxes bs o1 o2 : makes_index mk ->
  index_of boxes idx -> length boxes = length (spec_segs (vtx p1) (is_closed p1)) ->
  valid_loop p1 -> valid_loop p2 -> 0 < eps -> clear_pline eps p1 -> clear_pline eps p2 -> simple_loop p1 o1 -> simple_loop p2 o2 ->
  find_intersects p1 p2 idx eps = Ret (bs, []) -> bs <> [] -> clean_crossing eps p1 p2 bs ->
  exists r, polyline_boolean mk p1 p2 op idx eps = Ret r
  /\ (exists loops, r = sorted_out op o2 loops)
  /\ (forall l, In l (br_pos r ++ br_neg r) -> valid_loop (brp_pline l) /\ pline_ok (brp_pline l)
      /\ (forall v1 v2, In (v1, v2) (spec_segs (vtx (brp_pline l)) (is_closed (brp_pline l))) -> pos v1 <> pos v2)
      /\ exists w, In w (wanted op) /\ forall q, on_path (brp_pline l) q -> edge p1 p2 w q)
  /\ (op = BOr -> passes_once p1 -> passes_once p2 -> exists F : list (vec2 R), forall q, ~ In q F -> ~ (on_path p1 q /\ on_path p2 q) /\ exists h : boolean_result_pline R -> Z,
      (forall l, In l (br_pos r ++ br_neg r) -> (0 <= h l)%Z /\ (on_path (brp_pline l) q -> (1 <= h l)%Z)) /\ (zsum (map h (br_pos r ++ br_neg r)) <= 1)%Z)
  /\ forall x, ~ on_path p1 x -> ~ on_path p2 x ->
     wind_together (map brp_pline (br_pos r ++ br_neg r)) x (once o2 * times_around op (inside p1 x) (inside p2 x))%Z.
Proof.
  intros MK IO BL [V1 CL1] [V2' CL2] epos K1 K2 S1 S2 EF NE (CC1 & CC2 & H1 & H2 & A1 & A2 & SP).
  destruct (process_total p1 p2 idx eps boxes IO BL) as (bs' & ovs & os & o1' & o2' & EF' & EJ & EO1 & EO2 & EP).
  rewrite EF in EF'. injection EF' as <- <-. rewrite (proj1 S1) in EO1. injection EO1 as <-. rewrite (proj1 S2) in EO2. injection EO2 as <-.
  assert (os = []) as -> by (cbn in EJ; congruence).
  destruct (find_intersects_each p1 p2 eps boxes idx IO BL) as (bs' & os' & EF' & FB & _). rewrite EF in EF'. injection EF' as <- <-.
  assert (RG : forall b, In b bs -> (bi_index1 b < vertex_count p1)%nat /\ (bi_index2 b < vertex_count p2)%nat).
  { intros b I. rewrite Forall_forall in FB. apply (basic_in_range p1 p2 eps b). apply (FB b I). }
  destruct (cut_up_ok p1 p2 false eps bs o1 o2) as (cs1 & C1 & F1 & E1); try assumption; [exact (clear_ok _ _ K2)|intros b I; apply (RG b I)|].
  destruct (cut_up_ok p1 p2 true eps bs o1 o2) as (cs2 & C2 & F2 & E2); try assumption; [exact (clear_ok _ _ K1)|intros b I; apply (RG b I)|].
  destruct (crossing_with mk p1 p2 op idx eps MK boxes BL bs [] o1 o2 cs1 cs2) as (loops & TR & ER); auto; try (split; assumption); try discriminate; try (intros s []).
  eexists. split; [exact ER|]. split; [eexists; reflexivity|].
  pose proof (sorted_perm op o2 (concat loops)) as PM. set (r := sorted_out op o2 (concat loops)) in *.
  assert (EACH : forall w ls, In w (wanted op) -> traced p1 p2 op o1 o2 eps cs1 cs2 [] w ls -> forall x, ~ on_path p1 x -> ~ on_path p2 x ->
    Forall (result_ok (near p1 p2 w)) ls /\ zsum (map (fun r => wn (brp_pline r) x) ls) = expected op o2 w (wn p1 x) (wn p2 x)).
  { intros w ls Iw Tr x N1 N2. split.
    - apply (loops_sum p1 p2 eps bs op o1 o2 cs1 cs2 w ls epos C1 C2 (clear_ok _ _ K1) (clear_ok _ _ K2) CL1 CL2 S1 S2 SP Iw Tr x N1 N2).
    - apply (loops_region p1 p2 eps bs op o1 o2 cs1 cs2 w ls epos C1 C2 (clear_ok _ _ K1) (clear_ok _ _ K2) CL1 CL2 S1 S2 SP Iw Tr x N1 N2). }
  assert (FAR : exists x, ~ on_path p1 x /\ ~ on_path p2 x).
  { exact (far_off p1 p2 (clear_ok _ _ K1) (clear_ok _ _ K2)). }
  assert (ALL : forall l, In l (concat loops) -> exists w, In w (wanted op) /\ result_ok (near p1 p2 w) l).
  { destruct FAR as (x & N1 & N2). intros l Il. apply in_concat in Il as (ls & Il & Ill). destruct (ProofRegion5.forall2_right _ _ _ _ TR Il) as (w & Iw & Tr).
    exists w. split; [exact Iw|]. destruct (EACH w ls Iw Tr x N1 N2) as (F & _). rewrite Forall_forall in F. now apply F. }
  split.
  - intros l Il. apply (Permutation_in _ PM) in Il. destruct (ALL l Il) as (w & Iw & Rw). destruct (near_ok p1 p2 w l Rw) as (X1 & X2 & X3 & X4 & X5).
    split; [split; assumption|]. split; [assumption|]. split; [exact X5|]. exists w. auto.
  - split.
    { intros -> PO1 PO2. inversion TR as [|w ls ws lls Tr TR']; subst. inversion TR'; subst. cbn [concat] in *. rewrite app_nil_r in *.
      destruct (loops_once p1 p2 eps bs BOr o1 o2 cs1 cs2 (false, false) ls epos C1 C2 (clear_ok _ _ K1) (clear_ok _ _ K2) CL1 CL2 S1 S2 SP (or_introl eq_refl) Tr PO1 PO2) as (F & HF).
      exists F. intros q NF. destruct (HF q NF) as (N12 & h & H & SM). split; [exact N12|]. exists h. split.
      - intros l Il. apply H. apply (Permutation_in _ PM Il).
      - rewrite (zsum_perm _ _ (Permutation_map h PM)). exact SM. }
    intros x N1 N2. replace (once o2 * times_around op (inside p1 x) (inside p2 x))%Z with (zsum (map (fun r => wn (brp_pline r) x) (br_pos r ++ br_neg r))); [apply wind_sum|].
    rewrite (zsum_perm _ (map (fun r => wn (brp_pline r) x) (concat loops))) by now apply Permutation_map.
    assert (SM : zsum (map (fun r => wn (brp_pline r) x) (concat loops)) = zsum (map (fun w => expected op o2 w (wn p1 x) (wn p2 x)) (wanted op))).
    { assert (G : forall ws ls, (forall w, In w ws -> In w (wanted op)) -> Forall2 (traced p1 p2 op o1 o2 eps cs1 cs2 []) ws ls ->
        zsum (map (fun r => wn (brp_pline r) x) (concat ls)) = zsum (map (fun w => expected op o2 w (wn p1 x) (wn p2 x)) ws)).
      { intros ws ls Hw F. induction F as [|w l ws ls Tr F IH]; [reflexivity|]. cbn [concat map]. rewrite map_app, zsum_app, IH by (intros; apply Hw; now right).
        destruct (EACH w l (Hw w (or_introl eq_refl)) Tr x N1 N2) as (_ & ->). reflexivity. }
      apply G; auto. }
    rewrite SM, !inside_wn. destruct op; cbn [wanted map zsum fold_right]; unfold expected; cbn [fst snd];
    destruct (Z.eqb_spec (wn p1 x) 0), (Z.eqb_spec (wn p2 x) 0); cbn [negb andb orb times_around]; lia.
Qed.

Theorem region_crossing mk (p1 p2 : pline R) op idx eps boxes bs o1 o2 : makes_index mk ->
  index_of boxes idx -> length boxes = length (spec_segs (vtx p1) (is_closed p1)) ->
  valid_loop p1 -> valid_loop p2 -> 0 < eps -> clear_pline eps p1 -> clear_pline eps p2 -> simple_loop p1 o1 -> simple_loop p2 o2 ->
  find_intersects p1 p2 idx eps = Ret (bs, []) -> bs <> [] -> clean_crossing eps p1 p2 bs ->
  exists r, polyline_boolean mk p1 p2 op idx eps = Ret r
  /\ (forall l, In l (br_pos r ++ br_neg r) -> valid_loop (brp_pline l) /\ pline_ok (brp_pline l)
      /\ forall q, on_path (brp_pline l) q -> on_path p1 q \/ on_path p2 q)
  /\ forall x, ~ on_path p1 x -> ~ on_path p2 x ->
     wind_together (map brp_pline (br_pos r ++ br_neg r)) x (once o2 * times_around op (inside p1 x) (inside p2 x))%Z.
Proof.
  intros MK IO BL V1 V2' epos K1 K2 S1 S2 EF NE CC.
  destruct (region_edges mk p1 p2 op idx eps boxes bs o1 o2 MK IO BL V1 V2' epos K1 K2 S1 S2 EF NE CC) as (r & E & _ & L & _ & W).
  exists r. split; [exact E|]. split; [|exact W]. intros l Il. destruct (L l Il) as (L1 & L2 & _ & w & _ & L3). split; [exact L1|]. split; [exact L2|].
  intros q On. apply (L3 q On).
Qed.
