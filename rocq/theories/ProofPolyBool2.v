(** Examples of polygons that clearly cross or clearly do not meet (C63). *)
From Coq Require Import Reals ZArith Bool List Arith Lra Lia Psatz.
From Verif Require Import Num RNum Res ModelMath ModelSeg ModelPline ModelView ModelIndex ModelIntr ModelSegIntr ModelIntersects ModelBoolean.
From Verif Require Import Spec SpecPline SpecGeom SpecBox SpecIntr SpecWinding SpecView SpecPruneR SpecPrune SpecRegion SpecBoolean SpecIndex SpecIntersects SpecPolyOff SpecPolyBool.
From Verif Require Import ProofR ProofBase ProofIter ProofArc ProofIntr ProofIndex2 ProofRegion12 ProofNest ProofPolyBool.
Import ListNotations.
Local Open Scope R_scope.

Lemma beside_ex s a b c e : s = 1 \/ s = -1 -> dist a b * dist a b <= 10000 ->
  (forall w, w = c \/ w = e -> 1 / 100 <= s * cross (vec a b) (vec a w)) -> beside (1 / 100000) a b c e.
Proof.
  intros Hs D H. exists s. split; [exact Hs|]. intros w Hw. specialize (H w Hw). split; [lra|].
  assert (0 <= dist a b) by apply sqrt_pos. assert (dist a b <= 100) by nra. lra.
Qed.

Ltac beside_with s := apply (beside_ex s); [lra|rewrite ProofIntr.dist_sqr; unfold pos; cbn [px py vx vy]; lra
  |intros w [-> | ->]; unfold cross, vec, pos; cbn [px py vx vy]; lra].
Ltac besides := first [left; beside_with 1|left; beside_with (-1)|right; left; beside_with 1|right; left; beside_with (-1)].
Ltac away := intros v Hv; cbn in Hv; repeat (destruct Hv as [<-|Hv]; [cbn [px py vx vy]; first [left; rabs_lra|right; rabs_lra]|]); destruct Hv.
Ltac crosses q s t := right; right; exists q; split; [split; [unfold cross, vec, pos; cbn [px py vx vy]; rabs_lra|];
  exists s, t; split; [lra|]; split; [lra|]; split; unfold line_pt, pos; cbn [px py vx vy]; f_equal; lra|split; away].

Lemma tri_pair : clear_pair (1 / 100000) tri1 tri2.
Proof.
  pose proof tri_clear as (C1 & C2). unfold tri_eps in *.
  split; [split; [reflexivity|intros v H; cbn in H; repeat (destruct H as [<-|H]; [reflexivity|]); destruct H]|].
  split; [split; [reflexivity|intros v H; cbn in H; repeat (destruct H as [<-|H]; [reflexivity|]); destruct H]|].
  split; [exact C1|]. split; [exact C2|]. split.
  - intros a b c e I J. cbn in I, J. destruct I as [[= <- <-]|[[= <- <-]|[[= <- <-]|[]]]]; destruct J as [[= <- <-]|[[= <- <-]|[[= <- <-]|[]]]];
      try besides.
    + crosses (V2 0 1) (5 / 6) (1 / 2).
    + crosses (V2 0 2) (2 / 3) (1 / 2).
  - assert (H : forall q, on_path tri1 q -> on_path tri2 q -> q = V2 0 1 \/ q = V2 0 2).
    { intros q (v1 & v2 & I & t & Ht & At) (u1 & u2 & J & u & Hu & Au). cbn in I, J.
      destruct I as [[= <- <-]|[[= <- <-]|[[= <- <-]|[]]]]; destruct J as [[= <- <-]|[[= <- <-]|[[= <- <-]|[]]]];
        apply at_line in At as (X & Y); apply at_line in Au as (X' & Y'); try (exfalso; lra).
      - left. symmetry. apply same_v2; lra.
      - right. symmetry. apply same_v2; lra. }
    intros q q' A B A' B'. destruct (H q A B) as [-> | ->], (H q' A' B') as [-> | ->]; cbn [vx vy]; auto; right; right; rabs_lra.
Qed.

Definition out_square : pline R := PL [Vtx 0 0 0; Vtx 4 0 0; Vtx 4 4 0; Vtx 0 4 0] true.
Definition in_square : pline R := PL [Vtx 1 1 0; Vtx 1 3 0; Vtx 3 3 0; Vtx 3 1 0] true.

Lemma squares_clear : clear_pline (1 / 100000) out_square /\ clear_pline (1 / 100000) in_square.
Proof.
  split; intros v1 v2 H; simpl in H;
    repeat (destruct H as [H|H]; [injection H as <- <-; split; [split; [left; reflexivity|intros E; now destruct E]|cbn [px py]]|]);
      try contradiction.
  all: first [left; rabs_lra|right; rabs_lra].
Qed.

Lemma squares_simple : simple_loop out_square CounterClockwise /\ simple_loop in_square Clockwise.
Proof.
  split; (split; [unfold orientation, area, out_square, in_square; cbn [is_closed negb]; rewrite iter_segments_spec; cbn [rbind spec_segs];
    cbn -[bulge_is_zero]; rewrite !zero_line; cbn|]).
  - rewrite (proj2 (rltb_false _ _)) by lra. reflexivity.
  - intros x w N; unfold winding_number; rewrite iter_segments_spec; unfold out_square, in_square; cbn -[bulge_is_zero process_line_winding]; rewrite !zero_line;
    intros [= <-]; unfold process_line_winding, is_left, is_left_or_equal, v2perp_dot, v2sub, pos; cbn.
    destruct x as [x y]; cbn [vx vy]; rcases; auto; exfalso; lra.
  - rewrite (proj2 (rltb_true _ _)) by lra. reflexivity.
  - intros x w N; unfold winding_number; rewrite iter_segments_spec; unfold out_square, in_square; cbn -[bulge_is_zero process_line_winding]; rewrite !zero_line;
    intros [= <-]; unfold process_line_winding, is_left, is_left_or_equal, v2perp_dot, v2sub, pos; cbn.
    destruct x as [x y]; cbn [vx vy]; rcases; auto; exfalso; lra.
Qed.

Lemma squares_apart q : ~ (on_path out_square q /\ on_path in_square q).
Proof.
  intros ((v1 & v2 & I & t & Ht & At) & (u1 & u2 & J & u & Hu & Au)). cbn in I, J.
  destruct I as [[= <- <-]|[[= <- <-]|[[= <- <-]|[[= <- <-]|[]]]]]; destruct J as [[= <- <-]|[[= <- <-]|[[= <- <-]|[[= <- <-]|[]]]]];
    apply at_line in At as (X & Y); apply at_line in Au as (X' & Y'); lra.
Qed.

Lemma squares_pair : clear_pair (1 / 100000) out_square in_square.
Proof.
  pose proof squares_clear as (C1 & C2).
  split; [split; [reflexivity|intros v H; cbn in H; repeat (destruct H as [<-|H]; [reflexivity|]); destruct H]|].
  split; [split; [reflexivity|intros v H; cbn in H; repeat (destruct H as [<-|H]; [reflexivity|]); destruct H]|].
  split; [exact C1|]. split; [exact C2|]. split.
  - intros a b c e I J. cbn in I, J. destruct I as [[= <- <-]|[[= <- <-]|[[= <- <-]|[[= <- <-]|[]]]]]; destruct J as [[= <- <-]|[[= <- <-]|[[= <- <-]|[[= <- <-]|[]]]]]; besides.
  - intros q q' A B. exfalso. exact (squares_apart q (conj A B)).
Qed.

(** All examples in one statement. *)
Lemma pair_examples :
  (let p1 := PL [Vtx 0 0 0; Vtx 6 0 0; Vtx 0 6 0] true in let p2 := PL [Vtx (-2) 1 0; Vtx 2 1 0; Vtx (-2) 3 0] true in
   clear_pair (1 / 100000) p1 p2 /\ simple_loop p1 CounterClockwise /\ simple_loop p2 CounterClockwise /\ common_point p1 p2 (BI 2 0 (V2 0 1)))
  /\ (let p1 := PL [Vtx 0 0 0; Vtx 4 0 0; Vtx 4 4 0; Vtx 0 4 0] true in let p2 := PL [Vtx 1 1 0; Vtx 1 3 0; Vtx 3 3 0; Vtx 3 1 0] true in
   clear_pair (1 / 100000) p1 p2 /\ simple_loop p1 CounterClockwise /\ simple_loop p2 Clockwise /\ forall q, ~ (on_path p1 q /\ on_path p2 q)).
Proof.
  split; cbv zeta.
  - split; [exact tri_pair|]. split; [apply tri_simple|]. split; [apply tri_simple|].
    exists (Vtx 0 6 0), (Vtx 0 0 0), (Vtx (-2) 1 0), (Vtx 2 1 0). split; [reflexivity|]. split; [reflexivity|]. cbn [bi_point].
    split; [exists (5 / 6)|exists (1 / 2)]; (split; [lra|]); left; (split; [reflexivity|]); unfold line_pt, pos; cbn [px py vx vy]; f_equal; lra.
  - split; [exact squares_pair|]. split; [apply squares_simple|]. split; [apply squares_simple|]. exact squares_apart.
Qed.

(** The difference of the squares is the frame between them. *)
Lemma squares_not : exists r, polyline_boolean (@list_index R RNum) out_square in_square BNot
    (list_index (map (fun s => seg_fast_approx_bounding_box (fst s) (snd s)) (spec_segs (vtx out_square) true))) (1 / 100000) = Ret r
  /\ region (fun p y => inside p y = true) r (V2 (1 / 2) 2) /\ ~ region (fun p y => inside p y = true) r (V2 2 2).
Proof.
  destruct (polygons_region out_square in_square (1 / 100000) ltac:(lra) squares_pair (@list_index R RNum) BNot _ _ CounterClockwise Clockwise list_index_ok (list_index_ok _) eq_refl) as (r & E & _ & _ & H);
    try (split; [cbn; lia|reflexivity]); try apply squares_simple.
  exists r. split; [exact E|]. specialize (H squares_apart).
  assert (W : inside out_square (V2 (1 / 2) 2) = true /\ inside in_square (V2 (1 / 2) 2) = false /\ inside in_square (V2 2 2) = true).
  { unfold inside, winding_number. rewrite !iter_segments_spec. unfold out_square, in_square. cbn -[bulge_is_zero process_line_winding]. rewrite !zero_line.
    unfold process_line_winding, is_left, is_left_or_equal, perp_dot_test_value, pos. cbn. repeat split; rcases; cbn; auto; exfalso; lra. }
  destruct W as (W1 & W2 & W3).
  assert (N : forall x, x = V2 (1 / 2) 2 \/ x = V2 2 2 -> ~ on_path out_square x /\ ~ on_path in_square x).
  { intros x Hx. split; intros (v1 & v2 & I & t & Ht & At); cbn in I;
    destruct I as [[= <- <-]|[[= <- <-]|[[= <- <-]|[[= <- <-]|[]]]]]; apply at_line in At as (X & Y); destruct Hx as [-> | ->]; cbn in X, Y; lra. }
  destruct (N _ (or_introl eq_refl)) as (A1 & A2). destruct (N _ (or_intror eq_refl)) as (B1 & B2).
  split; [apply (H _ A1 A2)|intros R0; apply (H _ B1 B2) in R0]; cbn [operation] in *.
  - rewrite W1, W2. split; [reflexivity|discriminate].
  - destruct R0 as (_ & R0). apply R0. exact W3.
Qed.
