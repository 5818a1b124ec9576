(** The inside and the outside of a loop that passes no point twice are each in one piece (C67). *)
From Coq Require Import Reals ZArith Bool List Arith Lra Lia Psatz Classical.
From Verif Require Import Num RNum Res ModelMath ModelSeg ModelPline Spec SpecGeom SpecBox SpecWinding SpecView SpecBoolean SpecJordan.
From Verif Require Import ProofR ProofBase ProofIter ProofArc ProofArc2 ProofWalk ProofWinding ProofWinding6 ProofWinding7 ProofRegion3 ProofRegion8 ProofNest ProofJordan ProofJordan2 ProofJordan5 ProofJordan6 ProofConn ProofConn2.
Import ListNotations.
Local Open Scope R_scope.

Lemma joined_winding p x y : pline_ok p -> joined p x y -> winding_number p x = winding_number p y.
Proof. intros Ok J. induction J as [x|x y z J IH L]; [reflexivity|]. rewrite IH. now apply winding_straight. Qed.

Lemma joined_trans p x y z : joined p x y -> joined p y z -> joined p x z.
Proof. intros J J'. induction J' as [y|y z w J' IH L]; [exact J|]. eapply joined_line; [apply IH, J|exact L]. Qed.

Lemma line_pt_back x y t : line_pt x y t = line_pt y x (1 - t).
Proof. unfold line_pt. apply vec2_eq; cbn [vx vy]; ring. Qed.

Lemma joined_steady p x : pline_ok p -> steady (spec_segs (vtx p) (is_closed p)) (joined p x).
Proof.
  intros Ok q Oq. destruct (offs_room _ q (oks_l p Ok) Oq) as (e & He & K). exists e. split; [exact He|]. intros q' D.
  assert (L : forall t, 0 <= t <= 1 -> ~ on_path p (line_pt q q' t)).
  { intros t Ht. apply offs_path. intros s I O. specialize (K s _ I O). pose proof (dist_line q q' t Ht). lra. }
  split; intros J; (eapply joined_line; [exact J|]).
  - exact L.
  - intros t Ht. rewrite line_pt_back. apply L. lra.
Qed.

Theorem one_piece p x y : pline_ok p -> valid_loop p -> passes_once p -> ~ on_path p x -> ~ on_path p y ->
  (winding_number p x = winding_number p y <-> joined p x y).
Proof.
  intros Ok Vl Po Ox Oy. split; [|now apply joined_winding]. intros E. rewrite !winding_wn in E. injection E as E.
  apply (same_linked p Ok Vl Po x y Ox Oy E (joined p x)); [now apply joined_steady|constructor].
Qed.

Lemma ex_half_reach q : on_path ex_half q -> -1 <= vx q <= 1 /\ -1 <= vy q <= 0.
Proof.
  intros (a & b & I & (t & Ht & Hq)). rewrite ex_half_segs in I. pose proof PI_pos. destruct I as [I|[I|[]]]; injection I as <- <-.
  - apply ex_half_arc in Hq. rewrite Hq. cbn [vx vy]. pose proof (COS_bound (t * PI)). pose proof (SIN_bound (t * PI)).
    assert (0 <= sin (t * PI)) by (apply sin_ge_0; nra). lra.
  - apply seg_at_line in Hq; [|reflexivity]. rewrite Hq. unfold line_pt, pos. cbn [px py vx vy]. lra.
Qed.

Lemma ex_half_around : joined ex_half (V2 0 1) (V2 0 (-2)).
Proof.
  apply (joined_line _ _ (V2 2 (-2))); [apply (joined_line _ _ (V2 2 1)); [apply (joined_line _ _ (V2 0 1)); [constructor|]|]|]; intros t Ht On; apply ex_half_reach in On;
  unfold line_pt in On; cbn [vx vy] in On; lra.
Qed.

Lemma ex_half_cut : ~ joined ex_half (V2 0 (-1 / 2)) (V2 2 1).
Proof.
  intros J. apply joined_winding in J; [|apply ex_half_ok]. rewrite ex_half_inside, winding_wn in J. injection J as J.
  rewrite (wn_right ex_half (V2 2 1) ex_half_ok ex_half_loop) in J; [discriminate|]. intros q On. apply ex_half_reach in On. cbn [vx]. lra.
Qed.
