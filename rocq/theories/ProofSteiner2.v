(** The area and the length of the outward offset of a convex polygon (C74). *)
From Coq Require Import Reals ZArith Bool List Arith Lra Lia Psatz Classical.
From Verif Require Import Num RNum Res ModelMath ModelIntr ModelSeg ModelPline ModelIndex ModelOffset.
From Verif Require Import Spec SpecPline SpecGeom SpecIntr SpecOffset SpecOffsetJoin SpecIndex SpecBoolean SpecPolyOff SpecRound.
From Verif Require Import ProofR ProofBase ProofIntr ProofArc ProofMeasure ProofConvex ProofRound3 ProofRound4 ProofSteiner.
Import ListNotations.
Local Open Scope R_scope.

(** ** Polygons *)
Lemma polygon_ok_ ps : pline_ok (polygon ps).
Proof.
  intros v w I. unfold polygon in I. cbn [vtx is_closed] in I. rewrite (spec_segs_map (fun q => vertex_at q 0)) in I. apply in_map_iff in I as ((a, b) & E & _). injection E as <- <-.
  split; [left; reflexivity|]. intros N. now cbn in N.
Qed.
Lemma polygon_area ps : area (polygon ps) = Ret (rsum (map (fun ab => cross (fst ab) (snd ab)) (spec_segs ps true)) / 2).
Proof.
  rewrite area_sum by (reflexivity || apply pline_ok_bulges, polygon_ok_). f_equal. f_equal. unfold data_fun, polygon. cbn [vtx is_closed].
  rewrite (spec_segs_map (fun q => vertex_at q 0)), !map_map. f_equal. apply map_ext. intros (a, b). cbn [fst snd]. rewrite line_area2 by reflexivity. now destruct a, b.
Qed.
Lemma polygon_length ps : no_tiny (polygon ps) -> path_length (polygon ps) = Ret (rsum (map (fun ab => dist (fst ab) (snd ab)) (spec_segs ps true))).
Proof.
  intros NT. rewrite path_length_true by (apply polygon_ok_ || exact NT). f_equal. unfold true_length, polygon. cbn [vtx is_closed].
  rewrite (spec_segs_map (fun q => vertex_at q 0)), !map_map. f_equal. apply map_ext. intros (a, b). cbn [fst snd]. rewrite line_len by reflexivity. now destruct a, b.
Qed.

Section Steiner.
Variables (s e eps m : R) (ps : list (vec2 R)) (vws : list (vertex R * vertex R)).
Hypothesis Hs : s = 1 \/ s = -1.
Hypothesis He : 0 < e.
Hypothesis Hm : 0 < m.
Hypothesis Ro : roomy s e m ps.
Hypothesis Co : coarse eps e m.
Hypothesis CD : forall a b, In (a, b) (spec_segs ps true) -> clear_direction a b.
Hypothesis RC : rounded_corners ps (- s * e) eps vws.
Let n := length ps.
Let P := rP ps.
Let O := rO s ps.
Let D := rD ps.
Let V := rV ps vws.
Let W := rW ps vws.
Let th (i : nat) : R := s * sweep (pbulge (V i)).

Lemma side_sum (f : vec2 R * vec2 R -> R) : rsum (map f (spec_segs ps true)) = sumn n (fun i => f (P i, P (i + 1)%nat)).
Proof.
  replace n with (length (spec_segs ps true)) by exact (side_len s e m ps Ro). apply sumn_list. intros i x E. pose proof (side_nth s e m ps Ro i) as S. fold n in S.
  assert (L : (i < n)%nat) by (unfold n; rewrite <- (side_len s e m ps Ro); apply nth_error_Some; congruence).
  rewrite Nat.mod_small, E in S by exact L. injection S as ->. reflexivity.
Qed.

Lemma raw_sum (f : vertex R * vertex R -> R) : rsum (map f (spec_segs (vtx (round_path vws)) true)) = sumn n (fun i => f (W i, V i) + f (V i, W (i + 1)%nat)).
Proof.
  pose proof (raw_seg_len s e eps m ps vws Ro RC) as L. fold n in L.
  rewrite (sumn_list f (fun k => f (nth k (spec_segs (vtx (round_path vws)) true) (v0, v0)))) by (intros i x E; now rewrite (nth_error_nth _ _ _ E)).
  rewrite L, sumn_twice. apply sumn_ext. intros i Hi.
  rewrite (nth_error_nth _ _ _ (raw_line s e eps m ps vws Ro RC i Hi)), (nth_error_nth _ _ _ (raw_arc s e eps m ps vws Ro RC i Hi)). reflexivity.
Qed.

Lemma P_n : P n = P 0%nat.
Proof. pose proof (proj1 Ro) as N3. fold n in N3. unfold P. apply rP_mod. fold n. rewrite Nat.mod_same, Nat.mod_0_l by lia. reflexivity. Qed.
Lemma O_n : O n = O 0%nat.
Proof. pose proof (proj1 Ro) as N3. fold n in N3. unfold O. apply (rO_mod s e m ps Ro). fold n. rewrite Nat.mod_same, Nat.mod_0_l by lia. reflexivity. Qed.

Lemma O_side i : cross (O i) (vec (P i) (P (i + 1)%nat)) = s * D i.
Proof.
  pose proof (rD_pos s e m ps Ro i) as Dp. pose proof (dist_sqr (P i) (P (i + 1)%nat)) as Q. fold (rD ps i) in Q. fold D in Q, Dp. unfold cross, O, rO, rN, vec. fold P D. cbn [vx vy].
  assert (E : (vx (P (i + 1)%nat) - vx (P i)) * (vx (P (i + 1)%nat) - vx (P i)) + (vy (P (i + 1)%nat) - vy (P i)) * (vy (P (i + 1)%nat) - vy (P i)) = D i * D i).
  { transitivity (dist (P i) (P (i + 1)%nat) * dist (P i) (P (i + 1)%nat)); [rewrite dist_sqr; ring|reflexivity]. }
  transitivity (s * ((vx (P (i + 1)%nat) - vx (P i)) * (vx (P (i + 1)%nat) - vx (P i)) + (vy (P (i + 1)%nat) - vy (P i)) * (vy (P (i + 1)%nat) - vy (P i))) / D i); [field; lra|].
  rewrite E. field. lra.
Qed.

Theorem steiner_area A L : area (polygon ps) = Ret A -> L = rsum (map (fun ab => dist (fst ab) (snd ab)) (spec_segs ps true)) ->
  area (round_path vws) = Ret (A + s * (e * L + PI * (e * e))).
Proof.
  intros EA EL. rewrite polygon_area, side_sum in EA. injection EA as EA. rewrite side_sum in EL. cbn [fst snd] in EA, EL.
  rewrite area_sum by (reflexivity || exact (pline_ok_bulges _ (raw_ok s e eps m ps vws Hs He Hm Ro Co CD RC))). f_equal. unfold data_fun. cbn [round_path is_closed]. rewrite map_map. rewrite raw_sum.
  rewrite (sumn_ext n _ (fun i => cross (P i) (P (i + 1)%nat) + (s * e * D i + (e * e * s * th i + e * (cross (P (i + 1)%nat) (O (i + 1)%nat) + - cross (P (i + 1)%nat) (O i)))))).
  2:{ intros i Hi. destruct (rc_data s e eps m ps vws Hs He Ro CD RC i) as (_ & _ & (al & AR) & _). fold V W P in AR.
    rewrite line_area2 by (exact (rW_bulge s e eps m ps vws Hs He Ro CD RC i)).
    assert (NZ : pbulge (V i) <> 0) by exact (r_nz s e eps m ps vws Hs He Ro Co CD RC i). rewrite (arc_area _ _ _ _ _ NZ AR).
    assert (PV : pos (V i) = moved (P (i + 1)%nat) (O i) e) by exact (rV_pos s e eps m ps vws Hs He Ro CD RC i).
    assert (PW : forall k, pos (W k) = moved (P k) (O k) e) by exact (rW_pos s e eps m ps vws Hs He Ro CD RC).
    assert (SW : sweep (pbulge (V i)) = s * th i). { unfold th. rewrite <- Rmult_assoc, (st_ss s e eps m ps vws Hs Ro RC). ring. }
    rewrite !PW, PV, SW. pose proof (O_side i) as OS. transitivity (cross (P i) (P (i + 1)%nat) + e * cross (O i) (vec (P i) (P (i + 1)%nat)) + (e * e * (s * th i) + e * (cross (P (i + 1)%nat) (O (i + 1)%nat) - cross (P (i + 1)%nat) (O i)))).
    { unfold cross, vec, moved. cbn [vx vy]. ring. }
    rewrite OS. ring. }
  rewrite !sumn_plus, !sumn_scale, sumn_plus.
  assert (T : sumn n th = 2 * PI) by exact (turning s e eps m ps vws Hs He Hm Ro Co CD RC).
  assert (N : sumn n (fun i => cross (P (i + 1)%nat) (O (i + 1)%nat)) = sumn n (fun i => cross (P i) (O i))).
  { apply (sumn_next n (fun i => cross (P i) (O i))). now rewrite P_n, O_n. }
  assert (X : sumn n (fun i => cross (P (i + 1)%nat) (O (i + 1)%nat)) + sumn n (fun i => - cross (P (i + 1)%nat) (O i)) = s * L).
  { rewrite N, <- sumn_plus, EL, <- sumn_scale. apply sumn_ext. intros i _. change (dist (P i) (P (i + 1)%nat)) with (D i). rewrite <- O_side. unfold cross, vec. cbn [vx vy]. ring. }
  assert (EL' : sumn n D = L) by (rewrite EL; reflexivity).
  change (fun x => th x) with th. change (fun x => D x) with D. rewrite X, T, EL', <- EA. field.
Qed.

Theorem steiner_length L : no_tiny (polygon ps) -> path_length (polygon ps) = Ret L -> path_length (round_path vws) = Ret (L + 2 * PI * e).
Proof.
  intros NT EL. rewrite polygon_length in EL by exact NT. injection EL as EL. rewrite side_sum in EL. cbn [fst snd] in EL.
  assert (PV : forall i, pos (V i) = moved (P (i + 1)%nat) (O i) e) by exact (rV_pos s e eps m ps vws Hs He Ro CD RC).
  assert (PW : forall k, pos (W k) = moved (P k) (O k) e) by exact (rW_pos s e eps m ps vws Hs He Ro CD RC).
  rewrite path_length_true.
  - f_equal. unfold true_length. cbn [round_path is_closed]. rewrite raw_sum. cbn [fst snd].
    rewrite (sumn_ext n _ (fun i => D i + e * th i)).
    2:{ intros i Hi. destruct (rc_data s e eps m ps vws Hs He Ro CD RC i) as (_ & _ & (al & AR) & _). fold V W P in AR.
      rewrite line_len by (exact (rW_bulge s e eps m ps vws Hs He Ro CD RC i)). assert (NZ : pbulge (V i) <> 0) by exact (r_nz s e eps m ps vws Hs He Ro Co CD RC i). rewrite (arc_len _ _ _ _ _ NZ AR).
      rewrite PV, PW. assert (T : 0 < th i < PI) by exact (th_range s e eps m ps vws Hs He Hm Ro Co CD RC i). f_equal.
      - unfold D, rD. fold P. apply dist_eq_sqr; [apply ProofIntr.dist_pos|]. rewrite dist_sqr. unfold moved. cbn [vx vy]. ring.
      - f_equal. unfold th in *. fold V. destruct Hs as [E|E]; rewrite E in *; [rewrite Rabs_pos_eq; lra|rewrite Rabs_left1; lra]. }
    rewrite sumn_plus, sumn_scale. assert (T : sumn n th = 2 * PI) by exact (turning s e eps m ps vws Hs He Hm Ro Co CD RC).
    assert (EL' : sumn n D = L) by (rewrite <- EL; reflexivity). change (fun x => th x) with th. change (fun x => D x) with D. rewrite T, EL'. ring.
  - exact (raw_ok s e eps m ps vws Hs He Hm Ro Co CD RC).
  - intros v w I. apply In_nth_error in I as (k & E). apply (raw_seg_cases s e eps m ps vws Ro RC) in E as (i & Hi & [(_ & -> & ->)|(_ & -> & ->)]).
    + intros (T1 & T2 & _). apply (NT (vertex_at (P i) 0) (vertex_at (P (i + 1)%nat) 0)).
      * unfold polygon. cbn [vtx is_closed]. rewrite (spec_segs_map (fun q => vertex_at q 0)). apply in_map_iff. exists (P i, P (i + 1)%nat). split; [reflexivity|]. apply (side_in s e m ps Ro).
      * specialize (PV i). specialize (PW i). apply (f_equal vx) in PV as X1, PW as X2. apply (f_equal vy) in PV as Y1, PW as Y2. cbn [pos vx vy moved] in *. fold V W in T1, T2. rewrite X1, X2 in T1. rewrite Y1, Y2 in T2.
        unfold tiny_seg, vertex_at. cbn [px py pbulge]. split; [|split].
        -- replace (vx (P i) - vx (P (i + 1)%nat)) with (vx (P i) + e * vx (O i) - (vx (P (i + 1)%nat) + e * vx (O i))) by ring. exact T1.
        -- replace (vy (P i) - vy (P (i + 1)%nat)) with (vy (P i) + e * vy (O i) - (vy (P (i + 1)%nat) + e * vy (O i))) by ring. exact T2.
        -- rewrite Rminus_0_r, Rabs_R0. lra.
    + intros (_ & _ & T). rewrite (rW_bulge s e eps m ps vws Hs He Ro CD RC), Rminus_0_r in T. pose proof (r_bulge s e eps m ps vws Hs He Ro Co CD RC i). lra.
Qed.
End Steiner.
