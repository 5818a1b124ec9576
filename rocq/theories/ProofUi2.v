(** Proofs about what is drawn and left out (C62). *)
From Coq Require Import Reals Lra List Bool Arith Lia.
From Verif Require Import Num RNum Res ModelMath ModelSeg ModelPline ModelIndex ModelShape ModelUi.
From Verif Require Import Spec SpecGeom SpecBox SpecIndex SpecShape SpecUi ProofIter ProofR ProofArc ProofBox2 ProofBox3.
Import ListNotations.

Section Cull.
Context {T : Type} {N : Num T}.
Implicit Types b : aabb T.

Definition seen b (e : path_event T) : bool :=
  match e with
  | PELine from to => rect_intersects b (points_box from [to])
  | PEQuadratic from ctrl to => rect_intersects b (points_box from [ctrl; to])
  | PECubic from ctrl1 ctrl2 to => rect_intersects b (points_box from [ctrl1; ctrl2; to])
  | _ => true
  end.
Definition cut_event b (e : path_event T) : list (path_event T) :=
  if seen b e then [e] else match piece_ends e with Some (a, z) => [PEEnd a a false; PEBegin z] | None => [e] end.

Lemma collect_queued fuel b l e : cull_collect (S fuel) b (CS l (Some e)) = let! rest := cull_collect fuel b (CS l None) in Ret (e :: rest).
Proof. reflexivity. Qed.

Lemma collect_eq b l : forall fuel, (2 * length l + 1 <= fuel)%nat -> cull_collect fuel b (CS l None) = Ret (flat_map (cut_event b) l).
Proof.
  induction l as [|e l IH]; intros fuel H.
  - destruct fuel as [|f]; [cbn in H; lia|]. reflexivity.
  - cbn [length] in H. destruct fuel as [|[|f]]; [lia|lia|].
    assert (I1 := IH (S f) ltac:(lia)). assert (I2 := IH f ltac:(lia)).
    cbn [flat_map]. unfold cut_event at 1.
    destruct e as [p|p q|p c q|p c d q|z a cl]; cbn [seen]; remember (S f) as g eqn:Eg; cbn [cull_collect cull_next cs_queued cs_events].
    + rewrite I1. reflexivity.
    + destruct (rect_intersects b _); cbn [negb]; [rewrite I1; reflexivity|]. rewrite Eg, collect_queued, I2. reflexivity.
    + destruct (rect_intersects b _); cbn [negb]; [rewrite I1; reflexivity|]. rewrite Eg, collect_queued, I2. reflexivity.
    + destruct (rect_intersects b _); cbn [negb]; [rewrite I1; reflexivity|]. rewrite Eg, collect_queued, I2. reflexivity.
    + rewrite I1. reflexivity.
Qed.

Lemma cull_eq b path : cull_path path b = Ret (flat_map (cut_event b) path).
Proof. apply collect_eq. lia. Qed.

Lemma cut_pieces b path : filter is_piece (flat_map (cut_event b) path) = filter (seen b) (filter is_piece path).
Proof.
  induction path as [|e l IH]; [reflexivity|]. cbn [flat_map]. rewrite filter_app, IH. unfold cut_event.
  destruct e; cbn [filter is_piece piece_ends seen]; try reflexivity; destruct (rect_intersects b _); reflexivity.
Qed.

Lemma cut_ordered b path : forall pen pen', option_map fst pen = option_map fst pen' -> ordered false pen path -> ordered false pen' (flat_map (cut_event b) path).
Proof.
  induction path as [|e l IH]; intros pen pen' E H.
  - cbn in *. subst. now destruct pen'.
  - cbn [flat_map]. unfold cut_event.
    assert (X : forall a z, piece_ends e = Some (a, z) -> (exists s, pen = Some (a, s) /\ ordered false (Some (z, s)) l) ->
              (exists s, pen' = Some (a, s) /\ ordered false (Some (z, s)) (flat_map (cut_event b) l))
              /\ ordered false pen' ([PEEnd a a false; PEBegin z] ++ flat_map (cut_event b) l)).
    { intros a z _ (s & -> & G). cbn in E. destruct pen' as [[a' s']|]; cbn in E; [|discriminate]. injection E as <-.
      split; [exists s'; split; [reflexivity|]; now apply (IH (Some (z, s)))|].
      cbn. split; [exists s'; split; [reflexivity|discriminate]|]. split; [reflexivity|]. now apply (IH (Some (z, s))). }
    destruct e as [p|p q|p c q|p c d q|z a cl]; cbn [seen piece_ends] in *.
    + cbn in *. destruct H as [-> H]. destruct pen'; [discriminate|]. split; [reflexivity|]. now apply (IH (Some (p, p))).
    + cbn in H. destruct H as (s & a & z & E1 & E2 & G). injection E1 as <- <-.
      destruct (X p q eq_refl) as [(s' & -> & G') K]; [now exists s|].
      destruct (rect_intersects b _); [|exact K]. cbn. now exists s', p, q.
    + cbn in H. destruct H as (s & a & z & E1 & E2 & G). injection E1 as <- <-.
      destruct (X p q eq_refl) as [(s' & -> & G') K]; [now exists s|].
      destruct (rect_intersects b _); [|exact K]. cbn. now exists s', p, q.
    + cbn in H. destruct H as (s & a & z & E1 & E2 & G). injection E1 as <- <-.
      destruct (X p q eq_refl) as [(s' & -> & G') K]; [now exists s|].
      destruct (rect_intersects b _); [|exact K]. cbn. now exists s', p, q.
    + cbn in *. destruct H as ((s & -> & _) & H). destruct pen' as [[z' s']|]; cbn in E; [|discriminate]. injection E as <-.
      split; [exists s'; split; [reflexivity|discriminate]|]. now apply (IH None).
Qed.
End Cull.

Local Open Scope R_scope.

Lemma fold_min_ge l x m : m <= fold_left Rmin l x <-> m <= x /\ Forall (fun y => m <= y) l.
Proof.
  revert x. induction l as [|y l IH]; intros x; cbn [fold_left].
  - split; [intros; split; [assumption|constructor]|easy].
  - rewrite IH. split.
    + intros [H F]. pose proof (Rmin_l x y). pose proof (Rmin_r x y). split; [lra|]. constructor; [lra|exact F].
    + intros [H F]. inversion F; subst. split; [now apply Rmin_glb|assumption].
Qed.
Lemma fold_min_gt l x m : m < fold_left Rmin l x <-> m < x /\ Forall (fun y => m < y) l.
Proof.
  revert x. induction l as [|y l IH]; intros x; cbn [fold_left].
  - split; [intros; split; [assumption|constructor]|easy].
  - rewrite IH. split.
    + intros [H F]. pose proof (Rmin_l x y). pose proof (Rmin_r x y). split; [lra|]. constructor; [lra|exact F].
    + intros [H F]. inversion F; subst. split; [now apply Rmin_glb_lt|assumption].
Qed.
Lemma fold_max_lt l x m : fold_left Rmax l x < m <-> x < m /\ Forall (fun y => y < m) l.
Proof.
  revert x. induction l as [|y l IH]; intros x; cbn [fold_left].
  - split; [intros; split; [assumption|constructor]|easy].
  - rewrite IH. split.
    + intros [H F]. pose proof (Rmax_l x y). pose proof (Rmax_r x y). split; [lra|]. constructor; [lra|exact F].
    + intros [H F]. inversion F; subst. split; [now apply Rmax_lub_lt|assumption].
Qed.

Lemma rect_apart (b : aabb R) p l : rect_intersects b (points_box p l) = true <-> ~ apart b (p :: l).
Proof.
  unfold rect_intersects, points_box, apart. cbn [bmin_x bmin_y bmax_x bmax_y]. rnum.
  rewrite !andb_true_iff, !rleb_true. rewrite !Forall_cons_iff.
  rewrite <- (Forall_map vx (fun x => x < bmin_x b)), <- (Forall_map vx (fun x => bmax_x b < x)), <- (Forall_map vy (fun x => x < bmin_y b)), <- (Forall_map vy (fun x => bmax_y b < x)).
  rewrite <- !fold_max_lt, <- !fold_min_gt. lra.
Qed.

Lemma seen_apart (b : aabb R) e : is_piece e = true -> seen b e = true <-> ~ apart b (piece_points e).
Proof. intros H. destruct e; try discriminate; cbn [seen piece_points]; apply rect_apart. Qed.

Lemma kept b path : exists out f, cull_path path b = Ret out
  /\ filter is_piece out = filter f (filter is_piece path)
  /\ (forall e : path_event R, is_piece e = true -> f e = true <-> ~ apart b (piece_points e)).
Proof.
  exists (flat_map (cut_event b) path), (seen b). split; [apply cull_eq|]. split; [apply cut_pieces|]. intros e H. now apply seen_apart.
Qed.

Lemma cull_ordered {T} {N : Num T} b (path : list (path_event T)) : ordered false None path ->
  exists out, cull_path path b = Ret out /\ ordered false None out.
Proof. intros H. exists (flat_map (cut_event b) path). split; [apply cull_eq|]. now apply (cut_ordered b path None None). Qed.

(** A mean of points on one side of a line is on that side. *)
Lemma unseen b e t q : 0 <= t <= 1 -> apart b (piece_points e) -> event_at e t = Some q -> ~ inside b 0 q.
Proof.
  intros Ht HA E I.
  assert (A0 : 0 <= t) by lra. assert (A1 : 0 <= 1 - t) by lra.
  assert (B0 : 0 <= t * t) by nra. assert (B1 : 0 <= 2 * t * (1 - t)) by nra. assert (B2 : 0 <= (1 - t) * (1 - t)) by nra.
  assert (C0 : 0 <= t * t * t) by (apply Rmult_le_pos; nra). assert (C1 : 0 <= 3 * t * t * (1 - t)) by (apply Rmult_le_pos; nra).
  assert (C2 : 0 <= 3 * t * (1 - t) * (1 - t)) by (apply Rmult_le_pos; nra).
  assert (C3 : 0 <= (1 - t) * (1 - t) * (1 - t)) by (apply Rmult_le_pos; nra).
  assert (M : forall l m, Forall (fun wp => 0 <= fst wp /\ m < snd wp) l -> (forall s : R, s = fold_right Rplus 0 (map fst l) -> 0 < s -> m * s < fold_right Rplus 0 (map (fun wp : R * R => fst wp * snd wp) l))).
  { clear. intros l m F s -> P. assert (X : m * fold_right Rplus 0 (map fst l) <= fold_right Rplus 0 (map (fun wp : R * R => fst wp * snd wp) l)
         /\ (0 < fold_right Rplus 0 (map fst l) -> m * fold_right Rplus 0 (map fst l) < fold_right Rplus 0 (map (fun wp : R * R => fst wp * snd wp) l))).
    { clear P. induction F as [|[w x] l [Hw Hx] _ [IH1 IH2]]; [cbn; lra|]. cbn [map fold_right fst snd] in *.
      assert (0 <= w * (x - m)) by (apply Rmult_le_pos; lra).
      split; [nra|]. intros P. destruct (Rlt_le_dec 0 w).
      - assert (0 < w * (x - m)) by (apply Rmult_lt_0_compat; lra). nra.
      - assert (w = 0) by lra. subst w. rewrite Rplus_0_l in *. specialize (IH2 P). lra. }
    now apply X. }
  assert (M' : forall l m, Forall (fun wp => 0 <= fst wp /\ snd wp < m) l -> (forall s : R, s = fold_right Rplus 0 (map fst l) -> 0 < s -> fold_right Rplus 0 (map (fun wp : R * R => fst wp * snd wp) l) < m * s)).
  { clear -M. intros l m F s E P. pose proof (M (map (fun wp => (fst wp, - snd wp)) l) (- m)) as H.
    assert (F' : Forall (fun wp : R * R => 0 <= fst wp /\ - m < snd wp) (map (fun wp => (fst wp, - snd wp)) l)).
    { apply Forall_map. eapply Forall_impl; [|exact F]. intros [w x] [? ?]. cbn in *. lra. }
    specialize (H F' s). rewrite !map_map in H. cbn in H. specialize (H E P).
    assert (X : fold_right Rplus 0 (map (fun x : R * R => fst x * - snd x) l) = - fold_right Rplus 0 (map (fun wp : R * R => fst wp * snd wp) l)).
    { clear. induction l as [|a l IH]; cbn; [lra|]. rewrite IH. lra. }
    rewrite X in H. lra. }
  unfold inside in I.
  destruct e as [p|p r|p c r|p c d r|z a cl]; try discriminate; injection E as <-; cbn [vx vy map fst snd] in I; cbn [piece_points] in HA.
  - pose proof (fun f m => M [(1 - t, f p); (t, f r)] m) as ML. pose proof (fun f m => M' [(1 - t, f p); (t, f r)] m) as MU.
    cbn [map fst snd fold_right] in ML, MU.
    destruct HA as [F|[F|[F|F]]]; rewrite !Forall_cons_iff in F.
    + specialize (MU vx (bmin_x b) ltac:(repeat (apply Forall_cons; [cbn; lra|]); apply Forall_nil) 1 ltac:(ring) ltac:(lra)). lra.
    + specialize (ML vx (bmax_x b) ltac:(repeat (apply Forall_cons; [cbn; lra|]); apply Forall_nil) 1 ltac:(ring) ltac:(lra)). lra.
    + specialize (MU vy (bmin_y b) ltac:(repeat (apply Forall_cons; [cbn; lra|]); apply Forall_nil) 1 ltac:(ring) ltac:(lra)). lra.
    + specialize (ML vy (bmax_y b) ltac:(repeat (apply Forall_cons; [cbn; lra|]); apply Forall_nil) 1 ltac:(ring) ltac:(lra)). lra.
  - pose proof (fun f m => M [((1 - t) * (1 - t), f p); (2 * t * (1 - t), f c); (t * t, f r)] m) as ML.
    pose proof (fun f m => M' [((1 - t) * (1 - t), f p); (2 * t * (1 - t), f c); (t * t, f r)] m) as MU.
    cbn [map fst snd fold_right] in ML, MU.
    destruct HA as [F|[F|[F|F]]]; rewrite !Forall_cons_iff in F.
    + specialize (MU vx (bmin_x b) ltac:(repeat (apply Forall_cons; [cbn; lra|]); apply Forall_nil) 1 ltac:(ring) ltac:(lra)). lra.
    + specialize (ML vx (bmax_x b) ltac:(repeat (apply Forall_cons; [cbn; lra|]); apply Forall_nil) 1 ltac:(ring) ltac:(lra)). lra.
    + specialize (MU vy (bmin_y b) ltac:(repeat (apply Forall_cons; [cbn; lra|]); apply Forall_nil) 1 ltac:(ring) ltac:(lra)). lra.
    + specialize (ML vy (bmax_y b) ltac:(repeat (apply Forall_cons; [cbn; lra|]); apply Forall_nil) 1 ltac:(ring) ltac:(lra)). lra.
  - pose proof (fun f m => M [((1 - t) * (1 - t) * (1 - t), f p); (3 * t * (1 - t) * (1 - t), f c); (3 * t * t * (1 - t), f d); (t * t * t, f r)] m) as ML.
    pose proof (fun f m => M' [((1 - t) * (1 - t) * (1 - t), f p); (3 * t * (1 - t) * (1 - t), f c); (3 * t * t * (1 - t), f d); (t * t * t, f r)] m) as MU.
    cbn [map fst snd fold_right] in ML, MU.
    destruct HA as [F|[F|[F|F]]]; rewrite !Forall_cons_iff in F.
    + specialize (MU vx (bmin_x b) ltac:(repeat (apply Forall_cons; [cbn; lra|]); apply Forall_nil) 1 ltac:(ring) ltac:(lra)). lra.
    + specialize (ML vx (bmax_x b) ltac:(repeat (apply Forall_cons; [cbn; lra|]); apply Forall_nil) 1 ltac:(ring) ltac:(lra)). lra.
    + specialize (MU vy (bmin_y b) ltac:(repeat (apply Forall_cons; [cbn; lra|]); apply Forall_nil) 1 ltac:(ring) ltac:(lra)). lra.
    + specialize (ML vy (bmax_y b) ltac:(repeat (apply Forall_cons; [cbn; lra|]); apply Forall_nil) 1 ltac:(ring) ltac:(lra)). lra.
Qed.
