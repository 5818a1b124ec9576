(** The sign of the area of a loop that winds in one direction only (C65). *)
From Coq Require Import Reals ZArith Bool List Lra Lia Psatz Classical.
From Verif Require Import Num RNum Res ModelMath ModelSeg ModelPline Spec SpecGeom SpecBox SpecWinding SpecBoolean SpecView SpecRegion SpecJordan.
From Verif Require Import ProofR ProofBase ProofIter ProofArc ProofArc2 ProofSlice ProofMeasure ProofWalk ProofIntr ProofWinding ProofWinding2 ProofWinding3 ProofWinding4 ProofWinding6 ProofWinding7 ProofSegIntr5 ProofPolyOff2 ProofNest ProofJordan ProofJordan2 ProofJordan5 ProofJordan6 ProofArea ProofArea2 ProofArea3 ProofArea4.
Import ListNotations.
Local Open Scope R_scope.

Lemma list_profile l : oks l -> exists D L bad J M, profile l D L bad J M.
Proof.
  induction l as [|[v1 v2] l IH]; intros Ok; [exists (fun _ => 0), (fun _ => []), [], 0, 0; apply profile_nil|].
  destruct IH as (D & L & bd & J & M & P); [intros s I; apply Ok; now right|].
  assert (Os : seg_ok v1 v2) by (apply (Ok (v1, v2)); now left).
  assert (Q : exists D L bad J M, profile [(v1, v2) : seg] D L bad J M).
  { destruct (Req_dec (pbulge v1) 0) as [E|E]; [now apply line_profile|now apply arc_profile]. }
  destruct Q as (D' & L' & bd' & J' & M' & P'). pose proof (profile_app _ _ _ _ _ _ _ _ _ _ _ _ P' P) as PP. cbn [app] in PP.
  eexists _, _, _, _, _. exact PP.
Qed.

Definition signed (o : Z) (L : slice) : slice := map (fun e => ((o * fst e)%Z, snd e)) L.
Lemma signed_snd o L : map snd (signed o L) = map snd L.
Proof. unfold signed. rewrite map_map. reflexivity. Qed.
Lemma signed_count o L u : count (signed o L) u = (o * count L u)%Z.
Proof.
  induction L as [|(w, z) L IH]; [cbn; lia|]. unfold count, signed, zsum in *. cbn [map fold_right fst snd] in *. rewrite IH. destruct (Rlt_dec u z); lia.
Qed.
Lemma signed_weight o L : weight (signed o L) = (o * weight L)%Z.
Proof.
  induction L as [|(w, z) L IH]; [cbn; lia|]. unfold weight, signed, zsum in *. cbn [map fold_right fst snd] in *. rewrite IH. lia.
Qed.
Lemma signed_moment o L : moment (signed o L) = IZR o * moment L.
Proof.
  induction L as [|(w, z) L IH]; [cbn; ring|]. unfold moment, signed in *. cbn [map fst snd] in *. rewrite !rsum_cons, IH, mult_IZR. ring.
Qed.
Lemma count_left L u : (forall z, In z (map snd L) -> u < z) -> count L u = weight L.
Proof.
  intros H. unfold count, weight. f_equal. apply map_ext_in. intros (w, z) I. cbn [fst snd]. destruct (Rlt_dec u z); [reflexivity|].
  exfalso. apply n. apply H. apply in_map_iff. exists (w, z). auto.
Qed.

Section Sign.
Variables (l : list seg) (D : R -> R) (L : R -> slice) (bd : list R) (J M : R).
Hypothesis Ok : oks l.
Hypothesis Lp : looped l.
Hypothesis P : profile l D L bd J M.

Lemma far_off u h : M < Rabs u \/ M < Rabs h -> offs l (V2 u h).
Proof. intros F s I O. destruct P as (_ & _ & _ & B & _). destruct (B s _ I O) as (B1 & B2). cbn [vx vy] in *. lra. Qed.

Lemma far_right u h : M < u -> tot l (V2 u h) = 0%Z.
Proof.
  intros F. unfold tot. assert (G : forall m, (forall s, In s m -> In s l) -> zsum (map (nw (V2 u h)) m) = 0%Z).
  { induction m as [|s m IH]; intros Sub; [reflexivity|]. unfold zsum in *. cbn [map fold_right]. rewrite IH by (intros x I; apply Sub; now right).
    rewrite nw_right; [reflexivity|apply Ok, Sub; now left|]. intros q O. destruct P as (_ & _ & _ & B & _). destruct (B s q (Sub s (or_introl eq_refl)) O) as (B1 & _). cbn [vx].
    pose proof (Rle_abs (vx q)). lra. }
  apply G. auto.
Qed.

Lemma line_level u u' h t : line_pt (V2 u h) (V2 u' h) t = V2 (u + t * (u' - u)) h.
Proof. unfold line_pt. cbn [vx vy]. apply vec2_eq; cbn [vx vy]; ring. Qed.
Lemma line_plumb u h h' t : line_pt (V2 u h) (V2 u h') t = V2 u (h + t * (h' - h)).
Proof. unfold line_pt. cbn [vx vy]. apply vec2_eq; cbn [vx vy]; ring. Qed.

Lemma far_left u h : u < - M -> M >= 0 -> tot l (V2 u h) = 0%Z.
Proof.
  intros F M0. rewrite (tot_straight l (V2 u h) (V2 u (M + 1)) Ok Lp).
  - rewrite (tot_straight l (V2 u (M + 1)) (V2 (M + 1) (M + 1)) Ok Lp); [apply far_right; lra|].
    intros t _. rewrite line_level. apply far_off. right. rewrite Rabs_right; lra.
  - intros t _. rewrite line_plumb. apply far_off. left. rewrite Rabs_left; lra.
Qed.

Lemma level_weight h : ~ In h bd -> weight (L h) = 0%Z.
Proof.
  intros N. destruct (bounded (map snd (L h))) as (m & Hm & B). set (K := Rabs M + m + 1).
  assert (Lf : forall z, In z (map snd (L h)) -> - K < z). { intros z I. specialize (B z I). pose proof (Rabs_pos M). unfold K. unfold Rabs in B. destruct (Rcase_abs z); lra. }
  rewrite <- (count_left (L h) (- K) Lf). destruct P as (_ & G & _ & B' & _). destruct (G h N) as (_ & Gu). destruct (Gu (- K)) as (_ & E); [intros I; specialize (Lf _ I); lra|].
  rewrite <- E. destruct (Rle_dec 0 M) as [M0|M0].
  - apply far_left; [|lra]. unfold K. pose proof (Rle_abs M). lra.
  - (* nothing is there *)
    unfold tot. destruct l as [|s l']; [reflexivity|]. exfalso. assert (Os : okseg s) by (apply Ok; now left).
    destruct (B' s (pos (fst s)) (or_introl eq_refl)) as (B1 & _); [apply (on_ends s Os)|]. pose proof (Rabs_pos (vx (pos (fst s)))). lra.
Qed.

Variable o : Z.
Hypothesis Sg : forall x, offs l x -> (0 <= o * tot l x)%Z.

Lemma level_moment h : ~ In h bd -> 0 <= moment (signed o (L h)).
Proof.
  intros N. apply abel.
  - rewrite signed_weight, level_weight by exact N. lia.
  - intros u Nu. rewrite signed_snd in Nu. rewrite signed_count. destruct P as (_ & G & _). destruct (G h N) as (_ & Gu). destruct (Gu u Nu) as (O & E). rewrite <- E. now apply Sg.
Qed.

Lemma signed_deriv h : ~ In h bd -> derivable_pt_lim (fun h => IZR o * D h) h (moment (signed o (L h))).
Proof.
  intros N. rewrite signed_moment. destruct P as (_ & G & _). destruct (G h N) as (Gd & _). apply (derivable_pt_lim_scal D (IZR o)). exact Gd.
Qed.
Lemma signed_cont h : continuity_pt (fun h => IZR o * D h) h.
Proof. destruct P as (C & _). apply (continuity_pt_mult (fun _ => IZR o) D); [apply continuity_pt_const; intros x y; reflexivity|apply C]. Qed.

Lemma area_sign : 0 <= IZR o * J.
Proof.
  set (m := Rmax M 0). pose proof (Rmax_l M 0). pose proof (Rmax_r M 0). fold m in H, H0.
  assert (E : IZR o * D m - IZR o * D (- m) = IZR o * J) by (destruct P as (_ & _ & E & _); rewrite <- (E m H); ring).
  assert (IZR o * D (- m) <= IZR o * D m); [|lra].
  apply (mono_except (fun h => IZR o * D h) (fun h => moment (signed o (L h))) bd); [lra|intros; apply signed_cont|].
  intros x _ N. split; [now apply signed_deriv|now apply level_moment].
Qed.

Lemma near_corner x u h e : vx x < u < vx x + e / 2 -> vy x < h < vy x + e / 2 -> dist x (V2 u h) < e.
Proof.
  intros H1 H2. unfold dist. cbn [vx vy]. assert (He : 0 <= e) by lra. rewrite <- (sqrt_square e He). apply sqrt_lt_1; try nra.
Qed.

Lemma area_sign_strict x0 : offs l x0 -> (0 < o * tot l x0)%Z -> 0 < IZR o * J.
Proof.
  intros O0 P0. destruct (tot_local l x0 Ok Lp O0) as (e & He & K).
  destruct (generic_near bd (vy x0) (e / 4)) as (h0 & Hh & Nh); [lra|]. destruct (room_except bd h0 Nh) as (d & Hd & Rm).
  set (q := h0 + Rmin d (e / 4)). assert (Pm : 0 < Rmin d (e / 4)) by (apply Rmin_pos; lra). pose proof (Rmin_l d (e / 4)). pose proof (Rmin_r d (e / 4)).
  set (m := Rmax (Rabs M) (Rabs h0 + Rabs q)). pose proof (Rmax_l (Rabs M) (Rabs h0 + Rabs q)) as M1. pose proof (Rmax_r (Rabs M) (Rabs h0 + Rabs q)) as M2. fold m in M1, M2.
  pose proof (Rle_abs M). pose proof (Rle_abs q). pose proof (Rle_abs (- h0)). rewrite Rabs_Ropp in *. pose proof (Rabs_pos h0). pose proof (Rabs_pos q).
  assert (E : IZR o * D m - IZR o * D (- m) = IZR o * J) by (destruct P as (_ & _ & E & _); rewrite <- (E m ltac:(lra)); ring).
  assert (IZR o * D (- m) < IZR o * D m); [|lra].
  apply (mono_strict (fun h => IZR o * D h) (fun h => moment (signed o (L h))) bd (- m) m h0 q); try lra; try (unfold q; lra).
  - intros; apply signed_cont.
  - intros x _ N. split; [now apply signed_deriv|now apply level_moment].
  - intros h Hx. assert (N : ~ In h bd). { intros I. specialize (Rm h I). rewrite Rabs_right in Rm; unfold q in Hx; lra. }
    split; [exact N|]. destruct (generic_near (map snd (L h)) (vx x0) (e / 2)) as (u & Hu & Nu); [lra|].
    destruct (K (V2 u h)) as (Ou & Eu); [apply near_corner; [exact Hu|unfold q in Hx; lra]|].
    destruct P as (_ & G & _). destruct (G h N) as (_ & Gu). destruct (Gu u Nu) as (_ & Ec).
    apply (abel_strict _ u).
    + rewrite signed_weight, level_weight by exact N. lia.
    + intros u' Nu'. rewrite signed_snd in Nu'. rewrite signed_count. destruct (Gu u' Nu') as (O & Q). rewrite <- Q. now apply Sg.
    + rewrite signed_snd. exact Nu.
    + rewrite signed_count, <- Ec, Eu. exact P0.
Qed.
End Sign.

Lemma loop_area_sign p o A : pline_ok p -> valid_loop p -> area p = Ret A ->
  (forall x w, ~ on_path p x -> winding_number p x = Ret w -> (0 <= o * w)%Z) ->
  0 <= IZR o * A /\ ((exists x w, ~ on_path p x /\ winding_number p x = Ret w /\ (0 < o * w)%Z) -> 0 < IZR o * A).
Proof.
  intros ok vl EA Sg. pose proof (oks_l p ok) as Ol. pose proof (looped_l p vl) as Ll.
  set (l := spec_segs (vtx p) (is_closed p)) in *.
  destruct (list_profile l Ol) as (D & L & bd & J & M & P).
  assert (PI' : path_has_integral p (2 * J)).
  { destruct P as (_ & _ & _ & _ & (Is & F & S)). exists Is. split; [exact F|]. rewrite S.
    assert (Z : rsum (map (fun s : seg => corner (snd s) - corner (fst s)) l) = 0) by exact (Ll (fun q => vx q * vy q)). fold l in Z |- *. unfold seg in *. lra. }
  assert (EJ : A = J). { rewrite (area_correct p _ (proj2 vl) ok PI') in EA. injection EA as <-. field. }
  subst A.
  assert (Off : forall x, offs l x -> ~ on_path p x) by (intros x O (a & b & I & On); exact (O (a, b) I On)).
  assert (Sg' : forall x, offs l x -> (0 <= o * tot l x)%Z).
  { intros x O. apply (Sg x); [now apply Off|]. unfold l. rewrite <- (wn_tot p ok vl x (Off x O)). apply winding_wn. }
  split; [exact (area_sign l D L bd J M Ol Ll P o Sg')|]. intros (x & w & O & W & Pw).
  apply (area_sign_strict l D L bd J M Ol Ll P o Sg' x).
  - intros s I On. apply O. exists (fst s), (snd s). split; [destruct s; exact I|exact On].
  - unfold l. rewrite <- (wn_tot p ok vl x O). rewrite winding_wn in W. injection W as W. rewrite W. exact Pw.
Qed.

(** A loop that passes no point twice winds around its inside in the direction of its orientation. *)
Lemma loop_simple p : pline_ok p -> valid_loop p -> passes_once p ->
  exists o, simple_loop p o /\ o <> Open /\ exists A, area p = Ret A /\ 0 < IZR (once o) * A.
Proof.
  intros ok vl po. destruct (loop_sides p ok vl po) as (o & Ho & W & _). destruct (some_inside p ok vl po) as (x0 & O0 & W0).
  destruct (area_is_integral p (proj2 vl) ok) as (I & _ & EA).
  destruct (loop_area_sign p o (I / 2) ok vl EA) as (_ & St).
  { intros x w O E. rewrite winding_wn in E. injection E as <-. destruct (W x O) as [->| ->]; destruct Ho as [->| ->]; lia. }
  assert (S : 0 < IZR o * (I / 2)).
  { apply St. exists x0, (wn p x0). split; [exact O0|]. split; [apply winding_wn|]. destruct (W x0 O0) as [Q|Q]; [contradiction|]. rewrite Q. destruct Ho as [->| ->]; lia. }
  assert (Or : orientation p = if rltb (I / 2) 0 then Ret Clockwise else Ret CounterClockwise).
  { unfold orientation. rewrite (proj2 vl), EA. reflexivity. }
  assert (G : forall oo, once oo = o -> (forall x w, ~ on_path p x -> winding_number p x = Ret w -> w = 0%Z \/ w = once oo)).
  { intros oo E x w O Q. rewrite winding_wn in Q. injection Q as <-. rewrite E. now apply W. }
  destruct Ho as [->| ->].
  - exists CounterClockwise. split; [split; [|apply G; reflexivity]|split; [discriminate|exists (I / 2); auto]].
    rewrite Or. rewrite (proj2 (rltb_false _ _)) by lra. reflexivity.
  - exists Clockwise. split; [split; [|apply G; reflexivity]|split; [discriminate|exists (I / 2); auto]].
    rewrite Or. rewrite (proj2 (rltb_true _ _)) by lra. reflexivity.
Qed.
