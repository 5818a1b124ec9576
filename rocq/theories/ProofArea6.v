(** Polygons that clearly do not meet themselves; boolean operations on loops that pass no point twice (C65, C66). *)
From Coq Require Import Reals ZArith Bool List Arith Lra Lia Psatz.
From Verif Require Import Num RNum Res ModelMath ModelSeg ModelPline ModelIndex ModelIntersects ModelBoolean.
From Verif Require Import Spec SpecGeom SpecIntr SpecBox SpecWinding SpecIndex SpecOffset SpecOffsetJoin SpecBoolean SpecView SpecPruneR SpecPrune SpecRegion SpecPolyOff SpecPolyBool SpecJordan.
From Verif Require Import ProofR ProofBase ProofIter ProofArc ProofIntr ProofSlice ProofMeasure ProofWinding6 ProofIndex2 ProofRegion11 ProofRegion12 ProofPolyOff2 ProofNest ProofPolyBool ProofPolyBool2 ProofJordan5 ProofJordan6 ProofArea5.
Import ListNotations.
Local Open Scope R_scope.

Lemma polygon_lines qs : spec_segs (vtx (polygon qs)) true = map (fun s => (vertex_at (fst s) 0, vertex_at (snd s) 0)) (spec_segs qs true).
Proof. unfold polygon. cbn [vtx]. apply (spec_segs_map (fun q => vertex_at q 0)). Qed.

Lemma cross_line a b c e t : cross (vec a b) (vec a (line_pt c e t)) = (1 - t) * cross (vec a b) (vec a c) + t * cross (vec a b) (vec a e).
Proof. unfold cross, vec, line_pt. cbn [vx vy]. ring. Qed.
Lemma cross_self a b t : cross (vec a b) (vec a (line_pt a b t)) = 0.
Proof. unfold cross, vec, line_pt. cbn [vx vy]. ring. Qed.

Lemma beside_apart eps a b c e t u : 0 < eps -> beside eps a b c e -> 0 <= u <= 1 -> line_pt a b t <> line_pt c e u.
Proof.
  intros He (s & Hs & B) Hu E. destruct (B c (or_introl eq_refl)) as (Bc & _). destruct (B e (or_intror eq_refl)) as (Be & _).
  pose proof (cross_self a b t) as Z. rewrite E, cross_line in Z.
  set (x := cross (vec a b) (vec a c)) in *. set (y := cross (vec a b) (vec a e)) in *.
  assert (s * ((1 - u) * x + u * y) = 0) by (rewrite Z; ring). assert (eps * 1 <= (1 - u) * (s * x) + u * (s * y)) by nra. lra.
Qed.

Lemma lone_once eps qs : 0 < eps -> lone_polygon eps qs -> passes_once (polygon qs).
Proof.
  intros He (N3 & Flat & Apart). set (n := length qs) in *.
  assert (Ln : length (spec_segs qs true) = n). { rewrite spec_segs_length. fold n. destruct (Nat.ltb_spec n 2); [lia|reflexivity]. }
  assert (At : forall i t q, point_at (polygon qs) i t q -> (i < n)%nat /\ exists a b, nth_error (spec_segs qs true) i = Some (a, b) /\ 0 <= t <= 1 /\ q = line_pt a b t).
  { intros i t q (v1 & v2 & E & Ht & Hq). change (is_closed (polygon qs)) with true in E. rewrite polygon_lines in E. rewrite nth_error_map in E.
    destruct (nth_error (spec_segs qs true) i) as [[a b]|] eqn:Ei; [|discriminate]. cbn in E. injection E as <- <-.
    split; [rewrite <- Ln; apply nth_error_Some; congruence|]. exists a, b. split; [reflexivity|]. split; [exact Ht|].
    apply seg_at_line in Hq; [|reflexivity]. rewrite Hq. unfold vertex_at, pos. cbn [px py]. destruct a, b; reflexivity. }
  assert (Next : forall i a b, nth_error (spec_segs qs true) i = Some (a, b) -> exists c, nth_error (spec_segs qs true) ((i + 1) mod n) = Some (b, c)).
  { intros i a b E. assert (Li : (i < n)%nat) by (rewrite <- Ln; apply nth_error_Some; congruence).
    apply (segs_nth qs i a b) in E as (_ & Eb).
    assert (Lj : ((i + 1) mod n < n)%nat) by (apply Nat.mod_upper_bound; lia).
    destruct (nth_error (spec_segs qs true) ((i + 1) mod n)) as [[b' c]|] eqn:Ej; [|apply nth_error_None in Ej; lia].
    exists c. apply (segs_nth qs _ b' c) in Ej as (Eb' & _). fold n in Eb. rewrite Eb in Eb'. now injection Eb' as ->. }
  assert (Succ : forall i t u q a b c, nth_error (spec_segs qs true) i = Some (a, b) -> nth_error (spec_segs qs true) ((i + 1) mod n) = Some (b, c) ->
            q = line_pt a b t -> q = line_pt b c u -> t < 1 -> False).
  { intros i t u q a b c Ei Ej E1 E2 Ht. pose proof (Flat i a b c Ei Ej) as F.
    assert (X : cross (vec a b) (vec b c) <> 0) by (intros Z; rewrite Z, Rabs_R0 in F; lra).
    assert (Z : u * cross (vec a b) (vec b c) = 0).
    { pose proof (cross_self a b t) as Z. rewrite <- E1, E2 in Z. unfold cross, vec, line_pt in *. cbn [vx vy] in *. lra. }
    apply Rmult_integral in Z as [->|Z]; [|contradiction]. rewrite E2 in E1. unfold line_pt in E1. injection E1 as P1 P2.
    apply X. unfold cross, vec. cbn [vx vy]. assert (Q1 : (1 - t) * (vx b - vx a) = 0) by lra. assert (Q2 : (1 - t) * (vy b - vy a) = 0) by lra.
    apply Rmult_integral in Q1 as [Q1|Q1]; [lra|]. apply Rmult_integral in Q2 as [Q2|Q2]; [lra|]. rewrite Q1, Q2. ring. }
  intros i j t u q Hi Hj Ht Hu. apply At in Hi as (Li & a & b & Ei & Ti & Qi). apply At in Hj as (Lj & c & e & Ej & Tj & Qj).
  destruct (Nat.eq_dec i j) as [->|NE].
  - split; [reflexivity|]. rewrite Ei in Ej. injection Ej as <- <-. destruct (Next j a b Ei) as (d & En). pose proof (Flat j a b d Ei En) as F.
    rewrite Qi in Qj. unfold line_pt in Qj. injection Qj as P1 P2.
    assert (Q1 : (t - u) * (vx b - vx a) = 0) by lra. assert (Q2 : (t - u) * (vy b - vy a) = 0) by lra.
    apply Rmult_integral in Q1 as [Q1|Q1]; [lra|]. apply Rmult_integral in Q2 as [Q2|Q2]; [lra|]. exfalso. unfold cross, vec in F. cbn [vx vy] in F. rewrite Q1, Q2 in F.
    replace (0 * (vy d - vy b) - 0 * (vx d - vx b)) with 0 in F by ring. rewrite Rabs_R0 in F. lra.
  - exfalso. destruct (Nat.eq_dec ((i + 1) mod n) j) as [S1|S1]; [|destruct (Nat.eq_dec i ((j + 1) mod n)) as [S2|S2]].
    + destruct (Next i a b Ei) as (d & En). rewrite S1, Ej in En. injection En as -> ->. apply (Succ i t u q a b d Ei); auto. rewrite S1. exact Ej.
    + destruct (Next j c e Ej) as (d & En). rewrite <- S2, Ei in En. injection En as -> ->. apply (Succ j u t q c e d Ej); auto. rewrite <- S2. exact Ei.
    + destruct (Apart i j a b c e Ei Ej NE S2 S1) as [B|B].
      * apply (beside_apart eps a b c e t u He B Tj). congruence.
      * apply (beside_apart eps c e a b u t He B Ti). congruence.
Qed.

(** ** Boolean operations *)
Lemma once_sign o : once o = 1%Z \/ once o = (-1)%Z.
Proof. destruct o; auto. Qed.

Lemma region_once mk (p1 p2 : pline R) op idx eps boxes bs : makes_index mk ->
  index_of boxes idx -> length boxes = length (spec_segs (vtx p1) (is_closed p1)) ->
  valid_loop p1 -> valid_loop p2 -> 0 < eps -> clear_pline eps p1 -> clear_pline eps p2 -> passes_once p1 -> passes_once p2 ->
  find_intersects p1 p2 idx eps = Ret (bs, []) -> bs <> [] -> clean_crossing eps p1 p2 bs ->
  exists r w, polyline_boolean mk p1 p2 op idx eps = Ret r /\ (w = 1%Z \/ w = (-1)%Z)
  /\ (forall l, In l (br_pos r ++ br_neg r) -> valid_loop (brp_pline l) /\ pline_ok (brp_pline l)
      /\ forall q, on_path (brp_pline l) q -> on_path p1 q \/ on_path p2 q)
  /\ forall x, ~ on_path p1 x -> ~ on_path p2 x ->
     wind_together (map brp_pline (br_pos r ++ br_neg r)) x (w * times_around op (inside p1 x) (inside p2 x))%Z.
Proof.
  intros Mk Ix Lb V1 V2' He C1 C2 P1 P2 F Nb Cl.
  destruct (loop_simple p1) as (o1 & S1 & _); [apply (clear_ok _ _ C1)|exact V1|exact P1|].
  destruct (loop_simple p2) as (o2 & S2 & _); [apply (clear_ok _ _ C2)|exact V2'|exact P2|].
  destruct (region_crossing mk p1 p2 op idx eps boxes bs o1 o2 Mk Ix Lb V1 V2' He C1 C2 S1 S2 F Nb Cl) as (r & E & A & B).
  exists r, (once o2). split; [exact E|]. split; [apply once_sign|]. split; [exact A|exact B].
Qed.

Lemma polygons_once mk (p1 p2 : pline R) eps op idx boxes : 0 < eps -> clear_pair eps p1 p2 -> makes_index mk ->
  index_of boxes idx -> boxes = map (fun s => seg_fast_approx_bounding_box (fst s) (snd s)) (spec_segs (vtx p1) (is_closed p1)) ->
  valid_loop p1 -> valid_loop p2 -> passes_once p1 -> passes_once p2 ->
  exists r w, polyline_boolean mk p1 p2 op idx eps = Ret r /\ (w = 1%Z \/ w = (-1)%Z)
  /\ (forall l, In l (br_pos r ++ br_neg r) -> valid_loop (brp_pline l) /\ pline_ok (brp_pline l)
      /\ forall q, on_path (brp_pline l) q -> on_path p1 q \/ on_path p2 q)
  /\ ((exists q, on_path p1 q /\ on_path p2 q) -> forall x, ~ on_path p1 x -> ~ on_path p2 x ->
      wind_together (map brp_pline (br_pos r ++ br_neg r)) x (w * times_around op (inside p1 x) (inside p2 x))%Z)
  /\ ((forall q, ~ (on_path p1 q /\ on_path p2 q)) -> forall x, ~ on_path p1 x -> ~ on_path p2 x ->
      (region (fun p y => inside p y = true) r x <-> operation op (inside p1 x = true) (inside p2 x = true))).
Proof.
  intros He C Mk Ix Eb V1 V2' P1 P2. pose proof C as (_ & _ & C1 & C2 & _).
  destruct (loop_simple p1) as (o1 & S1 & _); [apply (clear_ok _ _ C1)|exact V1|exact P1|].
  destruct (loop_simple p2) as (o2 & S2 & _); [apply (clear_ok _ _ C2)|exact V2'|exact P2|].
  destruct (polygons_region p1 p2 eps He C mk op idx boxes o1 o2 Mk Ix Eb V1 V2' S1 S2) as (r & E & A & B).
  exists r, (once o2). split; [exact E|]. split; [apply once_sign|]. split; [exact A|exact B].
Qed.

(** ** Examples *)
Lemma ex_half_orientation : orientation ex_half = Ret CounterClockwise.
Proof.
  destruct (loop_simple ex_half ex_half_ok ex_half_loop ex_half_once) as (o & (E & W) & No & _). rewrite E. f_equal.
  destruct (W _ _ ex_half_off ex_half_inside) as [Q|Q]; [discriminate|]. destruct o; [contradiction|discriminate|reflexivity] || (destruct o; cbn in Q; congruence).
Qed.

Ltac angle_besides := first [left; beside_with 1|left; beside_with (-1)|right; beside_with 1|right; beside_with (-1)].

(** An angle, clockwise. *)
Definition ex_angle : list (vec2 R) := [V2 0 0; V2 0 4; V2 2 4; V2 2 2; V2 4 2; V2 4 0].
Lemma ex_angle_lone : lone_polygon (1 / 100000) ex_angle.
Proof.
  unfold lone_polygon, ex_angle. cbn [length]. split; [lia|]. split.
  - intros i a b c. do 6 (destruct i as [|i]; [cbn; intros [= <- <-] [= <-]; unfold cross, vec; cbn [vx vy]; rabs_lra|]).
    cbn. destruct i; discriminate.
  - intros i j a b c e. do 6 (destruct i as [|i]; [cbn -[Nat.modulo]; intros [= <- <-]; do 6 (destruct j as [|j];
      [cbn; intros [= <- <-] N1 N2 N3; try (exfalso; (now apply N1) || (now apply N2) || (now apply N3)); angle_besides|]);
      cbn; destruct j; discriminate|]).
    cbn. destruct i; discriminate.
Qed.

Lemma ex_angle_ok : pline_ok (polygon ex_angle).
Proof. intros v1 v2 H. cbn in H. repeat (destruct H as [H|H]; [injection H as <- <-; split; [left; reflexivity|intros E; now destruct E]|]). destruct H. Qed.
Lemma ex_angle_loop : valid_loop (polygon ex_angle).
Proof. split; [cbn; lia|reflexivity]. Qed.
Lemma ex_angle_orientation : orientation (polygon ex_angle) = Ret Clockwise.
Proof.
  unfold orientation, area, polygon, ex_angle. cbn [is_closed negb]. rewrite iter_segments_spec. cbn [rbind spec_segs vtx map vertex_at vx vy].
  cbn -[bulge_is_zero]. unfold vertex_at; cbn -[bulge_is_zero]. rewrite !zero_line. cbn. rewrite (proj2 (rltb_true _ _)) by lra. reflexivity.
Qed.

(** A square over the corner of the angle. *)
Definition ex_square : list (vec2 R) := [V2 1 1; V2 3 1; V2 3 3; V2 1 3].
Lemma ex_square_lone : lone_polygon (1 / 100000) ex_square.
Proof.
  unfold lone_polygon, ex_square. cbn [length]. split; [lia|]. split.
  - intros i a b c. do 4 (destruct i as [|i]; [cbn; intros [= <- <-] [= <-]; unfold cross, vec; cbn [vx vy]; rabs_lra|]).
    cbn. destruct i; discriminate.
  - intros i j a b c e. do 4 (destruct i as [|i]; [cbn -[Nat.modulo]; intros [= <- <-]; do 4 (destruct j as [|j];
      [cbn; intros [= <- <-] N1 N2 N3; try (exfalso; (now apply N1) || (now apply N2) || (now apply N3)); angle_besides|]);
      cbn; destruct j; discriminate|]).
    cbn. destruct i; discriminate.
Qed.

Lemma ex_clear : clear_pline (1 / 100000) (polygon ex_angle) /\ clear_pline (1 / 100000) (polygon ex_square).
Proof.
  split; intros v1 v2 H; cbn in H; unfold vertex_at in H; cbn in H;
    repeat (destruct H as [H|H]; [injection H as <- <-; split; [split; [left; reflexivity|intros E; now destruct E]|cbn [px py]]|]);
      try contradiction.
  all: first [left; rabs_lra|right; rabs_lra].
Qed.

Ltac each_side I := cbn in I; unfold vertex_at in I; cbn [vx vy] in I; repeat (destruct I as [I|I]; [injection I as <- <-|]); try destruct I.

Lemma ex_meet q : on_path (polygon ex_angle) q -> on_path (polygon ex_square) q -> q = V2 2 3 \/ q = V2 3 2.
Proof.
  intros (v1 & v2 & I & t & Ht & At) (u1 & u2 & J & u & Hu & Au). each_side I; each_side J;
    apply at_line in At as (X & Y); apply at_line in Au as (X' & Y'); try (exfalso; lra).
  - left. symmetry. apply same_v2; lra.
  - right. symmetry. apply same_v2; lra.
Qed.

Lemma ex_pair : clear_pair (1 / 100000) (polygon ex_angle) (polygon ex_square).
Proof.
  pose proof ex_clear as (C1 & C2). pose proof ex_meet as M. unfold polygon, ex_angle, ex_square, vertex_at in *. cbn [map vx vy] in *.
  split; [split; [reflexivity|intros v H; cbn in H; repeat (destruct H as [<-|H]; [reflexivity|]); destruct H]|].
  split; [split; [reflexivity|intros v H; cbn in H; repeat (destruct H as [<-|H]; [reflexivity|]); destruct H]|].
  split; [exact C1|]. split; [exact C2|]. split.
  - intros a b c e I J. each_side I; each_side J; try besides.
    + crosses (V2 2 3) (1 / 2) (1 / 2).
    + crosses (V2 3 2) (1 / 2) (1 / 2).
  - intros q q' A B A' B'. destruct (M q A B) as [-> | ->], (M q' A' B') as [-> | ->]; cbn [vx vy]; auto; right; left; rabs_lra.
Qed.

Lemma ex_winds : winding_number (polygon ex_angle) (V2 (3 / 2) (3 / 2)) = Ret (-1)%Z /\ winding_number (polygon ex_square) (V2 (3 / 2) (3 / 2)) = Ret 1%Z
  /\ winding_number (polygon ex_angle) (V2 (5 / 2) (5 / 2)) = Ret 0%Z /\ winding_number (polygon ex_square) (V2 (5 / 2) (5 / 2)) = Ret 1%Z.
Proof.
  unfold winding_number. rewrite !iter_segments_spec. unfold polygon, ex_angle, ex_square, vertex_at. cbn -[bulge_is_zero process_line_winding]. rewrite !zero_line.
  unfold process_line_winding, is_left, is_left_or_equal, perp_dot_test_value, pos. cbn. repeat split; rcases; cbn; auto; exfalso; lra.
Qed.

Lemma ex_off x : x = V2 (3 / 2) (3 / 2) \/ x = V2 (5 / 2) (5 / 2) -> ~ on_path (polygon ex_angle) x /\ ~ on_path (polygon ex_square) x.
Proof.
  intros Hx. split; intros (v1 & v2 & I & t & Ht & At); each_side I; apply at_line in At as (X & Y); destruct Hx as [-> | ->]; cbn in X, Y; lra.
Qed.

Lemma ex_both : let idx := list_index (map (fun s => seg_fast_approx_bounding_box (fst s) (snd s)) (spec_segs (vtx (polygon ex_angle)) true)) in
  exists r w, polyline_boolean (@list_index R RNum) (polygon ex_angle) (polygon ex_square) BAnd idx (1 / 100000) = Ret r /\ (w = 1%Z \/ w = (-1)%Z)
  /\ wind_together (map brp_pline (br_pos r ++ br_neg r)) (V2 (3 / 2) (3 / 2)) w
  /\ wind_together (map brp_pline (br_pos r ++ br_neg r)) (V2 (5 / 2) (5 / 2)) 0.
Proof.
  intros idx. destruct (polygons_once (@list_index R RNum) (polygon ex_angle) (polygon ex_square) (1 / 100000) BAnd idx _ ltac:(lra) ex_pair list_index_ok (list_index_ok _) eq_refl
    ex_angle_loop ltac:(split; [cbn; lia|reflexivity]) (lone_once (1 / 100000) _ ltac:(lra) ex_angle_lone) (lone_once (1 / 100000) _ ltac:(lra) ex_square_lone)) as (r & w & E & Hw & _ & X & _).
  exists r, w. split; [exact E|]. split; [exact Hw|].
  assert (M : exists q, on_path (polygon ex_angle) q /\ on_path (polygon ex_square) q).
  { exists (V2 2 3). split; [exists (Vtx 2 4 0), (Vtx 2 2 0)|exists (Vtx 3 3 0), (Vtx 1 3 0)]; (split; [cbn; auto 10|]); exists (1 / 2); (split; [lra|]); left; (split; [reflexivity|]);
      unfold line_pt, pos; cbn [px py vx vy]; f_equal; lra. }
  pose proof ex_winds as (W1 & W2 & W3 & W4).
  split; [specialize (X M (V2 (3 / 2) (3 / 2)))|specialize (X M (V2 (5 / 2) (5 / 2)))]; unfold inside in X; rewrite ?W1, ?W2, ?W3, ?W4 in X; cbn in X; rewrite ?Z.mul_1_r, ?Z.mul_0_r in X;
    apply X; apply ex_off; auto.
Qed.

Lemma loop_direction p : pline_ok p -> valid_loop p -> passes_once p ->
  exists o A, orientation p = Ret o /\ o <> Open /\ area p = Ret A /\ 0 < IZR (once o) * A
  /\ (forall x w, ~ on_path p x -> winding_number p x = Ret w -> w = 0%Z \/ w = once o)
  /\ exists x, ~ on_path p x /\ winding_number p x = Ret (once o).
Proof.
  intros ok vl po. destruct (loop_simple p ok vl po) as (o & (E & W) & No & A & EA & S). exists o, A.
  split; [exact E|]. split; [exact No|]. split; [exact EA|]. split; [exact S|]. split; [exact W|].
  destruct (some_inside p ok vl po) as (x & O & N). exists x. split; [exact O|]. pose proof (ProofWinding6.winding_wn p x) as Q.
  destruct (W x _ O Q) as [Z|Z]; [contradiction|]. now rewrite Q, Z.
Qed.

Lemma direction_examples :
  (pline_ok ex_half /\ valid_loop ex_half /\ passes_once ex_half /\ orientation ex_half = Ret CounterClockwise)
  /\ (pline_ok (polygon ex_angle) /\ valid_loop (polygon ex_angle) /\ passes_once (polygon ex_angle) /\ orientation (polygon ex_angle) = Ret Clockwise).
Proof.
  split; [exact (conj ex_half_ok (conj ex_half_loop (conj ex_half_once ex_half_orientation)))|].
  refine (conj ex_angle_ok (conj ex_angle_loop (conj _ ex_angle_orientation))). apply (lone_once (1 / 100000)); [lra|exact ex_angle_lone].
Qed.
