(** Proofs about what is drawn (C62): the commands of polylines, what is not drawn, the vertexes. *)
From Coq Require Import Reals Lra List Bool Arith Lia.
From Verif Require Import Num RNum Res ModelMath ModelSeg ModelPline ModelIndex ModelShape ModelUi.
From Verif Require Import Spec SpecGeom SpecBox SpecIndex SpecShape SpecShapeR SpecUi ProofIter ProofR ProofArc ProofBox2 ProofBox3 ProofFlat ProofShapeR ProofUi ProofUi2.
Import ListNotations.
Local Open Scope R_scope.

(** ** Commands *)
Lemma transform_inj o k p q : k <> 0 -> plot_transform o k p = plot_transform o k q -> p = q.
Proof.
  intros K E. injection E as E1 E2. destruct p as [a b], q as [c d]. cbn in *. f_equal; apply (Rmult_eq_reg_l k); lra.
Qed.

Lemma draws_unique p c t q q' : draws_at p c t q -> draws_at p c t q' -> q = q'.
Proof.
  destruct c as [b|b|m r s]; cbn; [easy|congruence|].
  intros (a & E & ->) (a' & E' & ->). rewrite E in E'. injection E' as E1 E2.
  assert (C : r * cos a = r * cos a') by lra. assert (S : r * sin a = r * sin a') by lra.
  unfold circle_pt. rewrite !cos_plus, !sin_plus. f_equal.
  - replace (r * (cos a * cos (t * s) - sin a * sin (t * s))) with (r * cos a * cos (t * s) - r * sin a * sin (t * s)) by ring. rewrite C, S. ring.
  - replace (r * (sin a * cos (t * s) + cos a * sin (t * s))) with (r * sin a * cos (t * s) + r * cos a * sin (t * s)) by ring. rewrite C, S. ring.
Qed.

Lemma draws_seg o k v1 v2 t q : 0 < k -> seg_ok v1 v2 ->
  seg_at v1 v2 t q -> draws_at (plot_transform o k (pos v1)) (seg_cmd (plot_transform o k) k (v1, v2)) t (plot_transform o k q).
Proof.
  intros K Hok H. pose proof Hok as [Hb Hp]. unfold seg_cmd. destruct (bulge_is_zero v1) eqn:Z.
  - apply bulge_ok_zero in Z; [|exact Hb]. destruct H as [[_ ->]|[X _]]; [|contradiction].
    cbn. unfold plot_transform, line_pt. cbn. f_equal; ring.
  - assert (Hz : pbulge v1 <> 0) by (intros E; apply bulge_ok_zero in E; [congruence|exact Hb]).
    destruct H as [[X _]|(_ & c & r & a & HA & ->)]; [contradiction|].
    rewrite (arc_radius_and_center_eq v1 v2 (Hp Hz) Hz). destruct (arc_unique _ _ _ _ _ _ Hz HA) as [<- <-].
    cbn [draws_at]. exists (- a). destruct HA as (_ & -> & _).
    unfold plot_transform, circle_pt. cbn [vx vy]. unfold angle_from_bulge. rnum.
    replace (- a + t * - (4 * atan (pbulge v1))) with (- (a + t * sweep (pbulge v1))) by (unfold sweep; ring).
    rewrite !cos_neg, !sin_neg. split; f_equal; ring.
Qed.

Lemma seg_at_exists v1 v2 t : seg_ok v1 v2 -> exists q, seg_at v1 v2 t q.
Proof.
  intros [Hb Hp]. destruct (Req_dec (pbulge v1) 0) as [E|E]; [eexists; left; split; [exact E|reflexivity]|].
  eexists. right. split; [exact E|]. do 3 eexists. split; [exact (computed_is_arc _ _ _ (Hp E) E)|reflexivity].
Qed.

Lemma draws_seg_iff o k v1 v2 t q : 0 < k -> seg_ok v1 v2 ->
  draws_at (plot_transform o k (pos v1)) (seg_cmd (plot_transform o k) k (v1, v2)) t (plot_transform o k q) <-> seg_at v1 v2 t q.
Proof.
  intros K Hok. split; [|now apply draws_seg]. intros H. destruct (seg_at_exists v1 v2 t Hok) as (q' & Hq).
  pose proof (draws_unique _ _ _ _ _ H (draws_seg o k v1 v2 t q' K Hok Hq)) as E. apply transform_inj in E; [|lra]. now subst.
Qed.

Lemma cmds_spec p o k : pline_ok p -> 0 < k ->
  (spec_segs (vtx p) (is_closed p) = [] /\ pline_cmds (plot_transform o k) k p = Ret [])
  \/ exists v l cs, vtx p = v :: l /\ pline_cmds (plot_transform o k) k p = Ret (PCMove (plot_transform o k (pos v)) :: cs)
       /\ Forall2 (fun s c => forall t q, draws_at (plot_transform o k (pos (fst s))) c t (plot_transform o k q) <-> seg_at (fst s) (snd s) t q)
            (spec_segs (vtx p) (is_closed p)) cs.
Proof.
  intros Hok K. unfold pline_cmds. rewrite iter_segments_spec. cbn [rbind].
  destruct (vtx p) as [|v [|v' l]] eqn:E; [left; split; reflexivity|left; split; reflexivity|right].
  exists v, (v' :: l), (map (seg_cmd (plot_transform o k) k) (spec_segs (v :: v' :: l) (is_closed p))).
  split; [reflexivity|]. split; [unfold spec_segs; cbn [combine tl]; reflexivity|].
  assert (X : forall s, In s (spec_segs (v :: v' :: l) (is_closed p)) -> seg_ok (fst s) (snd s)).
  { intros [a b] I. apply Hok. now rewrite E. }
  induction (spec_segs (v :: v' :: l) (is_closed p)) as [|[a b] r IH]; constructor.
  - intros t q. apply draws_seg_iff; [exact K|]. apply (X (a, b)). now left.
  - apply IH. intros s I. apply X. now right.
Qed.

(** ** What is not drawn *)
Lemma inside_proper b q : inside b 0 q -> proper_box b.
Proof. unfold inside, proper_box. lra. Qed.

Lemma overlaps_meet a b : proper_box a -> proper_box b -> aabb_overlaps a b = true <-> exists q, inside a 0 q /\ inside b 0 q.
Proof.
  unfold proper_box, aabb_overlaps, inside. rnum. intros [A1 A2] [B1 B2].
  rewrite !andb_true_iff, !negb_true_iff, !rltb_false. split.
  - intros [[[H1 H2] H3] H4]. exists (V2 (Rmax (bmin_x a) (bmin_x b)) (Rmax (bmin_y a) (bmin_y b))). cbn [vx vy].
    pose proof (Rmax_l (bmin_x a) (bmin_x b)). pose proof (Rmax_r (bmin_x a) (bmin_x b)). pose proof (Rmax_l (bmin_y a) (bmin_y b)). pose proof (Rmax_r (bmin_y a) (bmin_y b)).
    assert (Rmax (bmin_x a) (bmin_x b) <= bmax_x a /\ Rmax (bmin_x a) (bmin_x b) <= bmax_x b) by (split; apply Rmax_lub; lra).
    assert (Rmax (bmin_y a) (bmin_y b) <= bmax_y a /\ Rmax (bmin_y a) (bmin_y b) <= bmax_y b) by (split; apply Rmax_lub; lra). lra.
  - intros (q & H1 & H2). lra.
Qed.

Lemma bounds_meet a b : proper_box a -> (forall b', b = Some b' -> proper_box b') ->
  (overlaps_bounds a b = true <-> boxes_meet a b) /\ (bounds_overlap b a = true <-> boxes_meet a b).
Proof.
  intros A B. unfold overlaps_bounds, bounds_overlap, boxes_meet. destruct b as [b|].
  - rewrite (overlaps_meet a b A (B b eq_refl)), (overlaps_meet b a (B b eq_refl) A). split; split.
    + intros (q & H). exists b, q. now split.
    + intros (b' & q & E & H). injection E as <-. now exists q.
    + intros (q & H1 & H2). exists b, q. split; [reflexivity|]. split; assumption.
    + intros (b' & q & E & H1 & H2). injection E as <-. now exists q.
  - split; (split; [discriminate|]); intros (b' & q & E & _); discriminate.
Qed.

Lemma cmds_total {T} {N : Num T} tr k (p : pline T) : exists l, pline_cmds tr k p = Ret l.
Proof. unfold pline_cmds. rewrite iter_segments_spec. eexists. reflexivity. Qed.

Lemma valid_iff (b : aabb R) : plot_bounds_valid b = true <-> 1 / 100000 <= bmax_x b - bmin_x b /\ 1 / 100000 <= bmax_y b - bmin_y b.
Proof. unfold plot_bounds_valid. rewrite andb_true_iff. rnum. rewrite !rleb_true. cbn. lra. Qed.

Lemma build_path_spec tr k plot data total :
  (forall p b, In (p, Some b) data -> proper_box b) -> (forall b, total = Some b -> proper_box b) ->
  exists ls, build_path tr k plot data total = Ret (concat ls)
    /\ ((bmax_x plot - bmin_x plot < 1 / 100000 \/ bmax_y plot - bmin_y plot < 1 / 100000 \/ ~ boxes_meet plot total) /\ ls = []
        \/ (1 / 100000 <= bmax_x plot - bmin_x plot /\ 1 / 100000 <= bmax_y plot - bmin_y plot /\ boxes_meet plot total)
           /\ Forall2 (fun pb l => (boxes_meet plot (snd pb) /\ pline_cmds tr k (fst pb) = Ret l) \/ (~ boxes_meet plot (snd pb) /\ l = [])) data ls).
Proof.
  intros HD HT. unfold build_path. destruct (plot_bounds_valid plot) eqn:EV; cbn [negb].
  2:{ exists []. split; [reflexivity|]. left. split; [|reflexivity].
      destruct (Rle_lt_dec (1 / 100000) (bmax_x plot - bmin_x plot)) as [H1|H1]; [|now left].
      destruct (Rle_lt_dec (1 / 100000) (bmax_y plot - bmin_y plot)) as [H2|H2]; [|right; now left].
      rewrite (proj2 (valid_iff plot) (conj H1 H2)) in EV. discriminate. }
  apply valid_iff in EV as [E1 E2].
  assert (PP : proper_box plot) by (unfold proper_box; lra).
  destruct (overlaps_bounds plot total) eqn:EO; cbn [negb].
  2:{ exists []. split; [reflexivity|]. left. split; [|reflexivity]. right. right. intros H. apply (proj1 (bounds_meet plot total PP HT)) in H. congruence. }
  apply (proj1 (bounds_meet plot total PP HT)) in EO.
  assert (X : exists ls, rmapM (fun pb => if negb (bounds_overlap (snd pb) plot) then Ret [] else pline_cmds tr k (fst pb)) data = Ret ls
     /\ Forall2 (fun pb l => (boxes_meet plot (snd pb) /\ pline_cmds tr k (fst pb) = Ret l) \/ (~ boxes_meet plot (snd pb) /\ l = [])) data ls).
  { clear -PP HD. induction data as [|[p b] data IH]; [exists []; split; [reflexivity|constructor]|].
    destruct IH as (ls & E & F); [intros p' b' I; apply (HD p'); now right|]. cbn [rmapM fst snd].
    assert (HB : forall b', b = Some b' -> proper_box b') by (intros b' ->; apply (HD p); now left).
    destruct (bounds_overlap b plot) eqn:EB; cbn [negb].
    - destruct (cmds_total tr k p) as (l & El). rewrite El. cbn [rbind]. rewrite E. exists (l :: ls). split; [reflexivity|].
      constructor; [left; split; [now apply (proj2 (bounds_meet plot b PP HB))|exact El]|exact F].
    - cbn [rbind]. rewrite E. exists ([] :: ls). split; [reflexivity|]. constructor; [right; split; [|reflexivity]|exact F].
      cbn. intros H. apply (proj2 (bounds_meet plot b PP HB)) in H. congruence. }
  destruct X as (ls & E & F). exists ls. split; [rewrite E; reflexivity|]. right. split; [repeat split; assumption|exact F].
Qed.

Lemma drawn_whole tr k plot data total p b q :
  1 / 100000 <= bmax_x plot - bmin_x plot -> 1 / 100000 <= bmax_y plot - bmin_y plot ->
  In (p, b) data -> bounded_by p b -> bounded_by p total -> on_path p q -> inside plot 0 q ->
  exists before cmds after, build_path tr k plot data total = Ret (before ++ cmds ++ after) /\ pline_cmds tr k p = Ret cmds.
Proof.
  intros W H I B BT Hq Hi. unfold build_path. rewrite (proj2 (valid_iff plot) (conj W H)). cbn [negb].
  assert (PP : proper_box plot) by (unfold proper_box; lra).
  assert (M : forall c, bounded_by p c -> (overlaps_bounds plot c = true) /\ (bounds_overlap c plot = true)).
  { intros c Bc. destruct (Bc q Hq) as (c' & -> & Ic).
    assert (X : boxes_meet plot (Some c')) by (exists c', q; split; [reflexivity|]; split; assumption).
    assert (PC : forall b', Some c' = Some b' -> proper_box b') by (intros b' E; injection E as <-; now apply inside_proper with q).
    split; now apply (bounds_meet plot (Some c') PP PC). }
  rewrite (proj1 (M _ BT)). cbn [negb].
  assert (X : exists before cmds after, (let! l := rmapM (fun pb => if negb (bounds_overlap (snd pb) plot) then Ret [] else pline_cmds tr k (fst pb)) data in Ret (concat l))
            = Ret (before ++ cmds ++ after) /\ pline_cmds tr k p = Ret cmds).
  { assert (TT : forall dt, exists ls, rmapM (fun pb => if negb (bounds_overlap (snd pb) plot) then Ret [] else pline_cmds tr k (fst pb)) dt = Ret ls).
    { clear. induction dt as [|[p b] data IH]; [now exists []|]. destruct IH as (ls & E). cbn [rmapM fst snd].
      destruct (bounds_overlap b plot); cbn [negb]; [destruct (cmds_total tr k p) as (l & ->)|]; cbn [rbind]; rewrite E; eexists; reflexivity. }
    clear -I M B TT. induction data as [|[p' b'] data IH]; [easy|]. cbn [rmapM fst snd]. destruct I as [E|I].
    - injection E as -> ->. rewrite (proj2 (M _ B)). cbn [negb]. destruct (cmds_total tr k p) as (l & El). rewrite El. cbn [rbind].
      destruct (TT data) as (ls & ->). cbn [rbind]. exists [], l, (concat ls). split; reflexivity.
    - destruct (IH I) as (bf & cm & af & E & Ec). destruct (TT data) as (ls & EL). rewrite EL in *. cbn [rbind] in E |- *.
      injection E as E.
      destruct (bounds_overlap b' plot); cbn [negb]; [destruct (cmds_total tr k p') as (l & ->)|]; cbn [rbind concat].
      + exists (l ++ bf), cm, af. split; [|exact Ec]. rewrite E. now rewrite <- app_assoc.
      + exists bf, cm, af. split; [|exact Ec]. now rewrite <- E. }
  exact X.
Qed.

(** ** Bounds *)
Definition no_short p : Prop := forall v1 v2, In (v1, v2) (spec_segs (vtx p) (is_closed p)) -> ~ short_arc v1 v2.

Lemma vertex_seg {A} (l : list A) c v : In v l -> spec_segs l c <> [] -> exists v', In (v, v') (spec_segs l c) \/ In (v', v) (spec_segs l c).
Proof.
  unfold spec_segs. intros I NE. destruct l as [|a [|b l]]; [easy|easy|]. clear NE. cbn [tl].
  assert (X : forall r x (y : list A), In v (x :: r) -> exists v', In (v, v') (combine (x :: r) (r ++ y)) \/ (r <> [] /\ In (v', v) (combine (x :: r) (r ++ y))) \/ (r = [] /\ v = x)).
  { clear. induction r as [|z r IH]; intros x y [<-|I].
    - exists x. now right; right.
    - easy.
    - exists z. left. cbn. now left.
    - destruct (IH z y I) as (v' & [H|[[Hr H]|[-> ->]]]).
      + exists v'. left. cbn. now right.
      + exists v'. right. left. split; [discriminate|]. cbn. now right.
      + exists x. right. left. split; [discriminate|]. cbn. now left. }
  destruct (X (b :: l) a (if c then [a] else []) I) as (v' & [H|[[_ H]|[E _]]]); [| |discriminate]; exists v'; [left|right]; exact H.
Qed.

Lemma vertex_on_path p v : pline_ok p -> spec_segs (vtx p) (is_closed p) <> [] -> In v (vtx p) -> on_path p (pos v).
Proof.
  intros Hok NE I. destruct (vertex_seg _ _ _ I NE) as (v' & [H|H]).
  - exists v, v'. split; [exact H|]. apply on_seg_ends. now apply Hok.
  - exists v', v. split; [exact H|]. apply on_seg_ends. now apply Hok.
Qed.

Lemma data_bounds p : pline_ok p -> no_short p ->
  exists b, plot_data_bounds p = Ret b /\ bounded_by p b
    /\ (b = None <-> vtx p = []) /\ (forall v, In v (vtx p) -> exists b', b = Some b' /\ inside b' 0 (pos v)).
Proof.
  intros Hok Hs. unfold plot_data_bounds, vertex_count, bounded_by, on_path.
  destruct (vtx p) as [|v [|v' l]] eqn:E; cbn [length].
  - exists None. split; [reflexivity|]. split; [|split; [easy|easy]]. intros q (v1 & v2 & [] & _).
  - unfold at_, index. rewrite E. cbn. eexists. split; [reflexivity|]. split; [intros q (v1 & v2 & [] & _)|]. split; [easy|].
    intros u [<-|[]]. eexists. split; [reflexivity|]. unfold inside. cbn. lra.
  - destruct (extents_spec p Hok) as [[X _]|(NE & b & Eb & _ & HB & _)]; [rewrite E in X; discriminate|].
    exists (Some b). split; [exact Eb|]. specialize (HB Hs). split; [|split; [easy|]].
    + intros q Hq. exists b. split; [reflexivity|]. apply HB. unfold on_path. now rewrite E.
    + intros u I. exists b. split; [reflexivity|]. apply HB. apply vertex_on_path; [exact Hok|exact NE|now rewrite E].
Qed.

Lemma covers_inside a b q : covers a b -> inside b 0 q -> inside a 0 q.
Proof. unfold covers, inside. lra. Qed.

Lemma shape_data_bounds s p b : shape_ok s -> In (p, b) (shape_plines s) -> pline_ok p ->
  bounded_by p b /\ bounded_by p (shape_bounds s).
Proof.
  intros (LO & boxes & F & IX) I Hok. unfold shape_plines in I. apply in_map_iff in I as (ip & E & I). injection E as <- <-.
  assert (HB : bounded_by (ip_pline ip) (index_bounds (ip_index ip))).
  { intros q (v1 & v2 & Is & Hq). rewrite Forall_forall in LO. destruct (LO ip I) as [HI _]. destruct HI as (EB & _).
    unfold index_bounds. rewrite EB.
    assert (IB : In (seg_fast_approx_bounding_box v1 v2) (map (fun s => seg_fast_approx_bounding_box (fst s) (snd s)) (spec_segs (vtx (ip_pline ip)) (is_closed (ip_pline ip))))).
    { apply in_map_iff. now exists (v1, v2). }
    pose proof (fast_box v1 v2 q (Hok _ _ Is) Hq) as Hi.
    destruct (map _ _) as [|b0 bs]; [easy|]. eexists. split; [reflexivity|].
    destruct (union_fold bs b0) as (C0 & CX & _).
    destruct IB as [E0|IB]; [rewrite <- E0 in Hi; exact (covers_inside _ _ _ C0 Hi)|exact (covers_inside _ _ _ (CX _ IB) Hi)]. }
  split; [exact HB|]. intros q Hq. destruct (HB q Hq) as (b & Eb & Hi).
  destruct IX as (EX & _). unfold shape_bounds, index_bounds. rewrite EX.
  assert (IB : In b boxes).
  { clear -F I Eb. induction F as [|x y l m H _ IH]; [easy|]. destruct I as [->|I]; [left; congruence|right; now apply IH]. }
  destruct boxes as [|b0 bs]; [easy|]. eexists. split; [reflexivity|].
  destruct (union_fold bs b0) as (C0 & CX & _).
  destruct IB as [E0|IB]; [rewrite <- E0 in Hi; exact (covers_inside _ _ _ C0 Hi)|exact (covers_inside _ _ _ (CX _ IB) Hi)].
Qed.

(** ** Vertexes *)
Lemma drawn_vertexes_spec plot (ps : list (pline R)) : exists f, drawn_vertexes plot ps = filter f (flat_map vtx ps)
  /\ forall v, f v = true <-> inside plot 0 (pos v).
Proof.
  eexists. split; [reflexivity|]. intros v. cbn beta. unfold inside, pos. cbn [vx vy]. rnum.
  rewrite negb_true_iff, !orb_false_iff, !rltb_false. lra.
Qed.
