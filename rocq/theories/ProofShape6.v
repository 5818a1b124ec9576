(** Shapes (C37): the whole offset. *)
From Coq Require Import List Bool Arith Permutation Sorted Lia.
From Verif Require Import Num Res ModelMath ModelSeg ModelPline ModelView ModelIndex ModelIntersects ModelBoolean ModelOffset ModelShape.
From Verif Require Import Spec SpecPline SpecView SpecIndex SpecStitch SpecIntersects SpecChain SpecShape.
From Verif Require Import ProofBase ProofRepeat ProofIter ProofView ProofIndex2 ProofFind ProofJoin ProofPrune ProofStitch ProofOffset2 ProofOffsetTotal ProofChain ProofShape ProofShape2 ProofShape3 ProofShape4 ProofShape5.
Import ListNotations.

Section ShapeOffset.
Context {T : Type} {N : Num T} (mk : list (aabb T) -> sindex T).
Hypothesis MK : makes_index mk.
Context (s : shape T) (offset : T) (o : shape_options T).
Hypothesis OK : Forall loop_ok (sh_ccw s ++ sh_cw s).
Local Notation inputs := (sh_ccw s ++ sh_cw s).

Lemma filter_all {A} (f : A -> bool) l : (forall x, In x l -> f x = true) -> filter f l = l.
Proof. induction l as [|a l IH]; intros H; [reflexivity|]. cbn [filter]. rewrite (H a (or_introl eq_refl)), IH; [reflexivity|]. intros x Hx. apply H. right. exact Hx. Qed.
Lemma filter_nothing {A} (f : A -> bool) l : (forall x, In x l -> f x = false) -> filter f l = [].
Proof. induction l as [|a l IH]; intros H; [reflexivity|]. cbn [filter]. rewrite (H a (or_introl eq_refl)). apply IH. intros x Hx. apply H. right. exact Hx. Qed.

(** The outlines that are not negative come first. *)
Lemma outlines_split n (rss : list (list (pline T))) i x : nth_error (outlines n offset rss) i = Some x ->
  (i <? length (filter nonneg (outlines n offset rss))) = nonneg x.
Proof.
  unfold outlines. cbv zeta. set (kp := filter _ (numbered rss)). change (fun x => negb (negative (snd x))) with (@nonneg T N). change (fun x => negative (snd x)) with (@neg T N).
  rewrite filter_app. rewrite (filter_all nonneg (filter nonneg kp)) by (intros y Hy; apply filter_In in Hy; apply Hy).
  rewrite (filter_nothing nonneg (filter neg kp)) by (intros y Hy; apply filter_In in Hy as (_ & Hy); unfold nonneg; unfold neg in Hy; now rewrite Hy).
  rewrite app_nil_r. intros H. destruct (Nat.ltb_spec i (length (filter nonneg kp))) as [L|L].
  - rewrite nth_error_app1 in H by exact L. apply nth_error_In, filter_In in H as (_ & H). symmetry. exact H.
  - rewrite nth_error_app2 in H by exact L. apply nth_error_In, filter_In in H as (_ & H). unfold nonneg. unfold neg in H. now rewrite H.
Qed.

Lemma combine_map_l {A B C} (f : A -> B) (l : list A) (m : list C) : combine (map f l) m = map (fun x => (f (fst x), snd x)) (combine l m).
Proof. revert m. induction l as [|a l IH]; intros [|c m]; [reflexivity..|]. cbn [map combine]. now rewrite IH. Qed.

Lemma kept_ips_whole (loops : list (offset_loop T)) rs g : map ip_pline (kept_ips loops rs g) = filter g (whole_loops (map oview loops) rs).
Proof.
  unfold kept_ips, whole_loops. rewrite combine_map_l. generalize (combine loops rs) as l. induction l as [|x l IH]; [reflexivity|].
  cbn [map filter fst snd]. destruct (fst (snd x)); cbn [andb filter map fst snd oview]; [|exact IH].
  destruct (g (ip_pline (ol_pline (fst x)))); cbn [map]; rewrite IH; reflexivity.
Qed.

Lemma kept_ips_in (loops : list (offset_loop T)) rs g ip : In ip (kept_ips loops rs g) -> exists l, In l loops /\ ol_pline l = ip.
Proof.
  intros H. unfold kept_ips in H. apply in_map_iff in H as ((l, r) & <- & H). apply filter_In in H as (H & _). exists l. split; [eapply in_combine_l; exact H|reflexivity].
Qed.

Lemma numbered_In {A} (ls : list (list A)) i x : In (i, x) (numbered ls) -> exists l, nth_error ls i = Some l /\ In x l.
Proof.
  change (@numbered A) with (@numbered_from A 0). assert (G : forall k, In (i, x) (numbered_from k ls) -> exists l, k <= i /\ nth_error ls (i - k) = Some l /\ In x l).
  { induction ls as [|l ls IH]; intros k H; [destruct H|]. rewrite numbered_from_cons in H. apply in_app_or in H as [H|H].
    - apply in_map_iff in H as (y & E & H). injection E as <- <-. exists l. rewrite Nat.sub_diag. auto.
    - destruct (IH (S k) H) as (l' & L & E & I). exists l'. split; [lia|]. replace (i - k) with (S (i - S k)) by lia. auto. }
  intros H. destruct (G 0 H) as (l & _ & E & I). rewrite Nat.sub_0_r in E. eauto.
Qed.

Lemma joined_count (K : list (vertex T)) : vertex_count (joined K) < 2 <-> length K < 2.
Proof.
  unfold joined. destruct (Nat.ltb_spec 2 (length K)) as [L|L]; unfold vertex_count; cbn [vtx]; [|reflexivity].
  destruct K as [|v K] using rev_ind; [cbn in L; lia|]. rewrite removelast_last. rewrite app_length in *. cbn [length] in *. lia.
Qed.

Lemma shape_offset_spec : offset_of_shape mk inputs (length (sh_ccw s)) offset o (shape_parallel_offset mk s offset o).
Proof.
  assert (HI : Forall has_index inputs) by (eapply Forall_impl; [|exact OK]; intros ip (H & _); exact H).
  destruct (create_loops_spec mk MK offset o s OK) as (rss & ll & R & EL & (VIEW & HX) & LEN). exists rss. split; [exact R|]. cbv zeta.
  set (outs := outlines (length (sh_ccw s)) offset rss) in *. set (loops := fst ll ++ snd ll) in *.
  assert (LN : length outs = length loops) by (rewrite <- VIEW, map_length; reflexivity).
  unfold shape_parallel_offset. rewrite EL. cbn [rbind]. fold loops. cbv zeta.
  assert (SPLIT : forall i l, nth_error loops i = Some l -> (i <? length (fst ll)) = negb (negative (ip_pline (ol_pline l)))).
  { intros i l H. rewrite LEN. unfold outs. erewrite (outlines_split _ rss i); [|fold outs; rewrite <- VIEW; apply map_nth_error; exact H]. reflexivity. }
  clearbody loops outs.
  split; [|split].
  - intros E. rewrite E in LN. destruct loops; [|discriminate]. exists (SH [] [] (mk [])). split; [reflexivity|]. split; [|split; reflexivity].
    split; [constructor|]. exists []. split; [constructor|apply MK].
  - intros X. assert (X' : Exists (fun ip => vertex_count (ip_pline ip) < 2) (map ol_pline loops)).
    { rewrite <- VIEW in X. clear - X. apply Exists_exists in X as (x & I & L). apply in_map_iff in I as (l & <- & I). apply Exists_exists. exists (ol_pline l). split; [apply in_map; exact I|exact L]. }
    rewrite (index_of_bounds_panics mk (map ol_pline loops)); [|now apply Forall_map|exact X']. destruct loops; [inversion X'|reflexivity].
  - intros NE TWO. assert (LOK : Forall (fun l => loop_ok (ol_pline l)) loops).
    { rewrite Forall_forall in HX, TWO |- *. intros l H. split; [apply HX; exact H|]. apply (TWO (oview l)). rewrite <- VIEW. apply in_map. exact H. }
    destruct (index_of_bounds_ok mk (map ol_pline loops)) as (boxes & EI & BOX); [now apply Forall_map|].
    destruct (slice_points_spec loops (mk boxes) boxes o BOX (MK boxes) HX) as (sp & ESP & ESETS & LK).
    destruct (dissect_all_spec mk s offset o HI loops (mk boxes) boxes (length (fst ll)) (sst_lookup sp) BOX (MK boxes) LOK SPLIT LK) as (rs & dl & ED & LR & RES & DL).
    set (sn := numbered (map snd rs)) in *. set (M := meet loops boxes o) in *.
    assert (FIT : forall k d, In (k, d) sn -> exists l, nth_error dl k = Some l /\ nth_error (map snd outs) k = Some (ip_pline (ol_pline l)) /\ view_fits (ip_pline (ol_pline l)) d).
    { intros k d H. apply numbered_In in H as (ds & E & I). rewrite nth_error_map in E. destruct (nth_error rs k) as [r|] eqn:ER; [|discriminate]. injection E as <-.
      assert (Lk : k < length loops) by (rewrite <- LR; apply nth_error_Some; congruence).
      destruct (nth_error loops k) as [l|] eqn:El; [|apply nth_error_None in El; lia]. specialize (RES k l r El ER).
      assert (LO : loop_ok (ol_pline l)) by (rewrite Forall_forall in LOK; apply LOK; eapply nth_error_In; exact El).
      unfold loop_result in RES. destruct (cuts_of M (length loops) k) as [|c cs] eqn:EC; [destruct RES as (X & _); rewrite X in I; destruct I|].
      destruct RES as (X & SL). exists l. split; [|split].
      - rewrite DL; [exact El|]. intros r' Hr. rewrite ER in Hr. injection Hr as <-. exact X.
      - rewrite <- VIEW, map_map. apply (map_nth_error (fun l => snd (oview l))). exact El.
      - eapply sliced_fits; [apply LO| |exact SL|exact I]. intros c' Hc'. rewrite <- EC in Hc'. apply (cuts_indexes loops boxes o HX k l c' El Hc'). }
    assert (EQ1 : forall (k : shape T), match loops with [] => Ret k | _ :: _ => shape_parallel_offset mk s offset o end = shape_parallel_offset mk s offset o) by (intros; destruct loops; [cbn in LN; destruct outs; [congruence|discriminate]|reflexivity]).
    clear EQ1.
    match goal with |- exists rs Ks, _ /\ (_ -> ?X = _) /\ _ => set (RHS := X) end.
    assert (ERHS : RHS = (let! st := rfold (stitch_shape_from mk dl (map mkds sn) (mk (map (fun sl => aabb_grow (point_box (pos (vd_updated_start (ds_view sl)))) (so_slice_join_eps o)) (map mkds sn))) o) (seq 0 (length (map mkds sn)))
                     (repeat false (length (map mkds sn)), (kept_ips loops rs (fun p => negb (negative p)), kept_ips loops rs negative)) in
      let! pidx := index_of_bounds mk (fst (snd st) ++ snd (snd st)) in Ret (SH (fst (snd st)) (snd (snd st)) pidx))).
    { unfold RHS. destruct loops as [|l0 loops'] eqn:ELO; [cbn in LN; destruct outs; [congruence|discriminate]|]. rewrite <- ELO in *. rewrite EI. cbn [rbind]. rewrite ESP. cbn [rbind]. rewrite ESETS, ED. reflexivity. }
    clearbody RHS. rewrite map_length in ERHS.
    destruct (shape_stitch_spec mk MK dl (map snd outs) sn o (mk (map (fun sl => aabb_grow (point_box (pos (vd_updated_start (ds_view sl)))) (so_slice_join_eps o)) (map mkds sn)))) with
      (ccw0 := kept_ips loops rs (fun p => negb (negative p))) (cw0 := kept_ips loops rs negative) as (chains & Ks & ips & ES & AC & PM & (RM & RH)).
    { rewrite !map_map. apply MK. }
    { exact FIT. }
    rewrite ES in ERHS. cbn [rbind fst snd] in ERHS.
    exists rs, Ks. split; [|split].
    + exists (map ol_pline loops), M, chains. rewrite LN. split; [|split; [|split; [exact LR|split]]].
      * rewrite <- VIEW. clear - LOK. induction LOK as [|l ls H F IH]; cbn [map]; constructor; [split; [reflexivity|exact H]|exact IH].
      * intros i j Hi Hj. apply meet_meeting; assumption.
      * intros i x r Hx Hr. rewrite <- VIEW, nth_error_map in Hx. destruct (nth_error loops i) as [l|] eqn:El; [|discriminate]. injection Hx as <-. apply (RES i l r El Hr).
      * split; [exact AC|exact PM].
    + intros X. rewrite ERHS. rewrite (index_of_bounds_panics mk); [reflexivity| |].
      * apply Forall_forall. intros ip H. rewrite !in_app_iff in H. rewrite Forall_forall in HX, RH.
        destruct H as [[H|H]|[H|H]]; try (apply kept_ips_in in H as (l & Hl & <-); apply HX; exact Hl); apply filter_In in H as (H & _); apply RH; exact H.
      * assert (Y : Exists (fun p => vertex_count p < 2) (map ip_pline ips)).
        { rewrite RM. clear - X. induction X; cbn [map]; [left; now apply joined_count|right; assumption]. }
        apply Exists_exists in Y as (p & I & L). apply in_map_iff in I as (ip & <- & I). apply Exists_exists. exists ip. split; [|exact L].
        rewrite !in_app_iff. destruct (is_ccw ip) eqn:E; [left|right]; right; apply filter_In; rewrite E; auto.
    + intros X. destruct (index_of_bounds_ok mk ((kept_ips loops rs (fun p => negb (negative p)) ++ filter is_ccw ips) ++ kept_ips loops rs negative ++ filter (fun x => negb (is_ccw x)) ips)) as (bx & EB & FB).
      { assert (IO : forall ip, In ip ips -> loop_ok ip).
        { intros ip I. split; [rewrite Forall_forall in RH; apply RH; exact I|]. apply (in_map ip_pline) in I. rewrite RM in I. apply in_map_iff in I as (K & <- & I).
          rewrite Forall_forall in X. specialize (X K I). pose proof (joined_count K). lia. }
        rewrite Forall_forall in LOK. apply Forall_forall. intros ip H. rewrite !in_app_iff in H.
        destruct H as [[H|H]|[H|H]]; try (apply kept_ips_in in H as (l & Hl & <-); apply LOK; exact Hl); apply filter_In in H as (H & _); apply IO; exact H. }
      rewrite EB in ERHS. cbn [rbind] in ERHS. eexists. split; [exact ERHS|]. split.
      * split; cbn [sh_ccw sh_cw sh_index].
        -- clear - FB HX RH X RM LOK. apply Forall_forall. intros ip H.
           assert (IO : forall ip, In ip ips -> loop_ok ip).
           { intros ip' I. split; [rewrite Forall_forall in RH; apply RH; exact I|]. apply (in_map ip_pline) in I. rewrite RM in I. apply in_map_iff in I as (K & <- & I).
             rewrite Forall_forall in X. specialize (X K I). pose proof (joined_count K). lia. }
           rewrite Forall_forall in LOK. rewrite !in_app_iff in H.
           destruct H as [[H|H]|[H|H]]; try (apply kept_ips_in in H as (l & Hl & <-); apply LOK; exact Hl); apply filter_In in H as (H & _); apply IO; exact H.
        -- exists bx. split; [exact FB|apply MK].
      * assert (FM : forall (g : pline T -> bool) l, map ip_pline (filter (fun ip => g (ip_pline ip)) l) = filter g (map ip_pline l)).
        { intros g. induction l as [|a l IH]; [reflexivity|]. cbn [map filter]. destruct (g (ip_pline a)); cbn [map]; rewrite IH; reflexivity. }
        split; cbn [sh_ccw sh_cw]; rewrite map_app, kept_ips_whole, VIEW; f_equal; rewrite <- RM; [apply (FM loop_ccw)|apply (FM (fun p => negb (loop_ccw p)))].
Qed.
End ShapeOffset.
