(** Proofs about what the demo scenes compute (C61). *)
From Coq Require Import ZArith List Bool Arith Lia.
From Verif Require Import Num Res ModelMath ModelSeg ModelPline ModelIndex ModelBoolean ModelOffset ModelShape ModelUi.
From Verif Require Import Spec SpecGeom SpecUi ProofIter.
Import ListNotations.

Section Scenes.
Context {T : Type} {N : Num T}.
Implicit Types p q : pline T.

Definition turn_of p : orientation_t := match orientation p with Ret o => o | Panic _ => Open end.

Lemma orientation_ret p : orientation p = Ret (turn_of p).
Proof.
  unfold turn_of, orientation, area. rewrite iter_segments_spec. destruct (is_closed p); cbn [negb rbind]; [|reflexivity].
  destruct (_ <? _)%num; reflexivity.
Qed.

Definition mark p q : pline T * bool := (q, orientation_eqb (turn_of q) (turn_of p)).

Lemma orientation_eqb_eq a b : orientation_eqb a b = true <-> a = b.
Proof. destruct a, b; cbn; split; congruence. Qed.

Lemma marked_iff p qb : marked p qb <-> qb = mark p (fst qb).
Proof.
  unfold marked. destruct qb as [q b]. cbn [fst snd]. split.
  - intros (o & o' & E & E' & H). rewrite orientation_ret in E, E'. injection E as <-. injection E' as <-.
    unfold mark. f_equal. rewrite <- orientation_eqb_eq in H. destruct b, (orientation_eqb _ _); intuition congruence.
  - intros E. exists (turn_of p), (turn_of q). rewrite !orientation_ret. split; [reflexivity|]. split; [reflexivity|].
    injection E as ->. apply orientation_eqb_eq.
Qed.

Lemma marks_eq p marks : Forall (marked p) marks -> marks = map (mark p) (map fst marks).
Proof.
  induction 1 as [|qb l H _ IH]; [reflexivity|]. cbn [map]. rewrite <- IH. f_equal. now apply marked_iff.
Qed.

Lemma marks_ok p l : Forall (marked p) (map (mark p) l) /\ map fst (map (mark p) l) = l.
Proof.
  split; [apply Forall_forall; intros qb H; apply in_map_iff in H as (q & <- & _); now apply marked_iff|].
  rewrite map_map. cbn. apply map_id.
Qed.

Definition turns_like p q : bool := orientation_eqb (turn_of q) (turn_of p).

Lemma split_same_eq p l : split_same (turn_of p) l = Ret (filter (turns_like p) l, filter (fun q => negb (turns_like p q)) l).
Proof.
  induction l as [|q l IH]; [reflexivity|]. cbn [split_same filter]. rewrite orientation_ret. cbn [rbind]. rewrite IH. cbn [rbind fst snd].
  fold (turns_like p q). destruct (turns_like p q); reflexivity.
Qed.

Lemma marks_same p l : map (fun q => (q, true)) (filter (turns_like p) l) = filter snd (map (mark p) l).
Proof.
  induction l as [|q l IH]; [reflexivity|]. cbn [map filter]. unfold mark at 1. cbn [snd]. fold (turns_like p q).
  destruct (turns_like p q) eqn:E; [|exact IH]. cbn [map]. rewrite IH. unfold mark at 2. fold (turns_like p q). now rewrite E.
Qed.

Lemma marks_other p l : map (fun q => (q, false)) (filter (fun q => negb (turns_like p q)) l) = filter (fun qb => negb (snd qb)) (map (mark p) l).
Proof.
  induction l as [|q l IH]; [reflexivity|]. cbn [map filter]. unfold mark at 1. cbn [snd]. fold (turns_like p q).
  destruct (turns_like p q) eqn:E; [exact IH|]. cbn [negb map]. rewrite IH. unfold mark at 2. fold (turns_like p q). now rewrite E.
Qed.

Lemma fst_same p l : map fst (filter snd (map (mark p) l)) = filter (turns_like p) l.
Proof. rewrite <- marks_same, map_map. cbn. apply map_id. Qed.

Lemma rmapM_marks p l : rmapM (fun q => let! o' := orientation q in Ret (q, orientation_eqb o' (turn_of p))) l = Ret (map (mark p) l).
Proof.
  induction l as [|q l IH]; [reflexivity|]. cbn [rmapM]. rewrite orientation_ret. cbn [rbind]. rewrite IH. reflexivity.
Qed.

Lemma rmapM_forall2 {A B} (f : A -> res B) l m : rmapM f l = Ret m <-> Forall2 (fun a b => f a = Ret b) l m.
Proof.
  revert m. induction l as [|a l IH]; intros m; cbn [rmapM].
  - split; [intros E; injection E as <-; constructor|intros H; inversion H; reflexivity].
  - split.
    + destruct (f a) as [b|] eqn:Ea; cbn [rbind]; [|discriminate]. destruct (rmapM f l) as [m'|] eqn:El; cbn [rbind]; [|discriminate].
      intros E. injection E as <-. constructor; [exact Ea|]. now apply IH.
    + intros H. inversion H as [|? b ? m' Hb Hm]; subst. rewrite Hb. cbn [rbind]. apply IH in Hm. rewrite Hm. reflexivity.
Qed.

Section Mk.
Context (mk : list (aabb T) -> sindex T).
Implicit Types offset : T.

Lemma rounds_generations p offset opt n : forall qs acc rs,
  (let! st := offset_rounds mk n (turn_of p) offset opt (qs, acc) in
   let! last := rmapM (fun q => let! o' := orientation q in Ret (q, orientation_eqb o' (turn_of p))) (fst st) in
   Ret (snd st ++ last)) = Ret (acc ++ rs)
  <-> generations mk offset opt p n qs rs.
Proof.
  induction n as [|n IH]; intros qs acc rs.
  - cbn [offset_rounds rbind fst snd]. rewrite rmapM_marks. cbn [rbind]. split.
    + intros E. injection E as E. apply app_inv_head in E. subst rs.
      destruct (marks_ok p qs) as [H E]. rewrite <- E at 1. now constructor.
    + intros H. inversion H as [marks HM E1 E2|]; subst. f_equal. f_equal. symmetry. now apply marks_eq.
  - cbn [offset_rounds]. unfold offset_round. cbn [fst snd]. rewrite split_same_eq. cbn [rbind fst snd].
    split.
    + destruct (rmapM _ (filter (turns_like p) qs)) as [nexts|] eqn:EN; cbn [rbind]; [|discriminate].
      intros E.
      assert (X : exists rs', rs = filter snd (map (mark p) qs) ++ filter (fun qb => negb (snd qb)) (map (mark p) qs) ++ rs'
                  /\ generations mk offset opt p n (concat nexts) rs').
      { destruct (offset_rounds mk n (turn_of p) offset opt _) as [st|] eqn:ES; cbn [rbind] in E; [|discriminate].
        rewrite marks_same, marks_other in ES.
        (* what the later rounds add *)
        assert (A : forall k a b s, offset_rounds mk k (turn_of p) offset opt (a, b) = Ret s -> exists t, snd s = b ++ t).
        { clear. induction k as [|k IHk]; intros a b s; cbn [offset_rounds].
          - intros E. injection E as <-. exists []. cbn. now rewrite app_nil_r.
          - unfold offset_round. cbn [fst snd]. rewrite split_same_eq. cbn [rbind fst snd].
            destruct (rmapM _ _) as [nx|]; cbn [rbind]; [|discriminate]. intros E. destruct (IHk _ _ _ E) as (t & Et).
            rewrite Et, <- app_assoc. eexists. reflexivity. }
        destruct (A _ _ _ _ ES) as (t & Et).
        rewrite rmapM_marks in E. cbn [rbind] in E. injection E as E. rewrite Et, <- !app_assoc in E. apply app_inv_head in E.
        exists (t ++ map (mark p) (fst st)). split; [now rewrite <- E|].
        apply (IH _ (acc ++ filter snd (map (mark p) qs) ++ filter (fun qb => negb (snd qb)) (map (mark p) qs))).
        rewrite ES. cbn [rbind]. rewrite rmapM_marks. cbn [rbind]. rewrite Et, <- !app_assoc. reflexivity. }
      destruct X as (rs' & -> & G). destruct (marks_ok p qs) as [H Em]. rewrite <- Em at 1.
      apply gen_more with (nexts := nexts); [exact H| |exact G]. rewrite fst_same. now apply rmapM_forall2.
    + intros H. inversion H as [|n' marks nexts rs' HM HN G E1 E2 E3]; subst.
      pose proof (marks_eq _ _ HM) as Em.
      assert (EN : rmapM (fun q => parallel_offset_constructed mk q offset opt) (filter (turns_like p) (map fst marks)) = Ret nexts).
      { apply rmapM_forall2. rewrite <- fst_same, <- Em. exact HN. }
      rewrite EN. cbn [rbind]. rewrite marks_same, marks_other, <- Em.
      apply (IH _ (acc ++ filter snd marks ++ filter (fun qb => negb (snd qb)) marks)) in G.
      etransitivity; [exact G|]. f_equal. now rewrite <- !app_assoc.
Qed.

Lemma build_offset_generations p offset h n rs :
  build_offset mk p offset h n = Ret rs
  <-> exists first, parallel_offset_constructed mk p offset (OO (nlit 1 5) (nlit 1 4) (nlit 1 4) h) = Ret first
        /\ generations mk offset (OO (nlit 1 5) (nlit 1 4) (nlit 1 4) h) p (n - 1) first rs.
Proof.
  unfold build_offset. fold (scene_offset_options (N := N) h). rewrite orientation_ret. cbn [rbind]. split.
  - destruct (parallel_offset_constructed _ _ _ _) as [first|] eqn:E; cbn [rbind]; [|discriminate].
    intros H. exists first. split; [reflexivity|]. now apply (rounds_generations p offset _ (n - 1) first [] rs).
  - intros (first & E & G). rewrite E. cbn [rbind]. now apply (rounds_generations p offset _ (n - 1) first [] rs) in G.
Qed.

(** Every polyline shown is an offset of the input or of a polyline shown that turns like the input. *)
Lemma generations_origin p offset opt n qs rs : generations mk offset opt p n qs rs ->
  forall q b, In (q, b) rs -> marked p (q, b)
    /\ (In q qs \/ exists q' l, In (q', true) rs /\ parallel_offset_constructed mk q' offset opt = Ret l /\ In q l).
Proof.
  induction 1 as [marks HM|n marks nexts rs HM HN G IH]; intros q b I.
  - split; [rewrite Forall_forall in HM; now apply HM|]. left. apply in_map_iff. now exists (q, b).
  - rewrite !in_app_iff in I.
    assert (X : In (q, b) marks -> marked p (q, b)
      /\ (In q (map fst marks) \/ exists q' l, In (q', true) (filter snd marks ++ filter (fun qb => negb (snd qb)) marks ++ rs)
            /\ parallel_offset_constructed mk q' offset opt = Ret l /\ In q l)).
    { intros J. split; [rewrite Forall_forall in HM; now apply HM|]. left. apply in_map_iff. now exists (q, b). }
    destruct I as [I|[I|I]]; [apply filter_In in I as [I _]; now apply X|apply filter_In in I as [I _]; now apply X|].
    destruct (IH q b I) as [M [J|(q' & l & J & E & K)]]; (split; [exact M|]); right.
    + apply in_concat in J as (l & J & K).
      assert (Y : exists q', In q' (map fst (filter snd marks)) /\ parallel_offset_constructed mk q' offset opt = Ret l).
      { clear -HN J. induction HN as [|q' l' qs ls H _ IH]; [easy|]. destruct J as [<-|J]; [exists q'; split; [now left|exact H]|].
        destruct (IH J) as (q'' & I & E). exists q''. split; [now right|exact E]. }
      destruct Y as (q' & I' & E). apply in_map_iff in I' as ([q'' b'] & E' & I'). cbn in E'. subst q''.
      pose proof I' as I2. apply filter_In in I' as [_ Eb]. cbn in Eb. subst b'.
      exists q', l. split; [apply in_app_iff; now left|]. split; assumption.
    + exists q', l. split; [rewrite !in_app_iff; now right; right|]. split; assumption.
Qed.

Lemma build_offset_origin p offset h n rs q b : build_offset mk p offset h n = Ret rs -> In (q, b) rs ->
  marked p (q, b)
  /\ exists src l, (src = p \/ In (src, true) rs)
       /\ parallel_offset_constructed mk src offset (OO (nlit 1 5) (nlit 1 4) (nlit 1 4) h) = Ret l /\ In q l.
Proof.
  intros H I. apply build_offset_generations in H as (first & E & G).
  destruct (generations_origin _ _ _ _ _ _ G q b I) as [M [J|(q' & l & J & E' & K)]]; (split; [exact M|]).
  - exists p, first. split; [now left|]. split; assumption.
  - exists q', l. split; [now right|]. split; assumption.
Qed.

Lemma is_empty_iff (s : shape T) : shape_is_empty s = true <-> empty_shape s.
Proof. unfold shape_is_empty, empty_shape. destruct (sh_ccw s), (sh_cw s); split; (discriminate || easy). Qed.

Lemma offset_shapes_inv offset o n s l : offset_shapes mk offset o (S n) s l ->
  exists s', shape_parallel_offset mk s offset o = Ret s'
    /\ ((empty_shape s' /\ l = []) \/ (~ empty_shape s' /\ exists l', l = s' :: l' /\ offset_shapes mk offset o n s' l')).
Proof.
  intros H. inversion H; subst; eexists; (split; [eassumption|]); [left; now split|right; split; [assumption|]].
  eexists. split; [reflexivity|assumption].
Qed.

Lemma loop_eq n offset cur : offset_shapes_loop mk (S n) offset cur =
    if shape_is_empty cur then Ret []
    else if Nat.eqb n 0 then Ret [cur]
    else let! next := shape_parallel_offset mk cur offset scene_shape_options in
         let! rest := offset_shapes_loop mk n offset next in Ret (cur :: rest).
Proof. reflexivity. Qed.

(** The loop starting at [cur], which was got from [prev]. *)
Lemma shapes_loop offset prev cur n l : shape_parallel_offset mk prev offset scene_shape_options = Ret cur ->
  offset_shapes_loop mk (S n) offset cur = Ret l <-> offset_shapes mk offset scene_shape_options (S n) prev l.
Proof.
  revert prev cur l. induction n as [|n IH]; intros prev cur l E; rewrite loop_eq;
    (destruct (shape_is_empty cur) eqn:EE;
     [apply is_empty_iff in EE; split;
      [intros H; injection H as <-; now apply os_empty with (s' := cur)
      |intros H; apply offset_shapes_inv in H as (s' & E' & [[_ ->]|[X _]]); [reflexivity|]; rewrite E in E'; injection E' as <-; contradiction]|]);
    assert (NE : ~ empty_shape cur) by (rewrite <- is_empty_iff; congruence); cbn [Nat.eqb]; split.
  - intros H. injection H as <-. apply os_next with (s' := cur); [exact E|exact NE|constructor].
  - intros H. apply offset_shapes_inv in H as (s' & E' & X). rewrite E in E'. injection E' as <-.
    destruct X as [[X _]|(_ & l' & -> & Y)]; [contradiction|]. inversion Y. reflexivity.
  - destruct (shape_parallel_offset mk cur offset scene_shape_options) as [next|] eqn:EN; [|cbn; discriminate]. cbn [rbind].
    intros H.
    destruct (offset_shapes_loop mk (S n) offset next) as [rest|] eqn:ER; cbn [rbind] in H; [|discriminate].
    injection H as <-. apply os_next with (s' := cur); [exact E|exact NE|]. now apply (IH cur next rest EN).
  - intros H. apply offset_shapes_inv in H as (s' & E' & X). rewrite E in E'. injection E' as <-.
    destruct X as [[X _]|(_ & l' & -> & Y)]; [contradiction|].
    destruct (offset_shapes_inv _ _ _ _ _ Y) as (next & EN & _). rewrite EN. cbn [rbind]. apply (IH cur next l' EN) in Y.
    rewrite Y. reflexivity.
Qed.

Lemma build_offsets_shapes plines offset n s l :
  build_offsets mk plines offset n = Ret (s, l)
  <-> shape_from_plines mk plines = Ret s /\ offset_shapes mk offset (SO (nlit 1 5) (nlit 1 4) (nlit 1 4)) n s l.
Proof.
  unfold build_offsets. fold (scene_shape_options (N := N)). destruct (shape_from_plines mk plines) as [s'|] eqn:E; cbn [rbind].
  2:{ split; [discriminate|]. intros [H _]. discriminate. }
  destruct n as [|n]; cbn [Nat.eqb].
  - split.
    + intros H. injection H as <- <-. split; [reflexivity|constructor].
    + intros [H X]. injection H as <-. inversion X. reflexivity.
  - split.
    + destruct (shape_parallel_offset mk s' offset scene_shape_options) as [first|] eqn:EF; [|cbn; discriminate]. cbn [rbind].
      destruct (offset_shapes_loop mk (S n) offset first) as [l'|] eqn:EL; cbn [rbind]; [|discriminate].
      intros H. injection H as <- <-. split; [reflexivity|]. now apply (shapes_loop offset s' first n l' EF).
    + intros [H X]. injection H as <-.
      assert (EF : exists first, shape_parallel_offset mk s' offset scene_shape_options = Ret first) by (destruct (offset_shapes_inv _ _ _ _ _ X) as (f & Ef & _); now exists f).
      destruct EF as (first & EF). rewrite EF. cbn [rbind]. apply (shapes_loop offset s' first n l EF) in X. rewrite X. reflexivity.
Qed.

(** Which operation a mode of the scene asks for. *)
Lemma boolean_scene p1 p2 mode :
  build_boolean_result mk p1 p2 mode
  = match mode with
    | ModeNone => Ret None
    | _ =>
      if Nat.ltb (length (vtx p1)) 2 || Nat.ltb (length (vtx p2)) 2 || negb (is_closed p1 && is_closed p2) then Ret None
      else let! r := boolean_constructed mk p1 p2 (match mode with ModeOr => BOr | ModeAnd => BAnd | ModeNot => BNot | _ => BXor end) (nlit 1 5) in Ret (Some r)
    end.
Proof.
  unfold build_boolean_result, vertex_count.
  destruct mode, (length (vtx p1) <? 2), (length (vtx p2) <? 2), (is_closed p1), (is_closed p2); reflexivity.
Qed.
End Mk.
End Scenes.
