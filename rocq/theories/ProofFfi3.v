(** C functions give what the functions they wrap give. *)
From Coq Require Import ZArith Nnat Bool List Arith Lia Reals Lra.
From Verif Require Import Num Res RNum ProofR ModelMath ModelSeg ModelPline ModelRedundant ModelView ModelIndex ModelIntersects
  ModelBoolean ModelOffset ModelFfi SpecFfi ProofFfi ProofFfi2.
Import ListNotations.

Section Wraps.
Context {T : Type} {N_ : Num T}.
Variable mk : list (aabb T) -> sindex T.
Implicit Types m : mem T.

Lemma kept_app m s : kept m (m ++ s).
Proof. intros b L. now rewrite nth_error_app1. Qed.
Lemma kept_trans m m1 m2 : length m <= length m1 -> kept m m1 -> kept m1 m2 -> kept m m2.
Proof. intros L A B b H. rewrite B by lia. now apply A. Qed.
Lemma new_at m o : nth_error (m ++ [Some o]) (length m) = Some (Some o).
Proof. rewrite nth_error_app2, Nat.sub_diag by lia. reflexivity. Qed.

Theorem create_wraps m l n c : N.to_nat n <= length l ->
  exists a m1, run_call mk m (CCreate (Some l) n c) = Done 0 (WPtr a) m1
    /\ is_pline m1 a (PL (firstn (N.to_nat n) l) (negb (N.eqb c 0))) /\ length m <= a /\ kept m m1.
Proof.
  intros L. cbn [run_call]. unfold cavc_pline_create. cbv zeta. unfold alloc, ret.
  destruct (N.eqb_spec n 0) as [->|NZ].
  - eexists _, _. split; [reflexivity|]. split; [apply new_at|]. split; [reflexivity|apply kept_app].
  - rewrite raw_parts_ok by exact L. eexists _, _. split; [reflexivity|]. split; [apply new_at|].
    split; [reflexivity|apply kept_app].
Qed.

Theorem create_null_wraps m n c :
  exists a m1, run_call mk m (CCreate None n c) = Done 0 (WPtr a) m1
    /\ is_pline m1 a (PL [] (negb (N.eqb c 0))) /\ length m <= a /\ kept m m1.
Proof.
  eexists _, _. split; [reflexivity|]. split; [apply new_at|]. split; [reflexivity|apply kept_app].
Qed.

Theorem clone_wraps m a p : is_pline m a p ->
  exists b m1, run_call mk m (CClone (Some a)) = Done 0 (WPtr b) m1 /\ is_pline m1 b p /\ length m <= b /\ kept m m1.
Proof.
  intros P. cbn [run_call]. unfold cavc_pline_clone. rewrite (with_pline_ok _ _ _ _ P).
  eexists _, _. split; [reflexivity|]. split; [apply new_at|]. split; [reflexivity|apply kept_app].
Qed.

Theorem measures_wrap m a p : is_pline m a p ->
  run_call mk m (CGetClosed (Some a)) = Done 0 (WU32 (if is_closed p then 1%N else 0%N)) m
  /\ ((N.of_nat (length (vtx p)) < 4294967296)%N ->
        run_call mk m (CGetCount (Some a)) = Done 0 (WU32 (N.of_nat (length (vtx p)))) m)
  /\ (forall cap, length (vtx p) <= cap -> run_call mk m (CGetData (Some a) (Some cap)) = Done 0 (WVertexes (vtx p)) m)
  /\ (forall x, path_length p = Ret x -> run_call mk m (CPathLength (Some a)) = Done 0 (WF64 x) m)
  /\ (forall x, area p = Ret x -> run_call mk m (CArea (Some a)) = Done 0 (WF64 x) m)
  /\ (forall x y w, winding_number p (V2 x y) = Ret w -> run_call mk m (CWinding (Some a) x y) = Done 0 (WI32 w) m)
  /\ (forall b, extents p = Ret (Some b) -> run_call mk m (CExtents (Some a)) = Done 0 (WBox (Some b)) m)
  /\ (extents p = Ret None -> run_call mk m (CExtents (Some a)) = Done 2 WNothing m).
Proof.
  intros P. cbn [run_call].
  unfold cavc_pline_get_is_closed, cavc_pline_get_vertex_count, cavc_pline_get_vertex_data, cavc_pline_eval_path_length,
    cavc_pline_eval_area, cavc_pline_eval_wn, cavc_pline_eval_extents.
  rewrite !(with_pline_ok _ _ _ _ P).
  split; [reflexivity|]. split.
  { intros L. unfold try_u32, vertex_count. destruct (N.ltb_spec (N.of_nat (length (vtx p))) u32_max1) as [H|H]; [reflexivity|].
    unfold u32_max1 in H. lia. }
  split.
  { intros cap L. unfold vertex_count. rewrite (with_pline_ok _ _ _ _ P). destruct (Nat.leb_spec (length (vtx p)) cap); [reflexivity|lia]. }
  split; [intros x ->; reflexivity|]. split; [intros x ->; reflexivity|].
  split; [intros x y w E; rewrite (with_pline_ok _ _ _ _ P), E; reflexivity|].
  split; [intros b ->; reflexivity|intros ->; reflexivity].
Qed.

Lemma in_place_wraps m a p f q : is_pline m a p -> f p = Ret q ->
  in_place m (Some a) f = Done 0 WNothing (write_obj m a (OPline q)).
Proof. intros P E. unfold in_place. rewrite (with_pline_ok _ _ _ _ P), E. reflexivity. Qed.
Lemma write_changed m a p q : is_pline m a p -> changed_to m (write_obj m a (OPline q)) a q.
Proof.
  intros P. split.
  - unfold is_pline. rewrite (nth_write m a _ (OPline q) a P). now rewrite Nat.eqb_refl.
  - split; [apply length_list_set|]. intros b NE. rewrite (nth_write m a _ (OPline q) b P).
    destruct (Nat.eqb_spec a b); [congruence|]. destruct (Nat.eqb_spec b a); [congruence|reflexivity].
Qed.

Theorem edits_wrap m a p : is_pline m a p ->
  (forall n, run_call mk m (CReserve (Some a) n) = Done 0 WNothing m)
  /\ (exists m1, run_call mk m (CClear (Some a)) = Done 0 WNothing m1 /\ changed_to m m1 a (PL [] (is_closed p)))
  /\ (forall x y b, exists m1, run_call mk m (CAdd (Some a) x y b) = Done 0 WNothing m1
        /\ changed_to m m1 a (PL (vtx p ++ [Vtx x y b]) (is_closed p)))
  /\ (forall q, invert_direction_mut p = Ret q ->
        exists m1, run_call mk m (CInvert (Some a)) = Done 0 WNothing m1 /\ changed_to m m1 a q)
  /\ (forall s q, scale_mut p s = Ret q ->
        exists m1, run_call mk m (CScale (Some a) s) = Done 0 WNothing m1 /\ changed_to m m1 a q)
  /\ (forall x y q, translate_mut p x y = Ret q ->
        exists m1, run_call mk m (CTranslate (Some a) x y) = Done 0 WNothing m1 /\ changed_to m m1 a q)
  /\ (forall eps r, remove_repeat_pos p eps = Ret r ->
        exists m1, run_call mk m (CRemoveRepeat (Some a) eps) = Done 0 WNothing m1
          /\ changed_to m m1 a (match r with Some q => q | None => p end))
  /\ (forall eps r, remove_redundant p eps = Ret r ->
        exists m1, run_call mk m (CRemoveRedundant (Some a) eps) = Done 0 WNothing m1
          /\ changed_to m m1 a (match r with Some q => q | None => p end)).
Proof.
  intros P. cbn [run_call].
  split; [intros n; unfold cavc_pline_reserve; now rewrite (with_pline_ok _ _ _ _ P)|].
  split; [unfold cavc_pline_clear; rewrite (with_pline_ok _ _ _ _ P); eexists; split; [reflexivity|now apply (write_changed m a p)]|].
  split; [intros; unfold cavc_pline_add; rewrite (with_pline_ok _ _ _ _ P); eexists; split; [reflexivity|now apply (write_changed m a p)]|].
  unfold cavc_pline_invert_direction, cavc_pline_scale, cavc_pline_translate, cavc_pline_remove_repeat_pos,
    cavc_pline_remove_redundant.
  split; [intros q E; eexists; split; [exact (in_place_wraps m a p _ q P E)|now apply (write_changed m a p)]|].
  split; [intros s q E; eexists; split; [exact (in_place_wraps m a p (fun p => scale_mut p s) q P E)|now apply (write_changed m a p)]|].
  split; [intros x y q E; eexists; split; [exact (in_place_wraps m a p (fun p => translate_mut p x y) q P E)|now apply (write_changed m a p)]|].
  split; intros eps r E; eexists;
    (split; [apply (in_place_wraps m a p); [exact P|unfold or_unchanged; rewrite E; reflexivity]|now apply (write_changed m a p)]).
Qed.

Lemma forall2_imp {A B} (P Q : A -> B -> Prop) l r : Forall2 P l r -> (forall x y, P x y -> Q x y) -> Forall2 Q l r.
Proof. induction 1; constructor; auto. Qed.

Lemma new_plines l : forall m s,
  Forall2 (is_pline (m ++ map (fun p => Some (OPline p)) l ++ s)) (seq (length m) (length l)) l.
Proof.
  induction l as [|p l IH]; intros m s; [constructor|]. cbn [length seq map app]. constructor.
  - unfold is_pline. rewrite nth_error_app2, Nat.sub_diag by lia. reflexivity.
  - specialize (IH (m ++ [Some (OPline p)]) s). rewrite app_length in IH. cbn [length] in IH.
    replace (length m + 1) with (S (length m)) in IH by lia. rewrite <- app_assoc in IH. exact IH.
Qed.

Lemma listed_new m l a m1 : plinelist_from_internal m l = (a, m1) ->
  holds m1 a l /\ length m <= a /\ a < length m1 /\ exists s, m1 = m ++ s.
Proof.
  unfold plinelist_from_internal. destruct (alloc_plines m l) as [r m2] eqn:E. unfold alloc. intros [= <- <-].
  apply alloc_plines_spec in E. destruct E as [-> ->].
  split; [|split; [rewrite app_length; lia|split; [rewrite !app_length; cbn; lia|eexists; symmetry; apply app_assoc]]].
  exists (seq (length m) (length l)). split; [apply new_at|].
  rewrite <- app_assoc.
  apply new_plines.
Qed.

Theorem offset_default_wraps m a p d l : is_pline m a p ->
  parallel_offset_constructed mk p d (OO (nlit 1 5) (nlit 1 4) (nlit 1 4) false) = Ret l ->
  exists b m1, run_call mk m (COffset (Some a) d None) = Done 0 (WPtr b) m1 /\ holds m1 b l /\ length m <= b /\ kept m m1.
Proof.
  intros P E. cbn [run_call]. unfold cavc_pline_parallel_offset. rewrite (with_pline_ok _ _ _ _ P). cbv zeta.
  unfold default_offset_options. cbn [co_index option_index co_pos_equal_eps co_slice_join_eps co_offset_dist_eps co_handle N.eqb negb].
  rewrite E. cbn [rbind]. destruct (plinelist_from_internal m l) as [b m1] eqn:F. cbn [catch].
  destruct (listed_new _ _ _ _ F) as (H & L & _ & s & ->). eexists _, _. split; [reflexivity|]. split; [exact H|].
  split; [exact L|apply kept_app].
Qed.

Theorem offset_options_wraps m a p d l h e1 e2 e3 f : is_pline m a p ->
  (h = None /\ parallel_offset_constructed mk p d (OO e1 e2 e3 (negb (N.eqb f 0))) = Ret l
   \/ exists i x, h = Some i /\ is_index m i x /\ parallel_offset mk p x d (OO e1 e2 e3 (negb (N.eqb f 0))) = Ret l) ->
  exists b m1, run_call mk m (COffset (Some a) d (Some (CO h e1 e2 e3 f))) = Done 0 (WPtr b) m1
    /\ holds m1 b l /\ length m <= b /\ kept m m1.
Proof.
  intros P E. cbn [run_call]. unfold cavc_pline_parallel_offset. rewrite (with_pline_ok _ _ _ _ P). cbv zeta.
  cbn [co_index co_pos_equal_eps co_slice_join_eps co_offset_dist_eps co_handle].
  destruct E as [[-> E]|(i & x & -> & X & E)].
  - cbn [option_index]. rewrite E. cbn [rbind]. destruct (plinelist_from_internal m l) as [b m1] eqn:F. cbn [catch].
    destruct (listed_new _ _ _ _ F) as (H & L & _ & s & ->). eexists _, _. split; [reflexivity|]. split; [exact H|].
    split; [exact L|apply kept_app].
  - unfold is_index in X. unfold option_index. rewrite (proj2 (read_nth m i _) X). rewrite E. cbn [rbind].
    destruct (plinelist_from_internal m l) as [b m1] eqn:F. cbn [catch].
    destruct (listed_new _ _ _ _ F) as (H & L & _ & s & ->). eexists _, _. split; [reflexivity|]. split; [exact H|].
    split; [exact L|apply kept_app].
Qed.

Lemma holds_app m s b l : holds m b l -> holds (m ++ s) b l.
Proof.
  intros (ids & I & F). exists ids. unfold is_list, is_pline in *. split.
  - rewrite nth_error_app1 by (now apply nth_lt in I). exact I.
  - refine (forall2_imp _ _ _ _ F _). intros x q H. rewrite nth_error_app1 by (now apply nth_lt in H). exact H.
Qed.

Lemma boolean_lists m (r : boolean_result T) :
  exists b1 b2 m2, (let '(a, m1) := plinelist_from_internal m (map brp_pline (br_pos r)) in
     let '(b, m2) := plinelist_from_internal m1 (map brp_pline (br_neg r)) in
     Ret (ret m2 0 (WPtrs a b))) = Ret (Done 0 (WPtrs b1 b2) m2)
   /\ holds m2 b1 (map brp_pline (br_pos r)) /\ holds m2 b2 (map brp_pline (br_neg r))
   /\ length m <= b1 /\ b1 < b2 /\ kept m m2.
Proof.
  destruct (plinelist_from_internal m _) as [a m1] eqn:F1. destruct (plinelist_from_internal m1 _) as [b m2] eqn:F2.
  destruct (listed_new _ _ _ _ F1) as (H1 & L1 & K1 & s1 & E1). destruct (listed_new _ _ _ _ F2) as (H2 & L2 & K2 & s2 & E2).
  exists a, b, m2. split; [reflexivity|]. split; [subst m2; now apply holds_app|]. split; [exact H2|]. split; [exact L1|].
  split; [lia|]. subst m2 m1. rewrite <- app_assoc. apply kept_app.
Qed.

Theorem boolean_default_wraps m a1 a2 p1 p2 op o r : is_pline m a1 p1 -> is_pline m a2 p2 ->
  nth_error [BOr; BAnd; BNot; BXor] (N.to_nat op) = Some o ->
  boolean_constructed mk p1 p2 o (nlit 1 5) = Ret r ->
  exists b1 b2 m1, run_call mk m (CBoolean (Some a1) (Some a2) op None) = Done 0 (WPtrs b1 b2) m1
    /\ holds m1 b1 (map brp_pline (br_pos r)) /\ holds m1 b2 (map brp_pline (br_neg r))
    /\ length m <= b1 /\ b1 < b2 /\ kept m m1.
Proof.
  intros P1 P2 O E. destruct (boolean_lists m r) as (b1 & b2 & m2 & EQ & H). exists b1, b2, m2. split; [|exact H].
  cbn [run_call]. unfold cavc_pline_boolean.
  assert (OK : boolean_op_from_u32 op = Some o).
  { unfold boolean_op_from_u32. destruct (N.eqb_spec op 0) as [->|]; [exact O|]. destruct (N.eqb_spec op 1) as [->|]; [exact O|].
    destruct (N.eqb_spec op 2) as [->|]; [exact O|]. destruct (N.eqb_spec op 3) as [->|]; [exact O|].
    exfalso. assert (L : N.to_nat op < 4) by (change 4 with (length [BOr; BAnd; BNot; BXor]); apply nth_error_Some; congruence). lia. }
  rewrite OK. unfold is_pline in P1, P2. rewrite (proj2 (read_nth m a1 _) P1), (proj2 (read_nth m a2 _) P2). cbv zeta.
  unfold default_boolean_options. cbn [cb_index option_index cb_pos_equal_eps]. rewrite E. cbn [rbind]. rewrite EQ. reflexivity.
Qed.

Theorem boolean_options_wraps m a1 a2 p1 p2 op o h eps r : is_pline m a1 p1 -> is_pline m a2 p2 ->
  nth_error [BOr; BAnd; BNot; BXor] (N.to_nat op) = Some o ->
  (h = None /\ boolean_constructed mk p1 p2 o eps = Ret r
   \/ exists i x, h = Some i /\ is_index m i x /\ polyline_boolean mk p1 p2 o x eps = Ret r) ->
  exists b1 b2 m1, run_call mk m (CBoolean (Some a1) (Some a2) op (Some (CB h eps))) = Done 0 (WPtrs b1 b2) m1
    /\ holds m1 b1 (map brp_pline (br_pos r)) /\ holds m1 b2 (map brp_pline (br_neg r))
    /\ length m <= b1 /\ b1 < b2 /\ kept m m1.
Proof.
  intros P1 P2 O E. destruct (boolean_lists m r) as (b1 & b2 & m2 & EQ & H). exists b1, b2, m2. split; [|exact H].
  cbn [run_call]. unfold cavc_pline_boolean.
  assert (OK : boolean_op_from_u32 op = Some o).
  { unfold boolean_op_from_u32. destruct (N.eqb_spec op 0) as [->|]; [exact O|]. destruct (N.eqb_spec op 1) as [->|]; [exact O|].
    destruct (N.eqb_spec op 2) as [->|]; [exact O|]. destruct (N.eqb_spec op 3) as [->|]; [exact O|].
    exfalso. assert (L : N.to_nat op < 4) by (change 4 with (length [BOr; BAnd; BNot; BXor]); apply nth_error_Some; congruence). lia. }
  rewrite OK. unfold is_pline in P1, P2. rewrite (proj2 (read_nth m a1 _) P1), (proj2 (read_nth m a2 _) P2). cbv zeta.
  cbn [cb_index cb_pos_equal_eps]. destruct E as [[-> E]|(i & x & -> & X & E)].
  - cbn [option_index]. rewrite E. cbn [rbind]. rewrite EQ. reflexivity.
  - unfold is_index in X. unfold option_index. rewrite (proj2 (read_nth m i _) X), E. cbn [rbind]. rewrite EQ. reflexivity.
Qed.

Theorem index_wraps m a p boxes : is_pline m a p ->
  (create_approx_aabb_index p = Ret boxes ->
     exists b m1, run_call mk m (CApproxIndex (Some a)) = Done 0 (WPtr b) m1 /\ is_index m1 b (mk boxes) /\ length m <= b /\ kept m m1)
  /\ (create_aabb_index p = Ret boxes ->
     exists b m1, run_call mk m (CIndex (Some a)) = Done 0 (WPtr b) m1 /\ is_index m1 b (mk boxes) /\ length m <= b /\ kept m m1).
Proof.
  intros P. cbn [run_call]. unfold cavc_pline_create_approx_aabbindex, cavc_pline_create_aabbindex.
  rewrite !(with_pline_ok _ _ _ _ P).
  split; intros ->; (eexists _, _; split; [reflexivity|]; split; [apply new_at|]; split; [reflexivity|apply kept_app]).
Qed.

Theorem init_wraps m :
  run_call mk m (COffsetInit false) = Done 0 (WOffsetOptions (CO None (nlit 1 5) (nlit 1 4) (nlit 1 4) 0%N)) m
  /\ run_call mk m (CBooleanInit false) = Done 0 (WBooleanOptions (CB None (nlit 1 5))) m.
Proof. split; reflexivity. Qed.

Theorem free_wraps m a : 
  ((exists p, is_pline m a p) -> exists m1, run_call mk m (CPlineFree (Some a)) = Done 0 WNothing m1 /\ only_freed m m1 a)
  /\ ((exists x, is_index m a x) -> exists m1, run_call mk m (CIndexFree (Some a)) = Done 0 WNothing m1 /\ only_freed m m1 a)
  /\ ((exists l, is_list m a l) -> exists m1, run_call mk m (CListFree (Some a)) = Done 0 WNothing m1 /\ only_freed m m1 a).
Proof.
  assert (F : forall o, nth_error m a = Some (Some o) -> only_freed m (free_obj m a) a).
  { intros o H. split.
    - rewrite (nth_free m a _ a H). now rewrite Nat.eqb_refl.
    - split; [apply length_list_set|]. intros b NE. rewrite (nth_free m a _ b H).
      destruct (Nat.eqb_spec a b); [congruence|]. destruct (Nat.eqb_spec b a); [congruence|reflexivity]. }
  cbn [run_call]. unfold cavc_pline_f, cavc_aabbindex_f, cavc_plinelist_f.
  split; [|split]; intros [o H]; unfold is_pline, is_index, is_list in H; rewrite (proj2 (read_nth m a _) H);
    eexists; (split; [reflexivity|now apply (F _ H)]).
Qed.

Theorem list_count_wraps m a l : is_list m a l -> (N.of_nat (length l) < 4294967296)%N ->
  run_call mk m (CListCount (Some a)) = Done 0 (WU32 (N.of_nat (length l))) m.
Proof.
  intros I L. cbn [run_call]. unfold cavc_plinelist_get_count, with_list. unfold is_list in I.
  rewrite (proj2 (read_nth m a _) I). unfold try_u32.
  destruct (N.ltb_spec (N.of_nat (length l)) u32_max1) as [H|H]; [reflexivity|]. unfold u32_max1 in H. lia.
Qed.

End Wraps.

(** The extents of an index: the smallest box around all boxes. *)
Open Scope R_scope.
Lemma join_fold (l : list (aabb R)) b :
  let r := fold_left join_boxes l b in
  (forall c, In c (b :: l) -> bmin_x r <= bmin_x c /\ bmin_y r <= bmin_y c /\ bmax_x c <= bmax_x r /\ bmax_y c <= bmax_y r)
  /\ (exists c, In c (b :: l) /\ bmin_x r = bmin_x c) /\ (exists c, In c (b :: l) /\ bmin_y r = bmin_y c)
  /\ (exists c, In c (b :: l) /\ bmax_x r = bmax_x c) /\ (exists c, In c (b :: l) /\ bmax_y r = bmax_y c).
Proof.
  revert b. induction l as [|d l IH]; intros b; cbn zeta.
  - cbn. split; [intros c [<-|[]]; lra|]. repeat split; exists b; auto.
  - cbn [fold_left]. destruct (IH (join_boxes b d)) as (A & E1 & E2 & E3 & E4).
    set (r := fold_left join_boxes l (join_boxes b d)) in *.
    assert (J : let j := join_boxes b d in
       (bmin_x j <= bmin_x b /\ bmin_y j <= bmin_y b /\ bmax_x b <= bmax_x j /\ bmax_y b <= bmax_y j)
       /\ (bmin_x j <= bmin_x d /\ bmin_y j <= bmin_y d /\ bmax_x d <= bmax_x j /\ bmax_y d <= bmax_y j)
       /\ (bmin_x j = bmin_x b \/ bmin_x j = bmin_x d) /\ (bmin_y j = bmin_y b \/ bmin_y j = bmin_y d)
       /\ (bmax_x j = bmax_x b \/ bmax_x j = bmax_x d) /\ (bmax_y j = bmax_y b \/ bmax_y j = bmax_y d)).
    { unfold join_boxes. cbn. repeat match goal with |- context [rltb ?x ?y] => destruct (rltb_spec x y) end; cbn;
        repeat split; try lra; auto. }
    cbn zeta in J. destruct J as (JB & JD & J1 & J2 & J3 & J4).
    assert (AJ := A _ (or_introl eq_refl)).
    split.
    + intros c [<-|[<-|H]]; [lra|lra|]. apply A. now right.
    + assert (W : forall (f : aabb R -> R) v, (exists c, In c (join_boxes b d :: l) /\ v = f c) ->
         (f (join_boxes b d) = f b \/ f (join_boxes b d) = f d) -> exists c, In c (b :: d :: l) /\ v = f c).
      { intros f v (c & [<-|H] & ->) J; [destruct J as [->| ->]; eexists; split; try reflexivity; cbn; auto|].
        exists c. split; [now right; right|reflexivity]. }
      repeat split; apply W; assumption.
Qed.

Theorem index_extents mk (m : mem R) a x : is_index m a x ->
  exists r, run_call mk m (CIndexExtents (Some a)) = Done 0 (WBox r) m
    /\ match r with None => ix_boxes x = [] | Some b => around (ix_boxes x) b end.
Proof.
  intros I. cbn [run_call]. unfold cavc_aabbindex_get_extents, with_index. unfold is_index in I.
  rewrite (proj2 (read_nth m a _) I). eexists. split; [reflexivity|]. unfold index_bounds.
  destruct (ix_boxes x) as [|b l]; [reflexivity|]. apply join_fold.
Qed.
