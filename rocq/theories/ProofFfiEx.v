(** List ownership moves, and concrete histories of C calls. *)
From Coq Require Import ZArith Nnat Bool List Arith Lia Floats.
From Verif Require Import Num Res ModelMath ModelSeg ModelPline ModelRedundant ModelView ModelIndex ModelIntersects
  ModelBoolean ModelOffset ModelFfi SpecFfi ProofFfi ProofFfi2 FNum.
Import ListNotations.

Section Moves.
Context {T : Type} {N_ : Num T}.
Variable mk : list (aabb T) -> sindex T.
Implicit Types m : mem T.

Lemma list_remove_mid {A} (l1 l2 : list A) x : list_remove (l1 ++ x :: l2) (length l1) = l1 ++ l2.
Proof. induction l1 as [|y l1 IH]; cbn; [reflexivity|]. now rewrite IH. Qed.

(** Popping and taking move one polyline out of the list and touch nothing else. *)
Theorem pop_moves m a l x : is_list m a (l ++ [x]) ->
  exists m1, run_call mk m (CListPop (Some a)) = Done 0 (WPtr x) m1
    /\ is_list m1 a l /\ length m1 = length m /\ forall b, b <> a -> nth_error m1 b = nth_error m b.
Proof.
  intros P. pose proof P as P0. unfold is_list in P0. cbn [run_call]. unfold cavc_plinelist_pop, with_list.
  rewrite (proj2 (read_nth m a _) P0), rev_app_distr. cbn [rev app].
  eexists. split; [reflexivity|]. rewrite rev_involutive. split; [|split].
  - unfold is_list. rewrite (nth_write m a _ _ a P0), Nat.eqb_refl. reflexivity.
  - unfold write_obj. apply length_list_set.
  - intros b NB. rewrite (nth_write m a _ _ b P0). apply Nat.eqb_neq in NB. now rewrite NB.
Qed.

Theorem take_moves m a l1 x l2 : is_list m a (l1 ++ x :: l2) ->
  exists m1, run_call mk m (CListTake (Some a) (N.of_nat (length l1))) = Done 0 (WPtr x) m1
    /\ is_list m1 a (l1 ++ l2) /\ length m1 = length m /\ forall b, b <> a -> nth_error m1 b = nth_error m b.
Proof.
  intros P. pose proof P as P0. unfold is_list in P0. cbn [run_call]. unfold cavc_plinelist_take, with_list.
  rewrite (proj2 (read_nth m a _) P0).
  destruct (N.leb_spec (N.of_nat (length (l1 ++ x :: l2))) (N.of_nat (length l1))) as [L|L].
  { rewrite app_length in L. cbn [length] in L. lia. }
  rewrite Nat2N.id. rewrite nth_error_app2, Nat.sub_diag by lia. cbn [nth_error].
  rewrite list_remove_mid. eexists. split; [reflexivity|]. split; [|split].
  - unfold is_list. rewrite (nth_write m a _ _ a P0), Nat.eqb_refl. reflexivity.
  - unfold write_obj. apply length_list_set.
  - intros b NB. rewrite (nth_write m a _ _ b P0). apply Nat.eqb_neq in NB. now rewrite NB.
Qed.

End Moves.

(** Running a list of calls, checking that each is allowed. *)
Definition memb (a : nat) (l : list nat) : bool := existsb (Nat.eqb a) l.
Lemma memb_In a l : memb a l = true -> In a l.
Proof. unfold memb. rewrite existsb_exists. intros (x & I & E). apply Nat.eqb_eq in E. now subst. Qed.

Definition allowed_b {T} (o : owner) (c : call T) : bool :=
  match c with
  | CCreate (Some l) n _ => Nat.leb (N.to_nat n) (length l)
  | CPlineFree (Some a) => memb a (ow_plines o)
  | COffset (Some a) _ None => memb a (ow_plines o)
  | CBoolean (Some a) (Some b) _ None => memb a (ow_plines o) && memb b (ow_plines o)
  | CListFree (Some a) | CListPop (Some a) | CListTake (Some a) _ => memb a (map fst (ow_lists o))
  | _ => false
  end.
Lemma allowed_b_ok {T} (m : mem T) o c : allowed_b o c = true -> allowed m o c.
Proof.
  destruct c; cbn; try discriminate.
  - destruct vs; [apply Nat.leb_le|discriminate].
  - destruct h; [apply memb_In|discriminate].
  - destruct h; [|discriminate]. destruct o0; [discriminate|]. intros H. apply memb_In in H. split; [now left|exact I].
  - destruct h1; [|discriminate]. destruct h2; [|discriminate]. destruct o0; [discriminate|].
    intros H. apply andb_prop in H. destruct H as [H1 H2]. apply memb_In in H1, H2. repeat split; now left.
  - destruct h; [apply memb_In|discriminate].
  - destruct h; [apply memb_In|discriminate].
  - destruct h; [apply memb_In|discriminate].
Qed.

Definition empty_b {T} (o : owner) (c : call T) : bool :=
  match c with CListFree (Some a) => match owned_by a (ow_lists o) with [] => true | _ => false end | _ => true end.

Fixpoint steps {T} {N : Num T} (mk : list (aabb T) -> sindex T) (tidy : bool) (m : mem T) (o : owner) (cs : list (call T))
  : option (mem T * owner) :=
  match cs with
  | [] => Some (m, o)
  | c :: t =>
      if allowed_b o c && (negb tidy || empty_b o c) then
        match run_call mk m c with
        | Done code w m1 => steps mk tidy m1 (own_step o c code w m1) t
        | _ => None
        end
      else None
  end.

Lemma steps_history {T} {N : Num T} mk tidy cs : forall (m : mem T) o m1 o1, steps mk tidy m o cs = Some (m1, o1) ->
  history mk (if tidy then frees_empty_lists else fun _ _ => True) m o m1 o1.
Proof.
  induction cs as [|c t IH]; cbn [steps]; intros m o m1 o1 H; [injection H as <- <-; constructor|].
  destruct (allowed_b o c) eqn:A; [|discriminate]. destruct (negb tidy || empty_b o c) eqn:B; [|discriminate].
  cbn [andb] in H. destruct (run_call mk m c) as [code w m2| |] eqn:R; try discriminate.
  apply IH in H. refine (H_call _ _ _ _ _ _ _ _ _ _ _ _ R H); [now apply allowed_b_ok|].
  destruct tidy; [|exact I]. cbn in B. destruct c; cbn in B |- *; auto.
  destruct h; [|exact I]. destruct (owned_by _ _); [reflexivity|discriminate].
Qed.

Local Open Scope float_scope.
(** The calls of pline_eval_parallel_offset (null options), cavalier_contours_ffi/tests/test_pline.rs. *)
Definition circle_data : list (vertex float) := [Vtx 0 0 1; Vtx 2 0 1].
Definition leak_calls : list (call float) :=
  [CCreate (Some circle_data) 2%N 1%N; COffset (Some 0%nat) (-1) None; CListFree (Some 2%nat); CPlineFree (Some 0%nat)].
(** The same calls with the polyline popped and freed before its list. *)
Definition tidy_calls : list (call float) :=
  [CCreate (Some circle_data) 2%N 1%N; COffset (Some 0%nat) (-1) None; CListPop (Some 2%nat); CListFree (Some 2%nat);
   CPlineFree (Some 0%nat); CPlineFree (Some 1%nat)].

Definition is_leak (r : option (mem float * owner)) : bool :=
  match r with
  | Some (m, OW [] [] [] [1%nat]) => match nth_error m 1 with Some (Some _) => true | _ => false end
  | _ => false
  end.
Definition is_tidy (r : option (mem float * owner)) : bool :=
  match r with Some (m, OW [] [] [] []) => Nat.eqb (length m) 3 | _ => false end.

Lemma leak_run : is_leak (steps list_index false [] nobody leak_calls) = true.
Proof. vm_compute. reflexivity. Qed.
Lemma tidy_run : is_tidy (steps list_index true [] nobody tidy_calls) = true.
Proof. vm_compute. reflexivity. Qed.

Lemma leak_history : exists m1 a x,
  history list_index (fun _ _ => True) [] nobody m1 (OW [] [] [] [a]) /\ nth_error m1 a = Some (Some x).
Proof.
  pose proof leak_run as R. destruct (steps list_index false [] nobody leak_calls) as [[m1 o1]|] eqn:E; [|discriminate].
  apply steps_history in E. destruct o1 as [[|] [|] [|] [|[|[|]] [|]]]; try discriminate.
  cbn in R. destruct m1 as [|x1 [|x2 m1]]; try discriminate. destruct x2 as [x|]; [|discriminate].
  eexists _, 1%nat, x. split; [exact E|reflexivity].
Qed.

Lemma tidy_example : exists m1, history list_index frees_empty_lists [] nobody m1 (OW [] [] [] []) /\ length m1 = 3%nat.
Proof.
  pose proof tidy_run as R. destruct (steps list_index true [] nobody tidy_calls) as [[m1 o1]|] eqn:E; [|discriminate].
  apply steps_history in E. destruct o1 as [[|] [|] [|] [|]]; try discriminate.
  exists m1. split; [exact E|]. apply Nat.eqb_eq. exact R.
Qed.
