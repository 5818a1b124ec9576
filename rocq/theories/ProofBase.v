(** General lemmas on lists and [res]. *)
From Coq Require Import List Arith Bool ZArith Lia.
From Coq Require Export ZifyBool ZifyNat.
From Verif Require Import Res.
Import ListNotations.

Lemma index_ok {A} (l : list A) i a : nth_error l i = Some a -> index l i = Ret a.
Proof. unfold index. intros ->. reflexivity. Qed.

Lemma index_lt {A} (l : list A) i : i < length l -> exists a, nth_error l i = Some a /\ index l i = Ret a.
Proof.
  intros H. destruct (nth_error l i) as [a|] eqn:E.
  - exists a. split; [reflexivity|]. now apply index_ok.
  - apply nth_error_None in E. lia.
Qed.

Lemma usub_ok a b : b <= a -> usub a b = Ret (a - b).
Proof. unfold usub. intros H. destruct (Nat.leb_spec b a); [reflexivity|lia]. Qed.

Lemma usub_bad a b : a < b -> usub a b = Panic Underflow.
Proof. unfold usub. intros H. destruct (Nat.leb_spec b a); [lia|reflexivity]. Qed.

Lemma list_set_length {A} (l : list A) i a : length (list_set l i a) = length l.
Proof. revert i. induction l as [|h t IH]; intros [|i]; simpl; auto. Qed.

Lemma list_set_nth {A} (l : list A) i a j :
  nth_error (list_set l i a) j =
  if Nat.eqb i j then (if i <? length l then Some a else None) else nth_error l j.
Proof.
  revert i j. induction l as [|h t IH]; intros [|i] [|j]; simpl; try reflexivity.
  - destruct (Nat.eqb i j); reflexivity.
  - rewrite IH. destruct (Nat.eqb i j); [|reflexivity].
    change (S i <? S (length t)) with (i <? length t). reflexivity.
Qed.

Lemma set_index_ok {A} (l : list A) i a : i < length l -> set_index l i a = Ret (list_set l i a).
Proof. unfold set_index. intros H. apply Nat.ltb_lt in H. rewrite H. reflexivity. Qed.

Lemma list_set_last {A} (l : list A) x a : list_set (l ++ [x]) (length l) a = l ++ [a].
Proof. induction l as [|h t IH]; simpl; [reflexivity|now rewrite IH]. Qed.

Lemma list_remove_last {A} (l : list A) x : list_remove (l ++ [x]) (length l) = l.
Proof. induction l as [|h t IH]; simpl; [reflexivity|now rewrite IH]. Qed.

Lemma nth_error_ext {A} (l1 l2 : list A) :
  (forall i, nth_error l1 i = nth_error l2 i) -> l1 = l2.
Proof.
  revert l2. induction l1 as [|a t IH]; intros [|b u] H.
  - reflexivity.
  - specialize (H 0). discriminate H.
  - specialize (H 0). discriminate H.
  - pose proof (H 0) as H0. simpl in H0. inversion H0. subst. f_equal. apply IH.
    intros i. exact (H (S i)).
Qed.

Lemma rfold_app {A B} (f : B -> A -> res B) l1 l2 b :
  rfold f (l1 ++ l2) b = rbind (rfold f l1 b) (rfold f l2).
Proof.
  revert b. induction l1 as [|a t IH]; intros b; simpl; [reflexivity|].
  destruct (f b a); simpl; [apply IH|reflexivity].
Qed.

Lemma rfold_ret {A B} (f : B -> A -> B) l b :
  rfold (fun x a => Ret (f x a)) l b = Ret (fold_left f l b).
Proof. revert b. induction l as [|a t IH]; intros b; simpl; [reflexivity|apply IH]. Qed.

Lemma skipn_nth_cons {A} (l : list A) i a :
  nth_error l i = Some a -> skipn i l = a :: skipn (S i) l.
Proof.
  revert i. induction l as [|h t IH]; intros [|i] H; simpl in *; try discriminate.
  - now inversion H.
  - now apply IH.
Qed.

Lemma firstn_nth_snoc {A} (l : list A) i a :
  nth_error l i = Some a -> firstn (S i) l = firstn i l ++ [a].
Proof.
  revert i. induction l as [|h t IH]; intros [|i] H; simpl in *; try discriminate.
  - now inversion H.
  - f_equal. now apply IH.
Qed.
