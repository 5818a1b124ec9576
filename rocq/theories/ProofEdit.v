(** Reading and editing vertexes (C58). *)
From Coq Require Import List Arith Lia Bool.
From Verif Require Import Num Res ModelMath ModelSeg ModelPline ProofBase.
Import ListNotations.

Section Edit.
Context {T : Type}.
Implicit Types (p q : pline T) (v x : vertex T) (a b : list (vertex T)).

Lemma list_set_mid {A} (l m : list A) (x y : A) : list_set (l ++ x :: m) (length l) y = l ++ y :: m.
Proof. induction l as [|h t IH]; cbn; [reflexivity|now rewrite IH]. Qed.

Lemma list_remove_mid {A} (l m : list A) (x : A) : list_remove (l ++ x :: m) (length l) = l ++ m.
Proof. induction l as [|h t IH]; cbn; [reflexivity|now rewrite IH]. Qed.

Lemma nth_mid {A} (l m : list A) (x : A) : nth_error (l ++ x :: m) (length l) = Some x.
Proof. rewrite nth_error_app2, Nat.sub_diag by lia. reflexivity. Qed.

Lemma edit_at a x b c v : let p := PL (a ++ x :: b) c in let i := length a in
  vertex_count p = length a + 1 + length b /\ get p i = Some x /\ at_ p i = Ret x
  /\ set_vertex p i v = Ret (PL (a ++ v :: b) c) /\ remove p i = Ret (x, PL (a ++ b) c).
Proof.
  cbv zeta. unfold vertex_count, get, at_, set_vertex, remove, index. cbn [vtx is_closed]. rewrite nth_mid, list_remove_mid.
  rewrite set_index_ok by (rewrite app_length; cbn; lia). rewrite list_set_mid. rewrite app_length. cbn. repeat split. lia.
Qed.

Lemma edit_last a x c v : let p := PL (a ++ [x]) c in
  last_ p = Ret (Some x) /\ set_last p v = Ret (PL (a ++ [v]) c) /\ remove_last p = Ret (x, PL a c).
Proof.
  cbv zeta. destruct (edit_at a x [] c v) as (E & G & _ & S & R). unfold last_, set_last, remove_last. rewrite E. cbn [length].
  unfold usub. replace (1 <=? length a + 1 + 0) with true by (symmetry; apply Nat.leb_le; lia). cbn [rbind]. replace (length a + 1 + 0 - 1) with (length a) by lia.
  rewrite G, S, R, app_nil_r. auto.
Qed.

Lemma edit_insert a b c v : insert_vertex (PL (a ++ b) c) (length a) v = Ret (PL (a ++ v :: b) c).
Proof.
  unfold insert_vertex, vertex_count. cbn [vtx is_closed]. rewrite app_length. replace (length a <=? length a + length b) with true by (symmetry; apply Nat.leb_le; lia).
  rewrite firstn_app, firstn_all, Nat.sub_diag, skipn_app, skipn_all, Nat.sub_diag. cbn. rewrite app_nil_r. reflexivity.
Qed.

Lemma edit_end a b c c' v : add_vertex (PL a c) v = PL (a ++ [v]) c /\ extend_vertexes (PL a c) b = PL (a ++ b) c
  /\ clear (PL a c) = PL [] c /\ set_is_closed (PL a c) c' = PL a c' /\ @empty_pline T = PL [] false
  /\ (is_empty (PL a c) = true <-> a = []).
Proof. repeat split. - unfold is_empty, vertex_count. cbn. destruct a; [reflexivity|discriminate]. - intros ->. reflexivity. Qed.

Lemma edit_range p i v : (vertex_count p <= i -> get p i = None /\ at_ p i = Panic IndexOutOfBounds /\ set_vertex p i v = Panic IndexOutOfBounds
    /\ remove p i = Panic IndexOutOfBounds)
  /\ (vertex_count p < i -> insert_vertex p i v = Panic IndexOutOfBounds)
  /\ (vertex_count p = 0 -> last_ p = Panic Underflow /\ set_last p v = Panic Underflow /\ remove_last p = Panic Underflow).
Proof.
  split; [|split].
  - intros H. unfold get, at_, set_vertex, remove, index, set_index. unfold vertex_count in H. pose proof (proj2 (nth_error_None (vtx p) i) H) as E. rewrite E.
    replace (i <? length (vtx p)) with false by (symmetry; apply Nat.ltb_ge; lia). auto.
  - intros H. unfold insert_vertex. replace (i <=? vertex_count p) with false by (symmetry; apply Nat.leb_gt; lia). reflexivity.
  - intros H. unfold last_, set_last, remove_last. rewrite H. auto.
Qed.
End Edit.
