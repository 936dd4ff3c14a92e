(** Lemmas on lists missing from the standard library of Coq 8.16. *)
From Coq Require Import List Arith Lia.
Import ListNotations.

Lemma skipn_skipn {A} (a b : nat) (l : list A) : skipn a (skipn b l) = skipn (a + b) l.
Proof.
  revert b; induction l as [|x l IH]; intros b.
  - rewrite !skipn_nil. reflexivity.
  - destruct b as [|b].
    + rewrite Nat.add_0_r. reflexivity.
    + rewrite Nat.add_succ_r. simpl. apply IH.
Qed.

Lemma nth_error_firstn' {A} n : forall (l : list A) k, k < n -> nth_error (firstn n l) k = nth_error l k.
Proof.
  induction n as [|n IH]; intros l k H; [lia|]. destruct l as [|x l]; [destruct k; reflexivity|].
  destruct k; simpl; [reflexivity|]. apply IH. lia.
Qed.

Lemma nth_error_skipn' {A} n : forall (l : list A) k, nth_error (skipn n l) k = nth_error l (n + k).
Proof.
  induction n as [|n IH]; intros l k; [reflexivity|]. destruct l as [|x l]; [destruct k; reflexivity|].
  simpl. apply IH.
Qed.

Lemma nth_firstn_lt' {A} (l : list A) k n d : k < n -> nth k (firstn n l) d = nth k l d.
Proof.
  revert l k. induction n as [|n IH]; intros l k H; [lia|]. destruct l as [|x l]; [destruct k; reflexivity|].
  destruct k; simpl; [reflexivity|]. apply IH. lia.
Qed.

Lemma nth_skipn' {A} (l : list A) n k d : nth k (skipn n l) d = nth (n + k) l d.
Proof.
  revert l. induction n as [|n IH]; intros l; [reflexivity|]. destruct l as [|x l]; [destruct k; reflexivity|].
  simpl. apply IH.
Qed.

Lemma nth_error_ext {A} (a : list A) : forall b, (forall i, nth_error a i = nth_error b i) -> a = b.
Proof.
  induction a as [|x a IH]; intros [|y b] H; [reflexivity|specialize (H 0); discriminate|specialize (H 0); discriminate|].
  f_equal; [specialize (H 0); simpl in H; congruence|]. apply IH. intros i. exact (H (S i)).
Qed.

Lemma nth_error_Some_lt {A} (l : list A) i x : nth_error l i = Some x -> i < length l.
Proof. intros H. apply nth_error_Some. congruence. Qed.

Lemma nth_error_seq' n : forall m i, i < n -> nth_error (seq m n) i = Some (m + i).
Proof.
  induction n as [|n IH]; intros m i H; [lia|]. destruct i; simpl; [f_equal; lia|].
  rewrite IH by lia. f_equal. lia.
Qed.
