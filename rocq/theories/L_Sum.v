(** Finite sums of reals and the least-squares lemma. *)
From Coq Require Import List Arith Reals Lia Lra Psatz.
Import ListNotations.
Local Open Scope R_scope.

Fixpoint sum (n : nat) (f : nat -> R) : R := match n with O => 0 | S m => sum m f + f m end.

Lemma sum_ext n f g : (forall i, (i < n)%nat -> f i = g i) -> sum n f = sum n g.
Proof. induction n as [|n IH]; intro H; cbn; [reflexivity|]. rewrite IH, H; auto. Qed.

Lemma sum_plus n f g : sum n (fun i => f i + g i) = sum n f + sum n g.
Proof. induction n as [|n IH]; cbn; [lra|]. rewrite IH. lra. Qed.

Lemma sum_minus n f g : sum n (fun i => f i - g i) = sum n f - sum n g.
Proof. induction n as [|n IH]; cbn; [lra|]. rewrite IH. lra. Qed.

Lemma sum_scal n c f : sum n (fun i => c * f i) = c * sum n f.
Proof. induction n as [|n IH]; cbn; [lra|]. rewrite IH. lra. Qed.

Lemma sum_scal_r n c f : sum n (fun i => f i * c) = sum n f * c.
Proof. induction n as [|n IH]; cbn; [lra|]. rewrite IH. lra. Qed.

Lemma sum_zero n f : (forall i, (i < n)%nat -> f i = 0) -> sum n f = 0.
Proof. induction n as [|n IH]; intro H; cbn; [reflexivity|]. rewrite IH, H; auto. lra. Qed.

Lemma sum_nonneg n f : (forall i, (i < n)%nat -> 0 <= f i) -> 0 <= sum n f.
Proof. induction n as [|n IH]; intro H; cbn; [lra|]. pose proof (IH ltac:(auto)). pose proof (H n ltac:(lia)). lra. Qed.

Lemma sum_swap n m f : sum n (fun i => sum m (fun j => f i j)) = sum m (fun j => sum n (fun i => f i j)).
Proof.
  induction n as [|n IH]; cbn; [symmetry; apply sum_zero; auto|]. rewrite IH, <- sum_plus. reflexivity.
Qed.

Lemma sum_one n k f : (k < n)%nat -> (forall i, (i < n)%nat -> i <> k -> f i = 0) -> sum n f = f k.
Proof.
  induction n as [|n IH]; intros Hk H; [lia|]. cbn. destruct (Nat.eq_dec k n) as [->|E].
  - rewrite sum_zero; [lra|]. intros i Hi. apply H; lia.
  - rewrite IH; [|lia|intros; apply H; lia]. rewrite (H n); [lra|lia|lia].
Qed.

Lemma sum_app n m f : sum (n + m) f = sum n f + sum m (fun i => f (n + i)%nat).
Proof.
  induction m as [|m IH]; [rewrite Nat.add_0_r; cbn; lra|]. rewrite Nat.add_succ_r. cbn. rewrite IH. lra.
Qed.

(** If the residual is orthogonal to the columns of A, every other combination is no better. *)
Lemma least_squares n m (w r : nat -> R) (A : nat -> nat -> R) (d : nat -> R) :
  (forall i, (i < n)%nat -> 0 <= w i) -> (forall k, (k < m)%nat -> sum n (fun i => A i k * (w i * r i)) = 0) ->
  sum n (fun i => w i * (r i - sum m (fun k => A i k * d k)) ^ 2) =
  sum n (fun i => w i * r i ^ 2) + sum n (fun i => w i * sum m (fun k => A i k * d k) ^ 2).
Proof.
  intros W O.
  assert (C : sum n (fun i => w i * r i * sum m (fun k => A i k * d k)) = 0).
  { rewrite (sum_ext n _ (fun i => sum m (fun k => d k * (A i k * (w i * r i))))).
    - rewrite sum_swap. apply sum_zero. intros k Hk. rewrite sum_scal, (O k Hk). lra.
    - intros i Hi. rewrite <- sum_scal. apply sum_ext. intros; ring. }
  rewrite (sum_ext n _ (fun i => (w i * r i ^ 2 + w i * sum m (fun k => A i k * d k) ^ 2) - 2 * (w i * r i * sum m (fun k => A i k * d k)))) by (intros; ring).
  rewrite sum_minus, sum_plus, sum_scal, C. lra.
Qed.
