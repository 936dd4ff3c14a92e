(** C37: ImageAssistant. *)
From Coq Require Import List Arith Lia.
From Verif Require Import L_List M_Image.
Import ListNotations.

(** the index is inside the image *)
Definition inside (shape idx : list nat) : Prop := Forall2 (fun s a => a < s) shape idx.

Lemma size_app a b : size (a ++ b) = size a * size b.
Proof. induction a as [|s a IH]; simpl; [lia|]. rewrite IH. lia. Qed.
Lemma size_rev s : size (rev s) = size s.
Proof. induction s as [|a s IH]; simpl; [reflexivity|]. rewrite size_app, IH. simpl. lia. Qed.

Lemma flatten_length {A} shape : forall (img : list nat -> A), length (flattenC shape img) = size shape.
Proof.
  induction shape as [|s r IH]; intros img; [reflexivity|]. simpl.
  assert (H : forall l, length (flat_map (fun a => flattenC r (fun idx => img (a :: idx))) l) = length l * size r).
  { induction l as [|a l IHl]; [reflexivity|]. simpl. rewrite app_length, IHl, IH. reflexivity. }
  rewrite H, seq_length. reflexivity.
Qed.

Lemma flat_map_nth {B} (f : nat -> list B) n (d : B) : (forall a, length (f a) = n) -> 0 < n ->
  forall s m a b, a < s -> b < n -> nth (a * n + b) (flat_map f (seq m s)) d = nth b (f (m + a)) d.
Proof.
  intros H Hn. induction s as [|s IH]; intros m a b Ha Hb; [lia|]. simpl. destruct a as [|a].
  - rewrite app_nth1 by (rewrite H; lia). f_equal. f_equal. lia.
  - rewrite app_nth2 by (rewrite H; lia). rewrite H.
    replace (S a * n + b - n) with (a * n + b) by lia. rewrite IH by lia. f_equal. f_equal. lia.
Qed.

Lemma ravel_lt shape : forall idx, inside shape idx -> ravel shape idx < size shape.
Proof.
  induction shape as [|s r IH]; intros idx H; inversion H; subst; simpl; [lia|].
  specialize (IH _ H4). nia.
Qed.

Lemma flatten_nth {A} shape (d : A) : forall img idx, inside shape idx ->
  nth (ravel shape idx) (flattenC shape img) d = img idx.
Proof.
  induction shape as [|s r IH]; intros img idx H; inversion H; subst; [reflexivity|]. simpl.
  pose proof (ravel_lt r l' H4). rewrite (flat_map_nth _ (size r) d); try lia.
  - simpl. rewrite (IH (fun idx => img (y :: idx)) l' H4). reflexivity.
  - intros a. apply flatten_length.
Qed.

(** the row in order C, written from the first dimension *)
Fixpoint unravel (shape : list nat) (i : nat) : list nat :=
  match shape with [] => [] | s :: r => (i / size r) mod s :: unravel r i end.

Lemma columns_app i : forall a dd s, columns i dd (a ++ [s]) = columns i dd a ++ [(i / (dd * size a)) mod s].
Proof.
  induction a as [|x a IH]; intros dd s; simpl; [rewrite Nat.mul_1_r; reflexivity|].
  rewrite IH, Nat.mul_assoc. reflexivity.
Qed.

Lemma columns_rev shape i : rev (columns i 1 (rev shape)) = unravel shape i.
Proof.
  induction shape as [|s r IH]; [reflexivity|]. simpl. rewrite columns_app, rev_app_distr, IH, size_rev.
  simpl. rewrite Nat.add_0_r. reflexivity.
Qed.

Lemma unravel_mod shape : forall i, 0 < size shape -> unravel shape (i mod size shape) = unravel shape i.
Proof.
  induction shape as [|s r IH]; intros i H; [reflexivity|]. simpl in H.
  assert (Hs : s <> 0) by nia. assert (Hr : size r <> 0) by nia. cbn [unravel size]. f_equal.
  - rewrite (Nat.mul_comm s (size r)). rewrite Nat.mod_mul_r by assumption.
    rewrite (Nat.mul_comm (size r)), Nat.div_add by assumption.
    rewrite (Nat.div_small (i mod size r)) by (apply Nat.mod_upper_bound; assumption). simpl.
    apply Nat.mod_mod. assumption.
  - rewrite <- (IH (i mod (s * size r))) by lia. rewrite <- (IH i) by lia. f_equal.
    rewrite (Nat.mul_comm s (size r)), Nat.mod_mul_r by assumption.
    rewrite (Nat.mul_comm (size r)), Nat.mod_add by assumption. apply Nat.mod_mod. assumption.
Qed.

Lemma unravel_inside shape i : 0 < size shape -> inside shape (unravel shape i).
Proof.
  induction shape as [|s r IH]; intros H; simpl; constructor.
  - apply Nat.mod_upper_bound. simpl in H. nia.
  - apply IH. simpl in H. nia.
Qed.

Lemma ravel_unravel shape : forall i, i < size shape -> ravel shape (unravel shape i) = i.
Proof.
  induction shape as [|s r IH]; intros i H; simpl in *; [lia|].
  assert (Hr : size r <> 0) by nia.
  rewrite <- (unravel_mod r i) by lia. rewrite IH by (apply Nat.mod_upper_bound; assumption).
  rewrite (Nat.mod_small (i / size r)).
  - pose proof (Nat.div_mod i (size r) Hr). lia.
  - apply Nat.div_lt_upper_bound; [assumption|]. lia.
Qed.

Lemma unravel_ravel shape : forall idx, inside shape idx -> unravel shape (ravel shape idx) = idx.
Proof.
  induction shape as [|s r IH]; intros idx H; inversion H; subst; [reflexivity|]. simpl.
  pose proof (ravel_lt r l' H4) as L. f_equal.
  - rewrite Nat.div_add_l by lia. rewrite (Nat.div_small (ravel r l')) by lia.
    rewrite Nat.add_0_r. apply Nat.mod_small. assumption.
  - rewrite <- (IH l' H4) at 2. rewrite <- (unravel_mod r (y * size r + ravel r l')) by lia.
    rewrite Nat.add_comm, Nat.mod_add by lia. rewrite Nat.mod_small by lia. reflexivity.
Qed.

Lemma rowC shape i : i < size shape -> row OrdC shape i = unravel shape i.
Proof.
  intros H. destruct shape as [|s [|s' r]]; [reflexivity| |].
  - cbn [row unravel size] in *. rewrite Nat.div_1_r, Nat.mod_small by lia. reflexivity.
  - unfold row. apply columns_rev.
Qed.

(** There is one row for each pixel; it has one entry for each dimension, inside the image. *)
Theorem C37_rows argorder shape :
  length (getIndices OrdC argorder shape) = size shape /\
  forall i r, nth_error (getIndices OrdC argorder shape) i = Some r -> inside shape r.
Proof.
  split; [unfold getIndices; rewrite map_length, seq_length; reflexivity|].
  intros i r H. unfold getIndices in H.
  assert (L : i < size shape).
  { apply nth_error_Some_lt in H. rewrite map_length, seq_length in H. exact H. }
  rewrite nth_error_map, nth_error_seq' in H by exact L. simpl in H. injection H as <-.
  rewrite rowC by exact L. apply unravel_inside. lia.
Qed.

(** Order C: pixel i of the flattened image stands in the image at the index in row i. *)
Theorem C37_order_C {A} argorder shape (img : list nat -> A) d i : i < size shape ->
  exists r, nth_error (getIndices OrdC argorder shape) i = Some r /\
            nth i (getydata OrdC shape img) d = img r.
Proof.
  intros L. exists (unravel shape i). unfold getIndices.
  rewrite nth_error_map, nth_error_seq' by exact L. simpl. rewrite rowC by exact L. split; [reflexivity|].
  unfold getydata, flatten. rewrite <- (ravel_unravel shape i L) at 1. apply flatten_nth.
  apply unravel_inside. lia.
Qed.

(** Every index of the image occurs exactly once. *)
Theorem C37_all_pixels argorder shape idx : inside shape idx ->
  exists i, i < size shape /\ nth_error (getIndices OrdC argorder shape) i = Some idx /\
    forall j, nth_error (getIndices OrdC argorder shape) j = Some idx -> j = i.
Proof.
  intros H. exists (ravel shape idx). pose proof (ravel_lt shape idx H) as L. split; [exact L|].
  unfold getIndices. split.
  - rewrite nth_error_map, nth_error_seq' by exact L. simpl. rewrite rowC by exact L.
    rewrite unravel_ravel by exact H. reflexivity.
  - intros j Hj.
    assert (Lj : j < size shape).
    { apply nth_error_Some_lt in Hj. rewrite map_length, seq_length in Hj. exact Hj. }
    rewrite nth_error_map, nth_error_seq' in Hj by exact Lj. simpl in Hj. rewrite rowC in Hj by exact Lj.
    injection Hj as <-. symmetry. apply ravel_unravel. exact Lj.
Qed.

(** resizeData undoes getydata, in both orders. *)
Theorem C37_resize {A} o shape (img : list nat -> A) d idx : inside shape idx ->
  resizeData o shape d (getydata o shape img) idx = img idx.
Proof.
  intros H. unfold resizeData, getydata, flatten. destruct o.
  - apply flatten_nth. exact H.
  - assert (Hr : inside (rev shape) (rev idx)).
    { unfold inside in *. clear img d. induction H; simpl; [constructor|]. apply Forall2_app; auto. }
    rewrite (flatten_nth (rev shape) d (fun i => img (rev i)) (rev idx) Hr). rewrite rev_involutive. reflexivity.
Qed.

(** Order F: the rows are those of order C with the columns reversed... *)
Theorem C37_order_F_rows argorder shape i : i < size shape ->
  exists r, nth_error (getIndices OrdC argorder shape) i = Some r /\
            nth_error (getIndices OrdF argorder shape) i = Some (rev r).
Proof.
  intros L. unfold getIndices. rewrite !nth_error_map, !nth_error_seq' by exact L. simpl.
  eexists. split; [reflexivity|]. f_equal. destruct shape as [|s [|s' r]]; try reflexivity.
  unfold row. rewrite rev_involutive. reflexivity.
Qed.

Lemma columns_equal i n rank : columns i 1 (repeat n rank) = rev (unravel (repeat n rank) i).
Proof.
  assert (R : rev (repeat n rank) = repeat n rank).
  { clear. induction rank as [|k IH]; [reflexivity|]. simpl. rewrite IH. clear.
    induction k as [|k IH]; [reflexivity|]. simpl. rewrite IH. reflexivity. }
  pose proof (columns_rev (repeat n rank) i) as H. rewrite R in H. rewrite <- H, rev_involutive. reflexivity.
Qed.

(** ... and match the flattened data when all dimensions are equal, *)
Theorem C37_order_F_cube {A} argorder n rank (img : list nat -> A) d i : i < size (repeat n rank) ->
  exists r, nth_error (getIndices OrdF argorder (repeat n rank)) i = Some r /\
            nth i (getydata OrdF (repeat n rank) img) d = img r.
Proof.
  intros L. assert (R : rev (repeat n rank) = repeat n rank).
  { clear. induction rank as [|k IH]; [reflexivity|]. simpl. rewrite IH. clear.
    induction k as [|k IH]; [reflexivity|]. simpl. rewrite IH. reflexivity. }
  exists (rev (unravel (repeat n rank) i)). unfold getIndices.
  rewrite nth_error_map, nth_error_seq' by exact L. simpl. split.
  - f_equal. destruct rank as [|[|rank]]; [reflexivity| |].
    + cbn [row unravel size repeat rev app] in *. rewrite Nat.div_1_r, Nat.mod_small by lia. reflexivity.
    + unfold row. change (match repeat n (S (S rank)) with [_] => [i] | _ => columns i 1 (rev (repeat n (S (S rank)))) end)
        with (columns i 1 (rev (repeat n (S (S rank))))). rewrite R. apply columns_equal.
  - unfold getydata, flatten. rewrite R.
    transitivity (nth (ravel (repeat n rank) (unravel (repeat n rank) i))
                   (flattenC (repeat n rank) (fun idx => img (rev idx))) d).
    + rewrite ravel_unravel by exact L. reflexivity.
    + apply (flatten_nth (repeat n rank) d (fun idx => img (rev idx))). apply unravel_inside. lia.
Qed.

(** but not otherwise: in an image of 2 by 3 the second row points outside the image. *)
Theorem C37_order_F_refuted :
  exists argorder shape i r, i < size shape /\ nth_error (getIndices OrdF argorder shape) i = Some r /\
    ~ inside shape r /\
    exists img : list nat -> nat, nth i (getydata OrdF shape img) 0 <> img r.
Proof.
  exists OrdF, [2; 3], 2, [2; 0]. split; [simpl; lia|]. split; [reflexivity|]. split.
  - intros H. inversion H; subst. lia.
  - exists (fun idx => hd 0 idx). simpl. lia.
Qed.

(** The argument order of getIndices has no effect. *)
Theorem C37_argument_refuted shape o a b : getIndices o a shape = getIndices o b shape.
Proof. reflexivity. Qed.

Example C37_example : getIndices OrdC OrdC [2; 3] = [[0;0];[0;1];[0;2];[1;0];[1;1];[1;2]] /\
  getydata OrdC [2; 3] (fun idx => idx) = [[0;0];[0;1];[0;2];[1;0];[1;1];[1;2]] /\
  getydata OrdF [2; 3] (fun idx => idx) = [[0;0];[1;0];[0;1];[1;1];[0;2];[1;2]] /\
  getIndices OrdF OrdC [2; 3] = [[0;0];[1;0];[2;0];[0;1];[1;1];[2;1]].
Proof. auto. Qed.

Print Assumptions C37_order_C.
Print Assumptions C37_order_F_cube.
