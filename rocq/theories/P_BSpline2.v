(** The lists of bspline.py consist of the pieces of P_BSpline. *)
From Coquelicot Require Import Coquelicot.
From Coq Require Import List Arith Reals Bool Lia Lra Psatz.
From Verif Require Import L_Sum M_BSpline P_BSpline.
Import ListNotations.
Local Open Scope R_scope.
Set Default Proof Using "Type".

Lemma zip_length {A B C} (f : A -> B -> C) a b : length (zip f a b) = min (length a) (length b).
Proof. unfold zip. rewrite map_length, combine_length. reflexivity. Qed.
Lemma nth_zip {A B C} (f : A -> B -> C) a b i d da db : (i < length a)%nat -> (i < length b)%nat ->
  nth i (zip f a b) d = f (nth i a da) (nth i b db).
Proof.
  unfold zip. revert b i. induction a as [|x a IH]; intros [|y b] [|i] A1 B1; cbn in *; try lia; [reflexivity|].
  apply IH; lia.
Qed.
Lemma upto_length {A} k (a : list A) : length (upto k a) = (length a - k)%nat.
Proof. unfold upto. rewrite firstn_length. lia. Qed.
Lemma from_length {A} k (a : list A) : length (from k a) = (length a - k)%nat.
Proof. unfold from. apply skipn_length. Qed.
Lemma nth_from {A} k (a : list A) i d : nth i (from k a) d = nth (k + i) a d.
Proof. unfold from. revert k. induction a as [|x a IH]; intros [|k]; cbn; [reflexivity| destruct i; reflexivity |reflexivity|apply IH]. Qed.
Lemma nth_upto {A} k (a : list A) i d : (i < length a - k)%nat -> nth i (upto k a) d = nth i a d.
Proof.
  unfold upto. generalize (length a - k)%nat. intro n. revert n i. induction a as [|x a IH]; intros [|n] [|i] H; cbn; try lia; try reflexivity.
  apply IH. lia.
Qed.

Lemma nth_const (l : list R) (c d : R) i : (i < length l)%nat -> nth i (map (fun _ => c) l) d = c.
Proof. revert i. induction l as [|x l IH]; intros [|i] H; cbn in *; try lia; [reflexivity|]. apply IH. lia. Qed.

Lemma terms_length t p n1 n2 b1 : (1 <= p < length t)%nat -> length n1 = (length t - p)%nat -> length n2 = (length t - p - 1)%nat ->
  length b1 = (length t - p)%nat -> length (terms t p n1 n2 b1) = (length t - 1 - p)%nat.
Proof.
  intros P L1 L2 L3. unfold terms. repeat rewrite ?zip_length, ?upto_length, ?from_length. lia.
Qed.

Lemma terms_nth t p n1 n2 b1 i : (1 <= p < length t)%nat -> length n1 = (length t - p)%nat -> length n2 = (length t - p - 1)%nat ->
  length b1 = (length t - p)%nat -> (i < length t - 1 - p)%nat ->
  nth i (terms t p n1 n2 b1) 0 =
    quot (nth i n1 0) (nth (i + p) t 0 - nth i t 0) * nth i b1 0
    + quot (nth i n2 0) (nth (i + p + 1) t 0 - nth (i + 1) t 0) * nth (i + 1) b1 0.
Proof.
  intros P L1 L2 L3 H. unfold terms.
  rewrite (nth_zip Rplus _ _ i 0 0 0) by (repeat rewrite ?zip_length, ?upto_length, ?from_length; lia).
  rewrite (nth_zip Rmult _ _ i 0 0 0) by (repeat rewrite ?zip_length, ?upto_length, ?from_length; lia).
  rewrite (nth_zip Rmult _ _ i 0 0 0) by (repeat rewrite ?zip_length, ?upto_length, ?from_length; lia).
  rewrite nth_upto by (repeat rewrite ?zip_length, ?upto_length, ?from_length; lia).
  rewrite (nth_zip quot _ _ i 0 0 0) by (repeat rewrite ?zip_length, ?upto_length, ?from_length; lia).
  rewrite (nth_zip quot _ _ i 0 0 0) by (repeat rewrite ?zip_length, ?upto_length, ?from_length; lia).
  rewrite (nth_zip Rminus _ _ i 0 0 0) by (repeat rewrite ?zip_length, ?upto_length, ?from_length; lia).
  rewrite (nth_zip Rminus _ _ i 0 0 0) by (repeat rewrite ?zip_length, ?upto_length, ?from_length; lia).
  rewrite !nth_from. rewrite !nth_upto by (rewrite ?upto_length; lia).
  replace (1 + i)%nat with (i + 1)%nat by lia. replace (p + i)%nat with (i + p)%nat by lia. replace (p + 1 + i)%nat with (i + p + 1)%nat by lia.
  reflexivity.
Qed.

(** Well formed: the last knots are as many as the knots. *)
Definition wf (b : bspl) : Prop := match lastkn b with None => True | Some l => length l = length (kv b) end.

Lemma upper_length b xi : wf b -> length (upper b xi) = (length (kv b) - 1)%nat.
Proof.
  unfold wf, upper. destruct (lastkn b) as [l|]; intro W; rewrite ?zip_length, !map_length, !from_length; lia.
Qed.
Lemma basis0_length b xi : wf b -> length (basis0 b xi) = (length (kv b) - 1)%nat.
Proof. intro W. unfold basis0. rewrite zip_length, upto_length, upper_length by assumption. lia. Qed.
Lemma basis_length b xi p : wf b -> (p < length (kv b))%nat -> length (basis b xi p) = (length (kv b) - 1 - p)%nat.
Proof.
  intros W. induction p as [|q IH]; intro H; cbn [basis].
  - rewrite basis0_length by assumption. lia.
  - apply terms_length; rewrite ?map_length, ?upto_length, ?from_length, ?IH by lia; lia.
Qed.

Section Slices.
  Context (T : nat -> R).
  Definition slice (a : nat) (t : list R) : Prop := forall i, (i < length t)%nat -> nth i t 0 = T (a + i)%nat.
  (** x is in interval j as far as the first step sees it *)
  Definition sees (a : nat) (b : bspl) (x : R) (j : nat) : Prop :=
    forall i, (i < length (kv b) - 1)%nat -> nth i (basis0 b x) 0 = if (a + i =? j)%nat then 1 else 0.

  Lemma slice_upto a t k : slice a t -> slice a (upto k t).
  Proof. intros S1 i H. rewrite upto_length in H. rewrite nth_upto by lia. apply S1. lia. Qed.
  Lemma slice_from a t k : slice a t -> slice (a + k) (from k t).
  Proof. intros S1 i H. rewrite from_length in H. rewrite nth_from, S1 by lia. f_equal. lia. Qed.

  Lemma basis_piece a b x j p : wf b -> slice a (kv b) -> sees a b x j -> (p < length (kv b))%nat ->
    forall i, (i < length (kv b) - 1 - p)%nat -> nth i (basis b x p) 0 = piece T j p x (a + i).
  Proof.
    intros W Sl Se. induction p as [|q IH]; intros H i Hi.
    - cbn [basis piece]. apply Se. lia.
    - cbn [basis piece]. rewrite terms_nth; rewrite ?map_length, ?upto_length, ?from_length, ?basis_length by (assumption || lia); try lia.
      rewrite !IH by lia. rewrite !Sl by lia.
      rewrite (nth_indep (map (fun k => x - k) _) 0 (x - 0)) by (rewrite map_length, upto_length; lia). rewrite (map_nth (fun k => x - k)).
      rewrite (nth_indep (map (fun k => k - x) _) 0 (0 - x)) by (rewrite map_length, from_length; lia). rewrite (map_nth (fun k => k - x)).
      rewrite nth_upto, nth_from, !Sl by lia.
      replace (a + (i + S q))%nat with (a + i + S q)%nat by lia. replace (a + (S q + 1 + i))%nat with (a + i + S q + 1)%nat by lia.
      replace (a + (i + S q + 1))%nat with (a + i + S q + 1)%nat by lia. replace (a + (i + 1))%nat with (a + i + 1)%nat by lia. reflexivity.
  Qed.

  Lemma call_length b x : wf b -> (deg b < length (kv b))%nat -> length (call b x) = (length (kv b) - 1 - deg b)%nat.
  Proof. intros. apply basis_length; assumption. Qed.
  Lemma call_piece a b x j : wf b -> slice a (kv b) -> sees a b x j -> (deg b < length (kv b))%nat ->
    forall i, (i < length (kv b) - 1 - deg b)%nat -> nth i (call b x) 0 = piece T j (deg b) x (a + i).
  Proof. intros. apply basis_piece; assumption. Qed.

  Lemma dcall_slope a b x j : wf b -> slice a (kv b) -> sees a b x j -> (0 < deg b < length (kv b))%nat ->
    length (dcall b x) = (length (kv b) - 1 - deg b)%nat /\
    forall i, (i < length (kv b) - 1 - deg b)%nat -> nth i (dcall b x) 0 = slope T j (deg b) x (a + i).
  Proof.
    intros W Sl Se H. unfold dcall. destruct (deg b) as [|q] eqn:D; [lia|]. split.
    - apply terms_length; rewrite ?map_length, ?upto_length, ?from_length, ?basis_length by (assumption || lia); lia.
    - intros i Hi. rewrite terms_nth; rewrite ?map_length, ?upto_length, ?from_length, ?basis_length by (assumption || lia); try lia.
      rewrite !(basis_piece a b x j q) by (assumption || lia). rewrite !Sl by lia.
      rewrite !nth_const by (rewrite ?upto_length, ?from_length; lia).
      unfold slope.
      replace (a + (i + S q))%nat with (a + i + S q)%nat by lia.
      replace (a + (i + S q + 1))%nat with (a + i + S q + 1)%nat by lia. replace (a + (i + 1))%nat with (a + i + 1)%nat by lia. reflexivity.
  Qed.

  (** Intervals: without a last knot. *)
  Context (mono : forall i j, (i <= j)%nat -> T i <= T j).
  Lemma sees_open a b x j : slice a (kv b) -> lastkn b = None -> T j <= x < T (S j) -> sees a b x j.
  Proof using mono.
    intros Sl N X i Hi. unfold basis0, upper. rewrite N.
    rewrite (nth_zip _ _ _ i 0 0 false) by (rewrite ?upto_length, ?map_length, ?from_length; lia).
    rewrite nth_upto, Sl by lia.
    rewrite (nth_indep _ false ((fun k => if Rlt_dec x k then true else false) 0)) by (rewrite map_length, from_length; lia).
    rewrite (map_nth (fun k => if Rlt_dec x k then true else false)). rewrite nth_from, Sl by lia. replace (a + (1 + i))%nat with (S (a + i)) by lia.
    destruct (Nat.eqb_spec (a + i) j) as [->|D].
    - destruct (Rle_dec (T j) x); [|lra]. destruct (Rlt_dec x (T (S j))); [reflexivity|lra].
    - destruct (Nat.lt_ge_cases (a + i) j).
      + pose proof (mono (S (a + i)) j ltac:(lia)). destruct (Rlt_dec x (T (S (a + i)))); [lra|]. destruct (Rle_dec _ _); reflexivity.
      + pose proof (mono (S j) (a + i) ltac:(lia)). destruct (Rle_dec (T (a + i)%nat) x); [lra|]. reflexivity.
  Qed.

  (** With a last knot. *)
  Lemma sees_last b x j o : slice 0 (kv b) -> lastkn b = Some (lastKnot (kv b) o) ->
    (2 + o <= length (kv b))%nat -> (forall i, (length (kv b) - o - 1 <= i)%nat -> T i = T (length (kv b) - o - 1)%nat) ->
    T 0%nat <= x -> ((T j <= x < T (S j) /\ (j <= length (kv b) - o - 2)%nat) \/ (x = T (S j) /\ (j = length (kv b) - o - 2)%nat)) -> sees 0 b x j.
  Proof using mono.
    intros Sl N Len Tail X0 X i Hi. unfold basis0, upper. rewrite N. cbn [Nat.add].
    set (m := length (kv b)) in *.
    assert (LL : length (lastKnot (kv b) o) = m) by (unfold lastKnot; rewrite map_length, seq_length; reflexivity).
    rewrite (nth_zip _ _ _ i 0 0 false) by (rewrite ?zip_length, ?upto_length, ?map_length, ?from_length, ?LL; fold m; lia).
    rewrite (nth_zip _ _ _ i false false false) by (rewrite ?map_length, ?from_length, ?LL; fold m; lia).
    rewrite nth_upto, Sl by (fold m; lia).
    rewrite (nth_indep (map (fun k => if Rlt_dec x k then true else false) _) false ((fun k => if Rlt_dec x k then true else false) 0)) by (rewrite map_length, from_length; fold m; lia).
    rewrite (map_nth (fun k => if Rlt_dec x k then true else false)). rewrite nth_from, Sl by (fold m; lia).
    rewrite (nth_indep (map (fun k => if Req_EM_T x k then true else false) _) false ((fun k => if Req_EM_T x k then true else false) 0)) by (rewrite map_length, from_length, LL; lia).
    rewrite (map_nth (fun k => if Req_EM_T x k then true else false)). rewrite nth_from.
    assert (Q : nth (1 + i) (lastKnot (kv b) o) 0 = if (1 + i =? m - o - 1)%nat then T (1 + i)%nat else T 0%nat - 1).
    { unfold lastKnot. fold m. set (f := fun _ : nat => _). rewrite (nth_indep _ 0 (f 0%nat)) by (rewrite map_length, seq_length; lia).
      rewrite map_nth, seq_nth by lia. unfold f. cbn [Nat.add]. rewrite !Sl by (fold m; lia). reflexivity. }
    rewrite Q. cbn [Nat.add].
    destruct (Nat.eqb_spec i j) as [->|D].
    - destruct (Rle_dec (T j) x) as [_|F].
      + destruct X as [(X & _)|(X & E)].
        * destruct (Rlt_dec x (T (S j))); [reflexivity|lra].
        * destruct (Nat.eqb_spec (S j) (m - o - 1)); [|lia]. destruct (Req_EM_T x (T (S j))); [|contradiction]. rewrite orb_true_r. reflexivity.
      + exfalso. destruct X as [(X & _)|(X & E)]; [lra|]. pose proof (mono j (S j) ltac:(lia)). lra.
    - destruct (Rle_dec (T i) x) as [F|F]; [|reflexivity].
      assert (A : (if Rlt_dec x (T (S i)) then true else false) = false).
      { destruct (Rlt_dec x (T (S i))) as [G|]; [|reflexivity]. exfalso. destruct X as [(X & _)|(X & E)].
        - destruct (Nat.lt_ge_cases i j); [pose proof (mono (S i) j ltac:(lia))|pose proof (mono (S j) i ltac:(lia))]; lra.
        - destruct (Nat.lt_ge_cases i j); [pose proof (mono (S i) (S j) ltac:(lia)); lra|].
          rewrite (Tail (S i)), X in G by lia. rewrite E in G. replace (S (m - o - 2)) with (m - o - 1)%nat in G by lia. lra. }
      rewrite A. cbn [orb]. destruct (Nat.eqb_spec (S i) (m - o - 1)).
      + destruct (Req_EM_T x (T (S i))) as [G|]; [|reflexivity]. exfalso. destruct X as [(X & B)|(X & E)]; [|lia].
        pose proof (mono (S j) (S i) ltac:(lia)). lra.
      + destruct (Req_EM_T x (T 0%nat - 1)); [lra|reflexivity].
  Qed.

  (** The terms of diff. *)
  Definition good (m : nat) (a : nat) (c : list R) (b : bspl) : Prop :=
    wf b /\ slice a (kv b) /\ (deg b < length (kv b))%nat /\ (length (kv b) - 1 - deg b = m)%nat /\ length c = m.

  Lemma internal_good m a b : wf b -> slice a (kv b) -> (0 < deg b < length (kv b) - 1)%nat -> (length (kv b) - 1 - deg b = m)%nat ->
    exists c1 c2, diff_internal b = [(c1, Bspline (upto 1 (kv b)) (deg b - 1) false); (c2, Bspline (from 1 (kv b)) (deg b - 1) false)] /\
      good m a c1 (Bspline (upto 1 (kv b)) (deg b - 1) false) /\ good m (a + 1) c2 (Bspline (from 1 (kv b)) (deg b - 1) false) /\
      forall i, (i < m)%nat -> nth i c1 0 = quot (INR (deg b)) (T (a + i + deg b)%nat - T (a + i)%nat) /\
                               nth i c2 0 = quot (- INR (deg b)) (T (a + i + deg b + 1)%nat - T (a + i + 1)%nat).
  Proof.
    intros W Sl P Em. unfold diff_internal. eexists _, _. split; [reflexivity|].
    assert (L1 : length (zip Rminus (upto 1 (from (deg b) (kv b))) (upto (deg b + 1) (kv b))) = m) by (repeat rewrite ?zip_length, ?upto_length, ?from_length; lia).
    assert (L2 : length (zip Rminus (from (deg b + 1) (kv b)) (from 1 (upto (deg b) (kv b)))) = m) by (repeat rewrite ?zip_length, ?upto_length, ?from_length; lia).
    split; [|split].
    - split; [exact Logic.I|]. cbn [Bspline kv deg]. rewrite upto_length, map_length, L1. split; [apply slice_upto, Sl|lia].
    - split; [exact Logic.I|]. cbn [Bspline kv deg]. rewrite from_length, map_length, L2. split; [apply slice_from, Sl|lia].
    - intros i Hi. split.
      + rewrite (nth_indep _ 0 (quot (INR (deg b)) 0)) by (rewrite map_length, L1; lia). rewrite map_nth. f_equal.
        rewrite (nth_zip Rminus _ _ i 0 0 0) by (repeat rewrite ?zip_length, ?upto_length, ?from_length; lia).
        rewrite !nth_upto by (rewrite ?from_length; lia). rewrite nth_from, !Sl by lia. f_equal. f_equal. lia.
      + rewrite (nth_indep _ 0 (quot (- INR (deg b)) 0)) by (rewrite map_length, L2; lia). rewrite map_nth. f_equal.
        rewrite (nth_zip Rminus _ _ i 0 0 0) by (repeat rewrite ?zip_length, ?upto_length, ?from_length; lia).
        rewrite !nth_from. rewrite nth_upto, !Sl by lia. f_equal; f_equal; lia.
  Qed.
End Slices.

(** A function that is g to the left and h to the right. *)
Lemma derive_glue (f g h : R -> R) (x l : R) (d : posreal) :
  (forall y, x - d < y <= x -> f y = g y) -> (forall y, x <= y < x + d -> f y = h y) ->
  is_derive g x l -> is_derive h x l -> is_derive f x l.
Proof.
  intros G H Dg Dh. apply is_derive_Reals. apply is_derive_Reals in Dg, Dh.
  intros eps E. destruct (Dg eps E) as (d1 & D1), (Dh eps E) as (d2 & D2).
  assert (P : 0 < Rmin d (Rmin d1 d2)) by (repeat apply Rmin_pos; [apply cond_pos|apply cond_pos|apply cond_pos]).
  exists (mkposreal _ P). cbn. intros k Nk Hk.
  pose proof (Rmin_l d (Rmin d1 d2)). pose proof (Rmin_r d (Rmin d1 d2)). pose proof (Rmin_l d1 d2). pose proof (Rmin_r d1 d2).
  pose proof (cond_pos d).
  destruct (Rlt_dec k 0) as [N|N].
  - rewrite Rabs_left in Hk by assumption. rewrite (G (x + k)), (G x) by lra. apply D1; [assumption|]. rewrite Rabs_left by assumption. lra.
  - rewrite Rabs_right in Hk by lra. rewrite (H (x + k)), (H x) by lra. apply D2; [assumption|]. rewrite Rabs_right by lra. lra.
Qed.
