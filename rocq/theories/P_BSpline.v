(** The polynomials that a B-spline is made of, one for each interval between knots. *)
From Coquelicot Require Import Coquelicot.
From Coq Require Import List Arith Reals Bool Lia Lra Psatz.
From Verif Require Import L_Sum M_BSpline.
Import ListNotations.
Local Open Scope R_scope.
Set Default Proof Using "Type".

Section Piece.
  Context (T : nat -> R) (mono : forall i j, (i <= j)%nat -> T i <= T j).

  (** The recursion of Cox and De Boor, starting with the interval j. *)
  Fixpoint piece (j p : nat) (x : R) (i : nat) : R :=
    match p with
    | O => if (i =? j)%nat then 1 else 0
    | S q => quot (x - T i) (T (i + p)%nat - T i) * piece j q x i
             + quot (T (i + p + 1)%nat - x) (T (i + p + 1)%nat - T (i + 1)%nat) * piece j q x (i + 1)
    end.

  Lemma quot_eq a d : d <> 0 -> quot a d = a / d.
  Proof. intro H. unfold quot. destruct (Req_EM_T d 0); [contradiction|reflexivity]. Qed.
  Lemma quot_lin a d : quot a d = a * quot 1 d.
  Proof. unfold quot. destruct (Req_EM_T d 0); [ring|field; assumption]. Qed.
  Lemma quot_nonneg a d : 0 <= a -> 0 <= d -> 0 <= quot a d.
  Proof.
    intros A D. unfold quot. destruct (Req_EM_T d 0); [lra|]. apply Rmult_le_pos; [assumption|].
    apply Rlt_le, Rinv_0_lt_compat. lra.
  Qed.

  Lemma piece_supp j p x : forall i, (j < i \/ i + p < j)%nat -> piece j p x i = 0.
  Proof.
    induction p as [|q IH]; intros i H; cbn [piece].
    - destruct (Nat.eqb_spec i j); [lia|reflexivity].
    - rewrite !IH by lia. ring.
  Qed.

  Lemma piece_nonneg j p x : T j <= x <= T (S j) -> forall i, 0 <= piece j p x i.
  Proof using mono.
    intro X. induction p as [|q IH]; intro i; cbn [piece].
    - destruct (_ =? _)%nat; lra.
    - assert (A : 0 <= quot (x - T i) (T (i + S q)%nat - T i) * piece j q x i).
      { destruct (le_lt_dec i j) as [L|L].
        - apply Rmult_le_pos; [|apply IH]. pose proof (mono i j L). pose proof (mono i (i + S q) ltac:(lia)). apply quot_nonneg; lra.
        - rewrite (piece_supp j q x i) by lia. lra. }
      assert (B : 0 <= quot (T (i + S q + 1)%nat - x) (T (i + S q + 1)%nat - T (i + 1)%nat) * piece j q x (i + 1)).
      { destruct (le_lt_dec j (i + 1 + q)) as [L|L].
        - apply Rmult_le_pos; [|apply IH]. pose proof (mono (S j) (i + S q + 1) ltac:(lia)). pose proof (mono (i + 1) (i + S q + 1) ltac:(lia)). apply quot_nonneg; lra.
        - rewrite (piece_supp j q x (i + 1)) by lia. lra. }
      lra.
  Qed.

  Lemma sum_first n f : sum (S n) f = f O + sum n (fun i => f (S i)).
  Proof. induction n as [|n IH]; cbn [sum]; [lra|]. cbn [sum] in IH. rewrite IH. lra. Qed.

  Lemma piece_sum j p x n : T j < T (S j) -> (p <= j < n)%nat -> sum n (piece j p x) = 1.
  Proof using mono.
    intros Hj. induction p as [|q IH]; intro H.
    - rewrite (sum_one n j (piece j 0 x)); cbn [piece].
      + rewrite Nat.eqb_refl. reflexivity.
      + lia.
      + intros i _ D. destruct (Nat.eqb_spec i j); [contradiction|reflexivity].
    - cbn [piece]. rewrite sum_plus.
      set (g := fun i => quot (T (i + S q)%nat - x) (T (i + S q)%nat - T i) * piece j q x i).
      assert (E : sum n (fun i => quot (T (i + S q + 1)%nat - x) (T (i + S q + 1)%nat - T (i + 1)%nat) * piece j q x (i + 1)) = sum n g).
      { transitivity (sum n (fun i => g (S i))).
        - apply sum_ext. intros i _. unfold g. replace (i + 1)%nat with (S i) by lia. replace (i + S q + 1)%nat with (S i + S q)%nat by lia. reflexivity.
        - pose proof (sum_first n g) as F. cbn [sum] in F.
          assert (G0 : g O = 0) by (unfold g; rewrite piece_supp by lia; ring).
          assert (Gn : g n = 0) by (unfold g; rewrite piece_supp by lia; ring). lra. }
      rewrite E, <- sum_plus. rewrite <- (IH ltac:(lia)). apply sum_ext. intros i Hi. unfold g.
      destruct (le_lt_dec i j) as [L|L]; [|rewrite piece_supp by lia; ring].
      destruct (le_lt_dec j (i + q)) as [M|M]; [|rewrite piece_supp by lia; ring].
      pose proof (mono i j L). pose proof (mono (S j) (i + S q) ltac:(lia)).
      rewrite !quot_eq by lra. field. lra.
  Qed.

  (** The slope of a piece. *)
  Definition slope (j p : nat) (x : R) (i : nat) : R :=
    match p with
    | O => 0
    | S q => quot (INR p) (T (i + p)%nat - T i) * piece j q x i
             + quot (- INR p) (T (i + p + 1)%nat - T (i + 1)%nat) * piece j q x (i + 1)
    end.

  Lemma quot_self d : quot d d = if Req_EM_T d 0 then 0 else 1.
  Proof. unfold quot. destruct (Req_EM_T d 0); [reflexivity|field; assumption]. Qed.

  Lemma slope_step j q x i :
    quot 1 (T (i + S q)%nat - T i) * piece j q x i - quot 1 (T (i + S q + 1)%nat - T (i + 1)%nat) * piece j q x (i + 1)
    + (x - T i) * quot 1 (T (i + S q)%nat - T i) * slope j q x i
    + (T (i + S q + 1)%nat - x) * quot 1 (T (i + S q + 1)%nat - T (i + 1)%nat) * slope j q x (i + 1)
    = slope j (S q) x i.
  Proof using mono.
    destruct q as [|r].
    - cbn [slope piece]. rewrite (quot_lin (INR 1)), (quot_lin (- INR 1)). cbn [INR]. ring.
    - unfold slope. rewrite (quot_lin (INR (S (S r)))), (quot_lin (- INR (S (S r)))), (S_INR (S r)).
      set (n := INR (S r)). cbn [piece].
      repeat match goal with |- context [quot ?a ?d] => lazymatch a with 1 => fail | _ => rewrite (quot_lin a d) end end.
      replace (i + 1 + S r)%nat with (i + S (S r))%nat by lia.
      replace (i + 1 + S (S r))%nat with (i + 3 + r)%nat by lia.
      replace (i + S (S r) + 1)%nat with (i + 3 + r)%nat by lia.
      replace (i + 1 + 1)%nat with (i + 2)%nat by lia. replace (i + S r + 1)%nat with (i + S (S r))%nat by lia.
      replace (i + S (S r) + 1)%nat with (i + 3 + r)%nat by lia.
      set (A := piece j r x i). set (B := piece j r x (i + 1)). set (C := piece j r x (i + 2)).
      set (a := quot 1 (T (i + S r)%nat - T i)). set (b := quot 1 (T (i + S (S r))%nat - T (i + 1)%nat)).
      set (c := quot 1 (T (i + 3 + r)%nat - T (i + 2)%nat)).
      set (u := quot 1 (T (i + S (S r))%nat - T i)). set (v := quot 1 (T (i + 3 + r)%nat - T (i + 1)%nat)).
      assert (K : b * ((T (i + 3 + r)%nat - T (i + 1)%nat) * v - (T (i + S (S r))%nat - T i) * u) = 0).
      { unfold v, u. rewrite <- !quot_lin, !quot_self. unfold b, quot at 1.
        pose proof (mono i (i + 1) ltac:(lia)). pose proof (mono (i + 1) (i + S (S r)) ltac:(lia)). pose proof (mono (i + S (S r)) (i + 3 + r) ltac:(lia)).
        destruct (Req_EM_T (T (i + S (S r))%nat - T (i + 1)%nat) 0); [ring|].
        destruct (Req_EM_T (T (i + 3 + r)%nat - T (i + 1)%nat) 0); [lra|]. destruct (Req_EM_T (T (i + S (S r))%nat - T i) 0); [lra|]. ring. }
      match goal with |- ?l = ?rr => cut (l - rr = 0); [lra|]; transitivity (n * B * (b * ((T (i + 3 + r)%nat - T (i + 1)%nat) * v - (T (i + S (S r))%nat - T i) * u))); [ring|rewrite K; ring] end.
  Qed.

  Lemma piece_derive j p : forall i (x : R), is_derive (fun y : R => piece j p y i) x (slope j p x i).
  Proof using mono.
    induction p as [|q IH]; intros i x; cbn [piece].
    - apply @is_derive_const.
    - rewrite <- slope_step.
      apply (is_derive_ext (fun y : R => (y - T i) * quot 1 (T (i + S q)%nat - T i) * piece j q y i
         + (T (i + S q + 1)%nat - y) * quot 1 (T (i + S q + 1)%nat - T (i + 1)%nat) * piece j q y (i + 1))).
      { intro y. rewrite (quot_lin (y - T i)), (quot_lin (T (i + S q + 1)%nat - y)). reflexivity. }
      set (u := quot 1 _). set (v := quot 1 _).
      evar_last.
      + apply @is_derive_plus.
        * apply @is_derive_mult; [|apply IH|exact Rmult_comm].
          instantiate (1 := u). auto_derive; [exact Logic.I|ring].
        * apply @is_derive_mult; [|apply IH|exact Rmult_comm].
          instantiate (1 := - v). auto_derive; [exact Logic.I|ring].
      + unfold plus, mult. cbn. ring.
  Qed.

  (** At a knot that occurs once the pieces to both sides are the same. *)
  Lemma piece_join j p i : (0 < p)%nat -> T j < T (S j) -> T (S j) < T (S (S j)) -> piece j p (T (S j)) i = piece (S j) p (T (S j)) i.
  Proof.
    intros P H1 H2. destruct p as [|q]; [lia|]. clear P. revert i. induction q as [|q IH]; intro i.
    - cbn [piece]. replace (i + 1 + 1)%nat with (i + 2)%nat by lia.
      destruct (Nat.eqb_spec i j) as [->|A].
      + destruct (Nat.eqb_spec (j + 1) j); [lia|]. destruct (Nat.eqb_spec j (S j)); [lia|]. destruct (Nat.eqb_spec (j + 1) (S j)); [|lia].
        replace (j + 1)%nat with (S j) by lia. replace (j + 2)%nat with (S (S j)) by lia.
        rewrite !quot_eq by lra. field. lra.
      + destruct (Nat.eqb_spec (i + 1) j) as [E|B].
        * destruct (Nat.eqb_spec i (S j)); [lia|]. destruct (Nat.eqb_spec (i + 1) (S j)); [lia|].
          replace (i + 2)%nat with (S j) by lia. rewrite (quot_lin (T (S j) - T (S j))). ring.
        * destruct (Nat.eqb_spec (i + 1) (S j)); [lia|]. destruct (Nat.eqb_spec i (S j)) as [->|]; [|ring].
          rewrite (quot_lin (T (S j) - T (S j))). ring.
    - change (piece j (S (S q)) (T (S j)) i) with
        (quot (T (S j) - T i) (T (i + S (S q))%nat - T i) * piece j (S q) (T (S j)) i
         + quot (T (i + S (S q) + 1)%nat - T (S j)) (T (i + S (S q) + 1)%nat - T (i + 1)%nat) * piece j (S q) (T (S j)) (i + 1)).
      rewrite !IH. reflexivity.
  Qed.
End Piece.

Lemma piece_shift T j p x a i : piece (fun k => T (a + k)%nat) j p x i = piece T (a + j) p x (a + i).
Proof.
  revert i. induction p as [|q IH]; intro i; cbn [piece].
  - destruct (Nat.eqb_spec i j), (Nat.eqb_spec (a + i) (a + j)); lia || reflexivity.
  - rewrite !IH. replace (a + (i + 1))%nat with (a + i + 1)%nat by lia.
    replace (a + (i + S q))%nat with (a + i + S q)%nat by lia. replace (a + (i + S q + 1))%nat with (a + i + S q + 1)%nat by lia. reflexivity.
Qed.
