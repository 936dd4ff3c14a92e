(** C52: the units of the parameters of splines. *)
From Coquelicot Require Import Coquelicot.
From Coq Require Import List Arith ZArith Reals Bool Lia Lra.
From Verif Require Import L_Sum M_Splines T_Splines M_SplineUnit.
Import ListNotations.
Local Open Scope R_scope.

Lemma tpow_scale o knots j a x : 0 < a -> (j < length knots)%nat -> tpow o (map (Rmult a) knots) j (a * x) = a ^ o * tpow o knots j x.
Proof.
  intros A J. unfold tpow. rewrite (nth_indep (map (Rmult a) knots) 0 (a * 0)) by (rewrite map_length; exact J). rewrite map_nth.
  destruct (j =? 0)%nat; [apply Rpow_mult_distr|]. set (n := nth j knots 0).
  destruct (Rle_dec (a * n) (a * x)) as [L|L]; destruct (Rle_dec n x) as [M|M].
  - rewrite <- Rmult_minus_distr_l. apply Rpow_mult_distr.
  - exfalso. apply M. apply Rmult_le_reg_l with a; assumption.
  - exfalso. apply L. apply Rmult_le_compat_l; [lra|exact M].
  - ring.
Qed.
Lemma spline_scale o knots k a x : 0 < a -> (2 <= length knots)%nat -> (k < o + length knots - 1)%nat ->
  spline o (map (Rmult a) knots) k (a * x) = a ^ Nat.min k o * spline o knots k x.
Proof.
  intros A N K. unfold spline. rewrite map_length. destruct (Nat.ltb_spec k o) as [H|H].
  - rewrite Nat.min_l by lia. apply Rpow_mult_distr.
  - rewrite Nat.min_r by exact H. destruct (Nat.ltb_spec (S (k - o)) (length knots - 1)) as [H'|H'].
    + rewrite !tpow_scale by (assumption || lia). ring.
    + apply tpow_scale; [exact A|lia].
Qed.

(** The units of the parameters are right, for every order and all knots: with x and the knots in a unit that is a times smaller, y in one that
    is b times smaller, and the parameters multiplied accordingly (b^i a^j for yUnit^i xUnit^j), the result is the same in the other unit of y. *)
Theorem C52_units o knots xs params a b : 0 < a -> 0 < b -> (2 <= length knots)%nat -> ascending knots ->
  exists ys, baseResult (Z.of_nat o) knots xs params = Some ys /\
    baseResult (Z.of_nat o) (map (Rmult a) knots) (map (Rmult a) xs)
      (fun k => powerRZ b (fst (splineUnit o k)) * powerRZ a (snd (splineUnit o k)) * params k) = Some (map (Rmult b) ys).
Proof.
  intros A B N Up. exists (map (splines o knots params) xs). split; [apply C52_result; assumption|].
  rewrite C52_result; [|rewrite map_length; exact N|].
  - f_equal. rewrite !map_map. apply map_ext. intro x. unfold splines. rewrite map_length. rewrite <- sum_scal.
    apply sum_ext. intros k K. rewrite spline_scale by (assumption || lia). unfold splineUnit.
    assert (E : (if (o <? k)%nat then o else k) = Nat.min k o) by (destruct (Nat.ltb_spec o k); lia). rewrite E. cbn [fst snd].
    rewrite powerRZ_1, powerRZ_neg', <- pow_powerRZ.
    assert (P : a ^ Nat.min k o <> 0) by (apply pow_nonzero; lra). field. exact P.
  - intros i j H. rewrite map_length in H. rewrite !(nth_indep (map (Rmult a) knots) 0 (a * 0)) by (rewrite map_length; lia). rewrite !map_nth.
    apply Rmult_le_compat_l; [lra|]. apply Up. lia.
Qed.
Print Assumptions C52_units.

(** ** Example: the units of cubic splines on four knots are y, y/x, y/x^2, and y/x^3 for the other three parameters. *)
Example C52_units_example : map (splineUnit 3) (seq 0 6) = [(1, 0); (1, -1); (1, -2); (1, -3); (1, -3); (1, -3)]%Z /\ ascending [0; 1; 3; 4].
Proof.
  split; [reflexivity|]. intros i j [H J]. cbn in J. do 4 (destruct i as [|i]; [do 4 (destruct j as [|j]; [cbn; lra || lia|]); lia|]). lia.
Qed.
