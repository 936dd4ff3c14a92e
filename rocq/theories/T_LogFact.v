(** C66: the logarithm of a factorial. *)
From Coquelicot Require Import Coquelicot.
From Coq Require Import List Arith ZArith Reals Bool Lia Lra Psatz.
From Verif Require Import L_Sum L_Ln M_LogFact.
Import ListNotations.
Local Open Scope R_scope.

(** ** The table *)
Lemma table_ok : check logfact 0 0 0 = true.
Proof. vm_compute. reflexivity. Qed.
Lemma table_near k : (k < 100)%nat -> Rabs (IZR (nth k logfact 0%Z) / 10 ^ 16 - ln (INR (fact k))) <= / 10 ^ 13.
Proof. intro H. apply (check_ok logfact 0 0 0 good_0 table_ok k). exact H. Qed.

(** ** The formula *)
Definition rest (k : nat) : R := ln (INR (fact k)) - ((INR k + 5 / 10) * ln (INR k) - INR k + 1 / (12 * INR k)).
Lemma rest_step k : (1 <= k)%nat -> 0 <= rest (S k) - rest k <= (/ INR k ^ 3 - / INR (S k) ^ 3) / 144.
Proof.
  intro Hk. assert (K : 1 <= INR k) by (apply (le_INR 1); exact Hk). unfold rest. change (fact (S k)) with (S k * fact k)%nat.
  rewrite mult_INR, ln_mult by (apply lt_0_INR; pose proof (lt_O_fact k); lia). set (x := / (2 * INR k + 1)).
  assert (X : 0 < x < 1). { unfold x. split; [apply Rinv_0_lt_compat; lra|]. rewrite <- Rinv_1. apply Rinv_lt_contravar; lra. }
  assert (E : INR (S k) / INR k = (1 + x) / (1 - x)) by (rewrite S_INR; unfold x; field; lra).
  pose proof (ln_lower 2 x ltac:(lra)) as Lo. pose proof (ln_upper 1 x ltac:(lra)) as Up. rewrite <- E, ln_div in Lo, Up by (apply lt_0_INR; lia).
  unfold atser in Lo, Up. cbn [sum Nat.mul Nat.add] in Lo, Up. replace (INR 1) with 1 in Lo, Up by reflexivity. replace (INR 3) with 3 in Lo, Up by (cbn; lra).
  set (d := ln (INR (S k)) - ln (INR k)) in *. rewrite S_INR in *.
  match goal with |- 0 <= ?e <= _ => replace e with (1 - (INR k + 5 / 10) * d + 1 / (12 * (INR k * (INR k + 1)))) by (unfold d; rewrite ?S_INR; field; lra) end.
  set (t := INR k) in *. clearbody d. clear E.
  assert (X2 : x ^ 2 = / ((2 * t + 1) ^ 2)) by (unfold x; rewrite pow_inv; reflexivity).
  assert (X1 : 1 - x ^ 2 = 4 * t * (t + 1) / (2 * t + 1) ^ 2) by (rewrite X2; field; lra). split.
  - replace (0 + 2 * x ^ 1 / 1 + 2 * x ^ 3 / (3 * (1 - x ^ 2))) with (2 * x * (1 + / (12 * t * (t + 1)))) in Up.
    + apply (Rmult_le_compat_l (t + 5 / 10)) in Up; [|lra]. replace ((t + 5 / 10) * (2 * x * (1 + / (12 * t * (t + 1))))) with (1 + 1 / (12 * (t * (t + 1)))) in Up by (unfold x; field; lra). lra.
    + rewrite X1. unfold x. field. lra.
  - apply (Rmult_le_compat_l (t + 5 / 10)) in Lo; [|lra].
    replace ((t + 5 / 10) * (0 + 2 * x ^ 1 / 1 + 2 * x ^ 3 / 3)) with (1 + / (3 * (2 * t + 1) ^ 2)) in Lo by (unfold x; field; lra).
    apply Rle_trans with (1 / (12 * (t * (t + 1))) - / (3 * (2 * t + 1) ^ 2)); [lra|].
    apply Rminus_le. replace (1 / (12 * (t * (t + 1))) - / (3 * (2 * t + 1) ^ 2) - (/ t ^ 3 - / (t + 1) ^ 3) / 144)
      with (- ((4 * t ^ 2 + 4 * t + 1) * (3 * t ^ 2 + 3 * t + 1) - 12 * t ^ 2 * (t + 1) ^ 2) / (144 * t ^ 3 * (t + 1) ^ 3 * (2 * t + 1) ^ 2)) by (field; lra).
    unfold Rdiv. rewrite Ropp_mult_distr_l_reverse. rewrite <- Ropp_0. apply Ropp_le_contravar. apply Rle_mult_inv_pos; [nra|].
    repeat apply Rmult_lt_0_compat; try apply pow_lt; lra.
Qed.
Lemma rest_up n : rest 100 <= rest (100 + n) <= rest 100 + (/ 100 ^ 3 - / INR (100 + n) ^ 3) / 144.
Proof.
  induction n as [|n IH].
  - rewrite Nat.add_0_r. replace (INR 100) with 100 by (rewrite INR_IZR_INZ; reflexivity). lra.
  - replace (100 + S n)%nat with (S (100 + n)) by lia. pose proof (rest_step (100 + n) ltac:(lia)). lra.
Qed.
Lemma state_100 : state 100 = (4605170185988091368035982908951%Z, 363739375555563490144079993346345%Z).
Proof. vm_compute. reflexivity. Qed.
Lemma rest_100 : 9189385332046727 / 10 ^ 16 - 28 / 10 ^ 10 <= rest 100 <= 9189385332046727 / 10 ^ 16 - 27 / 10 ^ 10.
Proof.
  pose proof (state_good 100) as G. rewrite state_100 in G. cbn [fst snd] in G. destruct G as [L F]. specialize (L ltac:(lia)).
  assert (U : IZR unit30 = 10 ^ 30) by (symmetry; apply (pow_IZR 10 30)). rewrite U in *. unfold rest. assert (H : INR 100 = 100) by (rewrite INR_IZR_INZ; reflexivity).
  rewrite H in *. set (a := ln 100) in *. set (b := ln (INR (fact 100))) in *. clearbody a b. lra.
Qed.
(** the error of the formula *)
Lemma stirling_near k : (100 <= k)%nat -> Rabs (stirling (INR k) - ln (INR (fact k))) <= 5 / 10 ^ 9.
Proof.
  intro H. pose proof rest_100 as R1. pose proof (rest_up (k - 100)) as R2. replace (100 + (k - 100))%nat with k in R2 by lia.
  assert (P : 0 <= / INR k ^ 3) by (left; apply Rinv_0_lt_compat, pow_lt, lt_0_INR; lia).
  replace (stirling (INR k) - ln (INR (fact k))) with (9189385332046727 / 10 ^ 16 - rest k) by (unfold stirling, rest; ring).
  set (v := rest k) in *. set (u := rest 100) in *. clearbody v u. apply Rabs_le_between. lra.
Qed.

(** ** The function *)
(** what is wanted for k *)
Definition near (k : nat) (v : R) : Prop := Rabs (v - ln (INR (fact k))) <= 5 / 10 ^ 9 /\ ((k < 100)%nat -> Rabs (v - ln (INR (fact k))) <= / 10 ^ 13).

Lemma lookup_near k : (k < 100)%nat -> exists v, lookup (Z.of_nat k) = Some v /\ near k v.
Proof.
  intro H. unfold lookup, index. destruct (Z.ltb_spec (Z.of_nat k) (- Z.of_nat 100)); [lia|]. destruct (Z.ltb_spec (Z.of_nat k) 0); [lia|].
  destruct (Z.ltb_spec (Z.of_nat k) (Z.of_nat 100)); [|lia]. rewrite Nat2Z.id. eexists. split; [reflexivity|]. pose proof (table_near k H) as T. split; [lra|intros _; exact T].
Qed.
Lemma item_near k : exists v, item (Z.of_nat k) = Some v /\ near k v.
Proof.
  unfold item. destruct (Z.ltb_spec (Z.of_nat k) 100) as [L|L]; [apply lookup_near; lia|]. eexists. split; [reflexivity|]. rewrite <- INR_IZR_INZ.
  split; [apply stirling_near; lia|]. intro; lia.
Qed.

(** For all whole numbers, not negative, the answer is the logarithm of the factorial. *)
Theorem C66_number k : exists v, logFactorial (Int (Z.of_nat k)) = One v /\ near k v.
Proof.
  destruct (item_near k) as (v & E & N). exists v. split; [|exact N]. unfold logFactorial, item in *. destruct (Z.of_nat k <? 100)%Z; [rewrite E; reflexivity|congruence].
Qed.
Print Assumptions C66_number.

Lemma truncate_floor x : 0 <= x -> exists k, truncate x = Z.of_nat k /\ INR k <= x < INR k + 1.
Proof.
  intro H. unfold truncate. destruct Rlt_dec; [lra|]. destruct (base_Int_part x) as [A B]. assert (P : (0 <= Int_part x)%Z).
  { apply le_IZR. assert (Q : -1 < IZR (Int_part x)) by lra. apply (lt_IZR (-1)) in Q. apply IZR_le. lia. }
  exists (Z.to_nat (Int_part x)). rewrite Z2Nat.id by exact P. split; [reflexivity|]. rewrite INR_IZR_INZ, Z2Nat.id by exact P. lra.
Qed.
(** Of a list or an array of numbers, not negative, each is truncated. *)
Theorem C66_array l a : a = AList l \/ a = Array l -> length l <> 1%nat -> Forall (fun x => 0 <= x) l ->
  exists r, logFactorial a = Many r /\ length r = length l /\
    forall i, (i < length l)%nat -> exists k, INR k <= nth i l 0 < INR k + 1 /\ near k (nth i r 0).
Proof.
  intros A L P. assert (E : logFactorial a = several l) by (destruct A as [-> | ->]; destruct l as [|? [|]]; cbn in L; try lia; reflexivity). rewrite E. unfold several. clear A E L.
  assert (H : exists r, items (map truncate l) = Some r /\ length r = length l /\ forall i, (i < length l)%nat -> exists k, INR k <= nth i l 0 < INR k + 1 /\ near k (nth i r 0)).
  { induction P as [|x l Hx P (r & E & L & IH)]; [exists []; split; [reflexivity|]; split; [reflexivity|]; cbn; lia|].
    destruct (truncate_floor x Hx) as (k & Ek & K). destruct (item_near k) as (v & Ev & N). exists (v :: r). cbn [map items]. rewrite Ek, Ev, E. split; [reflexivity|].
    split; [cbn; congruence|]. intros [|i] Hi; [exists k; split; [exact K|exact N]|]. apply IH. cbn in Hi. lia. }
  destruct H as (r & -> & H). exists r. split; [reflexivity|exact H].
Qed.
Print Assumptions C66_array.

(** From 1 on it grows, also where the table ends. *)
Theorem C66_increasing k v v' : (1 <= k)%nat -> logFactorial (Int (Z.of_nat k)) = One v -> logFactorial (Int (Z.of_nat (S k))) = One v' -> v < v'.
Proof.
  intros K E E'. destruct (C66_number k) as (w & F & N & _). destruct (C66_number (S k)) as (w' & F' & N' & _). rewrite E in F. rewrite E' in F'. injection F as <-. injection F' as <-.
  change (fact (S k)) with (S k * fact k)%nat in N'. rewrite mult_INR, ln_mult in N' by (apply lt_0_INR; pose proof (lt_O_fact k); lia).
  assert (G : ln 2 <= ln (INR (S k))). { apply ln_le; [lra|]. rewrite S_INR. assert (1 <= INR k) by (apply (le_INR 1); exact K). lra. }
  pose proof (ln_lower 1 (/ 3) ltac:(lra)) as L. unfold atser in L. cbn [sum Nat.mul Nat.add] in L. replace ((1 + / 3) / (1 - / 3)) with 2 in L by field. change (INR 1) with 1 in L.
  apply Rabs_le_between in N. apply Rabs_le_between in N'. lra.
Qed.
Print Assumptions C66_increasing.

(** A float is documented to be truncated; below 100 it raises a TypeError, *)
Theorem C66_float_refuted x : x < 100 -> logFactorial (Float x) = TypeError.
Proof. intro H. cbn. destruct Rlt_dec; [reflexivity|lra]. Qed.
Print Assumptions C66_float_refuted.
(** from 100 on it is not truncated: the answer for k + 1/2 is more than 1 above that for k. *)
Theorem C66_float_large_refuted k : (100 <= k)%nat -> exists v, logFactorial (Float (INR k + / 2)) = One v /\ ln (INR (fact k)) + 1 < v.
Proof.
  intro H. assert (K : 100 <= INR k) by (apply (le_INR 100) in H; rewrite (INR_IZR_INZ 100) in H; exact H). cbn [logFactorial]. destruct Rlt_dec; [lra|]. eexists. split; [reflexivity|].
  pose proof (stirling_near k H) as N. apply Rabs_le_between in N. unfold stirling in *. set (t := INR k) in *.
  assert (G : ln t <= ln (t + / 2)) by (apply ln_le; lra).
  assert (G2 : / (t + / 2) <= ln (t + / 2) - ln t + (/ (t + / 2) - / 2 / (t + / 2))).
  { rewrite <- ln_div by lra. pose proof (ln_lower 1 (/ (4 * t + 1)) ltac:(split; [left; apply Rinv_0_lt_compat; lra|rewrite <- Rinv_1; apply Rinv_lt_contravar; lra])) as L.
    unfold atser in L. cbn [sum Nat.mul Nat.add] in L. change (INR 1) with 1 in L. replace ((1 + / (4 * t + 1)) / (1 - / (4 * t + 1))) with ((t + / 2) / t) in L by (field; lra).
    replace (0 + 2 * (/ (4 * t + 1)) ^ 1 / 1) with (2 / (4 * t + 1)) in L by (field; lra). set (u := ln ((t + / 2) / t)) in *.
    assert (Q : / 2 / (t + / 2) = 2 / (4 * t + 2)) by (field; lra). rewrite Q.
    assert (Q2 : 2 / (4 * t + 2) <= 2 / (4 * t + 1)) by (apply Rmult_le_compat_l; [lra|apply Rinv_le_contravar; lra]). lra. }
  assert (L100 : 4 <= ln t).
  { apply Rle_trans with (ln 64); [|apply ln_le; lra]. replace 64 with (2 ^ 6) by ring. rewrite ln_pow by lra. replace (INR 6) with 6 by (cbn; lra).
    pose proof (ln_lower 2 (/ 3) ltac:(lra)) as L. unfold atser in L. cbn [sum Nat.mul Nat.add] in L. replace ((1 + / 3) / (1 - / 3)) with 2 in L by field. change (INR 1) with 1 in L.
    replace (INR 3) with 3 in L by (cbn; lra). lra. }
  assert (I1 : 0 < 1 / (12 * (t + / 2)) <= / 1200). { unfold Rdiv. rewrite Rmult_1_l. split; [apply Rinv_0_lt_compat; lra|apply Rinv_le_contravar; lra]. }
  assert (I2 : 0 < 1 / (12 * t) <= / 1200). { unfold Rdiv. rewrite Rmult_1_l. split; [apply Rinv_0_lt_compat; lra|apply Rinv_le_contravar; lra]. }
  assert (D : / 2 <= (t + / 2 + 5 / 10) * (ln (t + / 2) - ln t)).
  { apply Rle_trans with ((t + / 2 + 5 / 10) * (/ 2 / (t + / 2))).
    - replace ((t + / 2 + 5 / 10) * (/ 2 / (t + / 2))) with (/ 2 + / 2 * (/ 2 / (t + / 2))) by (field; lra). assert (0 < / 2 / (t + / 2)) by (apply Rdiv_lt_0_compat; lra). lra.
    - apply Rmult_le_compat_l; [lra|]. lra. }
  replace ((t + / 2 + 5 / 10) * ln (t + / 2)) with ((t + / 2 + 5 / 10) * (ln (t + / 2) - ln t) + (t + 5 / 10) * ln t + / 2 * ln t) by field. lra.
Qed.
Print Assumptions C66_float_large_refuted.
(** A list of one number, and an array of one number below 100 (the data of a Poisson distribution in one point) raise a TypeError. *)
Theorem C66_single_refuted x : logFactorial (AList [x]) = TypeError /\ (x < 100 -> logFactorial (Array [x]) = TypeError).
Proof. split; [reflexivity|]. intro H. cbn. destruct Rlt_dec; [reflexivity|lra]. Qed.
Print Assumptions C66_single_refuted.
(** Negative numbers are taken from the other end of the table: no exception. *)
Theorem C66_negative_refuted k : (1 <= k <= 100)%nat -> exists v, logFactorial (Int (- Z.of_nat k)) = One v /\ near (100 - k) v.
Proof.
  intro H. destruct (lookup_near (100 - k) ltac:(lia)) as (v & E & N). exists v. split; [|exact N]. unfold logFactorial. destruct (Z.ltb_spec (- Z.of_nat k) 100); [|lia].
  replace (lookup (- Z.of_nat k)) with (lookup (Z.of_nat (100 - k))); [rewrite E; reflexivity|]. unfold lookup, index.
  destruct (Z.ltb_spec (- Z.of_nat k) (- Z.of_nat 100)); [lia|]. destruct (Z.ltb_spec (- Z.of_nat k) 0); [|lia].
  destruct (Z.ltb_spec (Z.of_nat (100 - k)) (- Z.of_nat 100)); [lia|]. destruct (Z.ltb_spec (Z.of_nat (100 - k)) 0); [lia|]. destruct (Z.ltb_spec (Z.of_nat (100 - k)) (Z.of_nat 100)); [|lia].
  rewrite Nat2Z.id. replace (Z.to_nat (- Z.of_nat k + Z.of_nat 100)) with (100 - k)%nat by lia. reflexivity.
Qed.
Print Assumptions C66_negative_refuted.

Example C66_example : logFactorial (Int 3) = One (17917594692280550 / 10 ^ 16) /\ logFactorial (AList [0; 1]) = Many [0 / 10 ^ 16; 0 / 10 ^ 16] /\
  (exists v, logFactorial (Int 1000) = One v /\ near 1000 v).
Proof.
  split; [reflexivity|]. split; [|apply (C66_number 1000)].
  assert (T : forall z, (0 <= z)%Z -> truncate (IZR z) = z).
  { intros z Hz. unfold truncate. destruct Rlt_dec as [H|_]; [apply (lt_IZR z 0) in H; lia|]. destruct (base_Int_part (IZR z)) as [A B]. apply le_IZR in A. assert (Q : IZR (z - 1) < IZR (Int_part (IZR z))) by (rewrite minus_IZR; lra). apply lt_IZR in Q. lia. }
  cbn [logFactorial]. unfold several. cbn [map]. rewrite (T 0%Z), (T 1%Z) by lia. reflexivity.
Qed.

(** Truncation is towards zero: between -1 and 0 the answer is that of 0. *)
Theorem C66_towards_zero x y : -1 < x < 0 -> logFactorial (AList [x; y]) = logFactorial (AList [0; y]) /\ logFactorial (AList [x; 0]) = Many [0; 0].
Proof.
  intro H. assert (T : truncate x = 0%Z).
  { unfold truncate. destruct Rlt_dec; [|lra]. destruct (base_Int_part (- x)) as [A B].
    assert (Q1 : -1 < IZR (Int_part (- x))) by lra. assert (Q2 : IZR (Int_part (- x)) < 1) by lra. apply (lt_IZR (-1)) in Q1. apply (lt_IZR _ 1) in Q2. lia. }
  assert (T0 : truncate 0 = 0%Z).
  { unfold truncate. destruct Rlt_dec; [lra|]. destruct (base_Int_part 0) as [A B].
    assert (Q1 : -1 < IZR (Int_part 0)) by lra. apply (lt_IZR (-1)) in Q1. apply (le_IZR _ 0) in A. lia. }
  unfold logFactorial, several. cbn [map]. rewrite T, T0. split; [reflexivity|]. cbn. f_equal. unfold Rdiv. rewrite !Rmult_0_l. reflexivity.
Qed.
Print Assumptions C66_towards_zero.
