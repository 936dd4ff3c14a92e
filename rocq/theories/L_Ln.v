(** Bounds on logarithms that can be calculated: the series of ln ((1 + x) / (1 - x)), and logarithms of whole numbers and of factorials. *)
From Coquelicot Require Import Coquelicot.
From Coq Require Import List Arith ZArith Reals Bool Lia Lra Psatz.
From Verif Require Import L_Sum.
Import ListNotations.
Local Open Scope R_scope.

(** the first n terms *)
Definition atser (n : nat) (x : R) : R := sum n (fun i => 2 * x ^ (2 * i + 1) / INR (2 * i + 1)).

Lemma atser_derive n x : is_derive (atser n) x (sum n (fun i => 2 * x ^ (2 * i))).
Proof.
  unfold atser. induction n as [|n IH]; cbn [sum]; [apply (is_derive_const (K := R_AbsRing) 0 x)|]. apply @is_derive_plus; [exact IH|].
  assert (P : INR (2 * n + 1) <> 0) by (apply not_0_INR; lia). auto_derive; [trivial|]. replace (Init.Nat.pred (n + (n + 0) + 1)) with (2 * n)%nat by lia.
  replace (n + (n + 0) + 1)%nat with (2 * n + 1)%nat by lia. field. exact P.
Qed.
Lemma geo2 n x : (1 - x ^ 2) * sum n (fun i => 2 * x ^ (2 * i)) = 2 * (1 - x ^ (2 * n)).
Proof.
  induction n as [|n IH]; cbn [sum]; [cbn; ring|]. rewrite Rmult_plus_distr_l, IH. replace (2 * S n)%nat with (2 * n + 2)%nat by lia. rewrite pow_add. ring.
Qed.
Lemma at_derive n x : -1 < x < 1 -> is_derive (fun t => ln (1 + t) - ln (1 - t) - atser n t) x (2 * x ^ (2 * n) / (1 - x ^ 2)).
Proof.
  intros H. assert (Q : 0 < 1 - x ^ 2) by nra. pose proof (atser_derive n x) as D. pose proof (geo2 n x) as G. set (d := sum n _) in *.
  assert (E : d = 2 * (1 - x ^ (2 * n)) / (1 - x ^ 2)) by (rewrite <- G; field; lra).
  assert (X : ex_derive (atser n) x) by (eexists; exact D). auto_derive; [repeat split; try lra; exact X|].
  replace (Derive (fun x0 : R => atser n x0) x) with d by (symmetry; apply is_derive_unique; exact D). rewrite E. field. repeat split; nra.
Qed.
Lemma mvt0 (f df : R -> R) x : 0 <= x < 1 -> (forall t, 0 <= t <= x -> is_derive f t (df t)) -> (forall t, 0 <= t <= x -> 0 <= df t) -> f 0 <= f x.
Proof.
  intros H D P. destruct (MVT_gen f 0 x df) as (c & Hc & E); rewrite ?Rmin_left, ?Rmax_right in * by lra.
  - intros t Ht. apply D. lra.
  - intros t Ht. apply continuity_pt_filterlim. apply (ex_derive_continuous f t). eexists. apply D. lra.
  - specialize (P c Hc). nra.
Qed.
Lemma atser_0 n : atser n 0 = 0.
Proof. unfold atser. induction n as [|n IH]; cbn [sum]; [reflexivity|]. rewrite IH. rewrite pow_i by lia. unfold Rdiv. ring. Qed.

Lemma ln_lower n x : 0 <= x < 1 -> atser n x <= ln ((1 + x) / (1 - x)).
Proof.
  intros H. rewrite ln_div by lra. assert (A : ln (1 + 0) - ln (1 - 0) - atser n 0 <= ln (1 + x) - ln (1 - x) - atser n x).
  { apply (mvt0 (fun t => ln (1 + t) - ln (1 - t) - atser n t) (fun t => 2 * t ^ (2 * n) / (1 - t ^ 2)) x H).
    - intros t Ht. apply at_derive. lra.
    - intros t Ht. apply Rle_mult_inv_pos; [|nra]. rewrite pow_mult. pose proof (pow_le (t ^ 2) n (pow2_ge_0 t)). lra. }
  rewrite atser_0, Rplus_0_r, !Rminus_0_r, ln_1 in A. lra.
Qed.
Lemma ln_upper n x : 0 <= x < 1 -> ln ((1 + x) / (1 - x)) <= atser n x + 2 * x ^ (2 * n + 1) / (INR (2 * n + 1) * (1 - x ^ 2)).
Proof.
  intros H. rewrite ln_div by lra. assert (PN : 0 < INR (2 * n + 1)) by (apply lt_0_INR; lia).
  assert (A : 2 * 0 ^ (2 * n + 1) / (INR (2 * n + 1) * (1 - 0 ^ 2)) - (ln (1 + 0) - ln (1 - 0) - atser n 0) <=
              2 * x ^ (2 * n + 1) / (INR (2 * n + 1) * (1 - x ^ 2)) - (ln (1 + x) - ln (1 - x) - atser n x)).
  { apply (mvt0 (fun t => 2 * t ^ (2 * n + 1) / (INR (2 * n + 1) * (1 - t ^ 2)) - (ln (1 + t) - ln (1 - t) - atser n t))
                (fun t => 4 * t ^ (2 * n + 2) / (INR (2 * n + 1) * (1 - t ^ 2) ^ 2)) x H).
    - intros t Ht. assert (Q : 0 < 1 - t ^ 2) by nra.
      replace (4 * t ^ (2 * n + 2) / (INR (2 * n + 1) * (1 - t ^ 2) ^ 2)) with
        ((2 * t ^ (2 * n) / (1 - t ^ 2) + 4 * t ^ (2 * n + 2) / (INR (2 * n + 1) * (1 - t ^ 2) ^ 2)) - (2 * t ^ (2 * n) / (1 - t ^ 2))) by ring.
      apply @is_derive_minus; [|apply at_derive; lra].
      set (N := INR (2 * n + 1)) in *. auto_derive; [apply Rgt_not_eq; nra|]. replace (Init.Nat.pred (n + (n + 0) + 1)) with (2 * n)%nat by lia.
      replace (n + (n + 0) + 1)%nat with (2 * n + 1)%nat by lia. fold N. rewrite !pow_add. field. split; nra.
    - intros t Ht. assert (Q : 0 < 1 - t ^ 2) by nra. apply Rle_mult_inv_pos; [|apply Rmult_lt_0_compat; [exact PN|nra]].
      pose proof (pow_le t (2 * n + 2) ltac:(lra)). lra. }
  rewrite atser_0, Rplus_0_r, !Rminus_0_r, ln_1, pow_i in A by lia. unfold Rdiv in A at 1. rewrite Rmult_0_r, Rmult_0_l in A. lra.
Qed.

(** ** Whole numbers: in units of 10^-30 *)
Definition unit30 : Z := (10 ^ 30)%Z.
Fixpoint segsum (m : Z) (pw : Z) (i : nat) (c : Z) : Z :=
  match i with
  | O => 0%Z
  | S i => (2 * unit30 / (pw * c) + segsum m (pw * (m * m)) i (c + 2))%Z
  end.
(** not above ln ((n + 1) / n) *)
Definition seg (n : nat) : Z := let m := (2 * Z.of_nat n + 1)%Z in segsum m m 34 1.

Lemma segsum_bound m : (0 < m)%Z -> forall i pw c, (0 < pw)%Z -> (0 < c)%Z ->
  IZR (segsum m pw i c) <= sum i (fun k => IZR (2 * unit30) / (IZR pw * IZR m ^ (2 * k) * (IZR c + 2 * INR k))) <= IZR (segsum m pw i c) + INR i.
Proof.
  intros M. induction i as [|i IH]; intros pw c P C; [cbn; lra|]. cbn [segsum].
  assert (E : sum (S i) (fun k => IZR (2 * unit30) / (IZR pw * IZR m ^ (2 * k) * (IZR c + 2 * INR k))) =
    IZR (2 * unit30) / (IZR pw * IZR c) + sum i (fun k => IZR (2 * unit30) / (IZR (pw * (m * m)) * IZR m ^ (2 * k) * (IZR (c + 2) + 2 * INR k)))).
  { change (S i) with (1 + i)%nat. rewrite (sum_app 1 i). cbn [sum]. change (INR 0) with 0. f_equal; [rewrite Rplus_0_l; f_equal; cbn; ring|].
    apply sum_ext. intros k Hk. f_equal. rewrite plus_INR, !mult_IZR, plus_IZR. replace (2 * (1 + k))%nat with (2 + 2 * k)%nat by lia. rewrite pow_add. cbn [INR]. ring. }
  rewrite E, plus_IZR, S_INR. specialize (IH (pw * (m * m))%Z (c + 2)%Z ltac:(nia) ltac:(lia)).
  assert (Q : IZR (2 * unit30 / (pw * c)) <= IZR (2 * unit30) / (IZR pw * IZR c) <= IZR (2 * unit30 / (pw * c)) + 1).
  { rewrite <- mult_IZR. assert (D : (0 < pw * c)%Z) by nia. apply IZR_lt in D as D'. pose proof (Z.mul_div_le (2 * unit30) (pw * c) D) as A.
    pose proof (Z.mul_succ_div_gt (2 * unit30) (pw * c) D) as B. apply IZR_le in A. apply IZR_lt in B. rewrite (mult_IZR (pw * c)) in A. rewrite (mult_IZR (pw * c)), succ_IZR in B. split.
    - apply (Rmult_le_reg_l (IZR (pw * c))); [exact D'|]. replace (IZR (pw * c) * (IZR (2 * unit30) / IZR (pw * c))) with (IZR (2 * unit30)) by (field; lra). exact A.
    - apply (Rmult_le_reg_l (IZR (pw * c))); [exact D'|]. replace (IZR (pw * c) * (IZR (2 * unit30) / IZR (pw * c))) with (IZR (2 * unit30)) by (field; lra). lra. }
  lra.
Qed.

Lemma seg_bound n : (1 <= n)%nat -> IZR (seg n) <= IZR unit30 * ln (INR (S n) / INR n) <= IZR (seg n) + 35.
Proof.
  intros Hn. set (m := (2 * Z.of_nat n + 1)%Z). assert (M : (3 <= m)%Z) by (unfold m; lia). assert (MR : 3 <= IZR m) by (apply IZR_le; exact M).
  set (x := / IZR m). assert (X : 0 < x <= / 3) by (unfold x; split; [apply Rinv_0_lt_compat; lra|apply Rinv_le_contravar; lra]).
  assert (NP : 1 <= INR n) by (apply (le_INR 1); exact Hn).
  assert (E : INR (S n) / INR n = (1 + x) / (1 - x)).
  { unfold x, m. rewrite plus_IZR, mult_IZR, <- INR_IZR_INZ, S_INR. field. lra. }
  rewrite E. assert (U : 0 < IZR unit30) by (apply IZR_lt; reflexivity). pose proof (ln_lower 34 x ltac:(lra)) as Lo. pose proof (ln_upper 34 x ltac:(lra)) as Up.
  destruct (segsum_bound m ltac:(lia) 34 m 1 ltac:(lia) ltac:(lia)) as [S1 S2].
  assert (A : sum 34 (fun k => IZR (2 * unit30) / (IZR m * IZR m ^ (2 * k) * (1 + 2 * INR k))) = IZR unit30 * atser 34 x).
  { unfold atser. rewrite <- sum_scal. apply sum_ext. intros k _. rewrite plus_INR, mult_INR. cbn [INR]. rewrite mult_IZR. unfold x. rewrite pow_inv, pow_add. field.
    repeat split; try (apply pow_nonzero; lra); try lra. pose proof (pos_INR k). lra. }
  rewrite A in S1, S2. fold (seg n) in *. change (segsum m m 34 1) with (seg n) in *. split; [apply (Rmult_le_compat_l (IZR unit30)) in Lo; lra|].
  assert (T : IZR unit30 * (2 * x ^ (2 * 34 + 1) / (INR (2 * 34 + 1) * (1 - x ^ 2))) <= 1).
  { assert (P : x ^ 69 <= (/ 3) ^ 69) by (apply pow_incr; lra). change (2 * 34 + 1)%nat with 69%nat.
    assert (D : 1 <= INR 69 * (1 - x ^ 2)). { change (INR 69) with (INR (Z.to_nat 69)). rewrite INR_IZR_INZ. change (Z.of_nat (Z.to_nat 69)) with 69%Z. nra. }
    apply Rle_trans with (IZR unit30 * (2 * (/ 3) ^ 69)).
    - apply Rmult_le_compat_l; [lra|]. apply Rle_trans with (2 * x ^ 69); [|lra]. pose proof (pow_le x 69 ltac:(lra)). apply (Rmult_le_reg_r (INR 69 * (1 - x ^ 2))); [lra|].
      unfold Rdiv. rewrite Rmult_assoc, Rinv_l, Rmult_1_r by lra. nra.
    - rewrite pow_inv. apply (Rmult_le_reg_r (3 ^ 69)); [apply pow_lt; lra|]. replace (IZR unit30 * (2 * / 3 ^ 69) * 3 ^ 69) with (IZR unit30 * 2) by (field; apply pow_nonzero; lra).
      rewrite Rmult_1_l, <- mult_IZR. rewrite (pow_IZR 3 69). apply IZR_le. apply Z.leb_le. vm_compute. reflexivity. }
  apply (Rmult_le_compat_l (IZR unit30)) in Up; [|lra]. rewrite Rmult_plus_distr_l in Up. rewrite INR_IZR_INZ in S2. change (Z.of_nat 34) with 34%Z in S2. lra.
Qed.

(** ln n and ln n! from below *)
Fixpoint state (n : nat) : Z * Z :=
  match n with
  | O => (0, 0)%Z
  | S m => let '(l, f) := state m in let l' := (match m with O => 0 | _ => l + seg m end)%Z in (l', f + l')%Z
  end.
Definition good (n : nat) (l f : Z) : Prop :=
  (n <> 0%nat -> IZR l <= IZR unit30 * ln (INR n) <= IZR l + 35 * INR n) /\
  IZR f <= IZR unit30 * ln (INR (fact n)) <= IZR f + 35 * (INR n * INR n).
Lemma good_0 : good 0 0 0.
Proof. split; [congruence|]. change (INR (fact 0)) with 1. change (INR 0) with 0. rewrite ln_1. lra. Qed.
Lemma good_S n l f : good n l f -> good (S n) (match n with O => 0 | _ => l + seg n end)%Z (f + match n with O => 0 | _ => l + seg n end)%Z.
Proof.
  intros [A B]. assert (L : IZR (match n with O => 0 | _ => l + seg n end)%Z <= IZR unit30 * ln (INR (S n)) <= IZR (match n with O => 0 | _ => l + seg n end)%Z + 35 * INR (S n)).
  { destruct n as [|n]; [change (INR 1) with 1; rewrite ln_1; lra|]. specialize (A ltac:(lia)). pose proof (seg_bound (S n) ltac:(lia)) as G.
    assert (P1 : 0 < INR (S n)) by (apply lt_0_INR; lia). assert (P2 : 0 < INR (S (S n))) by (apply lt_0_INR; lia).
    rewrite ln_div in G by assumption. rewrite plus_IZR. rewrite (S_INR (S n)) in *. lra. }
  split; [intros _; exact L|]. change (fact (S n)) with (S n * fact n)%nat. rewrite mult_INR, ln_mult by (apply lt_0_INR; pose proof (lt_O_fact n); lia).
  rewrite plus_IZR. pose proof (pos_INR n). rewrite S_INR in *. set (z := match n with O => 0%Z | _ => _ end) in *.
  generalize dependent (IZR unit30). generalize dependent (IZR z). intros zr u0 A B L. lra.
Qed.
Lemma state_good n : good n (fst (state n)) (snd (state n)).
Proof. induction n as [|n IH]; [exact good_0|]. cbn [state]. destruct (state n) as [l f]. apply good_S in IH. exact IH. Qed.

(** compare a table of ln n!, in units of 10^-16, with these; within 10^-13 *)
Fixpoint check (tab : list Z) (n : nat) (l f : Z) : bool :=
  match tab with
  | [] => true
  | t :: tab => (Z.abs (t * 10 ^ 14 - f) + 35 * (Z.of_nat n * Z.of_nat n) <=? 10 ^ 17)%Z &&
                let l' := (match n with O => 0 | _ => l + seg n end)%Z in check tab (S n) l' (f + l')
  end.
Lemma check_ok tab : forall n l f, good n l f -> check tab n l f = true -> forall i, (i < length tab)%nat ->
  Rabs (IZR (nth i tab 0%Z) / 10 ^ 16 - ln (INR (fact (n + i)))) <= / 10 ^ 13.
Proof.
  induction tab as [|t tab IH]; intros n l f G C i Hi; [cbn in Hi; lia|]. cbn [check] in C. apply andb_prop in C. destruct C as [C1 C2]. destruct i as [|i].
  - rewrite Nat.add_0_r. cbn [nth]. destruct G as [_ [G1 G2]]. apply Z.leb_le in C1. apply IZR_le in C1. rewrite plus_IZR, abs_IZR, minus_IZR, !mult_IZR, <- !INR_IZR_INZ in C1.
    assert (U30 : IZR unit30 = 10 ^ 30) by (symmetry; apply (pow_IZR 10 30)). assert (U14 : IZR (10 ^ 14) = 10 ^ 14) by (symmetry; apply (pow_IZR 10 14)).
    assert (U17 : IZR (10 ^ 17) = 10 ^ 17) by (symmetry; apply (pow_IZR 10 17)). rewrite U30 in *. rewrite U14, U17 in C1. set (F := ln (INR (fact n))) in *.
    assert (AB : Rabs (IZR t * 10 ^ 14 - 10 ^ 30 * F) <= 10 ^ 17).
    { clear U17. generalize dependent (10 ^ 30 * F). generalize dependent (IZR t * 10 ^ 14). generalize dependent (10 ^ 17). generalize (INR n * INR n). intros nn q tt C1 u G1 G2.
      apply Rabs_le_between. unfold Rabs in C1. destruct Rcase_abs; split; lra. }
    assert (P : 0 < / 10 ^ 30) by (apply Rinv_0_lt_compat, pow_lt; lra).
    replace (IZR t / 10 ^ 16 - F) with ((IZR t * 10 ^ 14 - 10 ^ 30 * F) * / 10 ^ 30) by (replace 30%nat with (14 + 16)%nat by reflexivity; rewrite pow_add; field; split; apply pow_nonzero; lra).
    rewrite Rabs_mult, (Rabs_pos_eq (/ 10 ^ 30)) by lra.
    apply (Rmult_le_compat_r (/ 10 ^ 30)) in AB; [|lra]. replace (10 ^ 17 * / 10 ^ 30) with (/ 10 ^ 13) in AB by (replace 30%nat with (17 + 13)%nat by reflexivity; rewrite pow_add; field; split; apply pow_nonzero; lra). exact AB.
  - replace (n + S i)%nat with (S n + i)%nat by lia. cbn [nth]. cbn in Hi. eapply IH; [|exact C2|lia]. apply good_S. exact G.
Qed.
