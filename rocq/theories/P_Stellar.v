(** Polar coordinates, and the orbit on the sky along a path. *)
From Coquelicot Require Import Coquelicot.
From Coq Require Import Reals Lra Lia.
From Verif Require Import L_Kepler M_Kepler P_Kepler T_Kepler.
Local Open Scope R_scope.

Lemma sc2 : forall u, sin u * sin u = 1 - cos u * cos u.
Proof. intros. pose proof (sin2_cos2 u) as Q. unfold Rsqr in Q. lra. Qed.

Lemma atan2_up : forall y x, 0 < y -> arctan2 y x = PI / 2 - atan (x / y).
Proof.
  intros y x H. unfold arctan2.
  destruct (Rlt_dec 0 x).
  - replace (y / x) with (/ (x / y)) by (field; lra). apply atan_inv. apply Rdiv_lt_0_compat; lra.
  - destruct (Rlt_dec x 0).
    + destruct (Rlt_dec y 0); [lra|]. replace (y / x) with (- / (- x / y)) by (field; lra).
      rewrite atan_opp, atan_inv by (apply Rdiv_lt_0_compat; lra). replace (- x / y) with (- (x / y)) by (field; lra). rewrite atan_opp. lra.
    + destruct (Rlt_dec 0 y); [|lra]. replace x with 0 by lra. replace (0 / y) with 0 by (field; lra). rewrite atan_0. lra.
Qed.
Lemma atan2_down : forall y x, y < 0 -> arctan2 y x = - (PI / 2) - atan (x / y).
Proof.
  intros y x H. unfold arctan2.
  destruct (Rlt_dec 0 x).
  - replace (y / x) with (- / (- (x / y))) by (field; lra). rewrite atan_opp, atan_inv.
    + rewrite atan_opp. lra.
    + replace (- (x / y)) with (x / - y) by (field; lra). apply Rdiv_lt_0_compat; lra.
  - destruct (Rlt_dec x 0).
    + destruct (Rlt_dec y 0); [|lra]. replace (y / x) with (/ (x / y)) by (field; lra). rewrite atan_inv; [lra|].
      replace (x / y) with (- x / - y) by (field; lra). apply Rdiv_lt_0_compat; lra.
    + destruct (Rlt_dec 0 y); [lra|]. destruct (Rlt_dec y 0); [|lra]. replace x with 0 by lra. replace (0 / y) with 0 by (field; lra). rewrite atan_0. lra.
Qed.

Lemma sqrt_scale : forall a b, 0 < a -> sqrt (a * a + b * b) = a * sqrt (1 + b / a * (b / a)).
Proof.
  intros. rewrite <- (sqrt_square a) at 3 by lra. rewrite <- sqrt_mult; [|nra|].
  - f_equal. field. lra.
  - pose proof (Rle_0_sqr (b / a)) as Q. unfold Rsqr in Q. lra.
Qed.

Lemma atan2_polar : forall y x, sqrt (x * x + y * y) * cos (arctan2 y x) = x /\ sqrt (x * x + y * y) * sin (arctan2 y x) = y.
Proof.
  intros y x. assert (Q : forall w, 0 < sqrt (1 + w * w)).
  { intros. apply sqrt_lt_R0. pose proof (Rle_0_sqr w) as Q. unfold Rsqr in Q. lra. }
  destruct (Rtotal_order y 0) as [H|[->|H]].
  - rewrite atan2_down by exact H. rewrite Rplus_comm.
    replace (y * y) with ((- y) * (- y)) by ring. rewrite sqrt_scale by lra.
    replace (- (PI / 2) - atan (x / y)) with (- (PI / 2 - (- atan (x / y)))) by ring.
    rewrite cos_neg, sin_neg, cos_shift, sin_shift, sin_neg, cos_neg, sin_atan, cos_atan.
    replace (x / - y * (x / - y)) with (x / y * (x / y)) by (field; lra). specialize (Q (x / y)). unfold Rsqr. split; field; lra.
  - unfold arctan2. destruct (Rlt_dec 0 x); [|destruct (Rlt_dec x 0)].
    + unfold Rdiv. rewrite Rmult_0_l, Rmult_0_l, Rplus_0_r, atan_0, cos_0, sin_0, sqrt_square by lra. split; ring.
    + destruct (Rlt_dec 0 0); [lra|]. unfold Rdiv. rewrite Rmult_0_l, Rmult_0_l, Rplus_0_r, atan_0, Rplus_0_l, cos_PI, sin_PI.
      replace (x * x) with (- x * - x) by ring. rewrite sqrt_square by lra. split; ring.
    + replace x with 0 by lra. rewrite Rmult_0_l, Rplus_0_r, sqrt_0. split; ring.
  - rewrite atan2_up by exact H. rewrite Rplus_comm, sqrt_scale by exact H.
    rewrite cos_shift, sin_shift, sin_atan, cos_atan. specialize (Q (x / y)). unfold Rsqr. split; field; lra.
Qed.

Lemma atan2_range : forall y x, - PI < arctan2 y x <= PI.
Proof.
  intros y x. pose proof PI_RGT_0 as HPI. destruct (Rtotal_order y 0) as [H|[->|H]].
  - rewrite atan2_down by exact H. pose proof (atan_bound (x / y)). lra.
  - unfold arctan2. unfold Rdiv. rewrite Rmult_0_l, atan_0.
    destruct (Rlt_dec 0 x); [lra|]. destruct (Rlt_dec x 0); [destruct (Rlt_dec 0 0); lra|]. destruct (Rlt_dec 0 0); lra.
  - rewrite atan2_up by exact H. pose proof (atan_bound (x / y)). lra.
Qed.

(** sine and cosine determine an angle in a turn *)
Lemma angle_eq : forall a b, - PI < a <= PI -> - PI < b <= PI -> cos a = cos b -> sin a = sin b -> a = b.
Proof.
  intros a b A B C D.
  assert (E : cos (a - b) = 1). { rewrite cos_minus, C, D. pose proof (sc2 b). lra. }
  assert (F : sin ((a - b) / 2) = 0).
  { assert (Z : cos (2 * ((a - b) / 2)) = 1) by (replace (2 * ((a - b) / 2)) with (a - b) by field; exact E).
    rewrite cos_2a_sin in Z. assert (sin ((a - b) / 2) * sin ((a - b) / 2) = 0) by lra. apply Rmult_integral in H. destruct H; exact H. }
  pose proof PI_RGT_0.
  destruct (Rtotal_order ((a - b) / 2) 0) as [H0|[H0|H0]]; [|lra|].
  - exfalso. assert (0 < sin (- ((a - b) / 2))) by (apply sin_gt_0; lra). rewrite sin_neg in H1. lra.
  - exfalso. assert (0 < sin ((a - b) / 2)) by (apply sin_gt_0; lra). lra.
Qed.

Lemma atan2_derive : forall (yf xf : R -> R) (s dy dx : R), is_derive yf s dy -> is_derive xf s dx -> (0 < xf s \/ yf s <> 0) ->
  is_derive (fun t => arctan2 (yf t) (xf t)) s ((xf s * dy - yf s * dx) / (xf s * xf s + yf s * yf s)).
Proof.
  intros yf xf s dy dx Hy Hx H.
  assert (Cx : continuous xf s) by (apply (ex_derive_continuous (V:=R_NormedModule)); eexists; exact Hx).
  assert (Cy : continuous yf s) by (apply (ex_derive_continuous (V:=R_NormedModule)); eexists; exact Hy).
  destruct (Rtotal_order (yf s) 0) as [N|[Z|P]].
  - apply (is_derive_ext_loc (fun t => - (PI / 2) - atan (xf t / yf t))).
    { assert (L : locally s (fun t => yf t < 0)). { apply (Cy (fun y => y < 0)). apply (open_lt 0). exact N. }
      apply filter_imp with (2 := L). intros t Ht. symmetry. apply atan2_down. exact Ht. }
    set (c := - (PI / 2)). clearbody c.
    evar (l : R). match goal with |- is_derive _ _ ?r => replace r with l; unfold l end.
    + auto_derive; [|reflexivity].
      repeat match goal with |- _ /\ _ => split end; try exact Logic.I; try (eexists; eassumption); apply Rlt_not_eq; exact N.
    + replace (Derive (fun x => xf x) s) with (Derive xf s) by reflexivity.
      replace (Derive (fun x => yf x) s) with (Derive yf s) by reflexivity.
      rewrite (is_derive_unique _ _ _ Hx), (is_derive_unique _ _ _ Hy). unfold Rsqr. field. repeat match goal with |- _ /\ _ => split end; nra.
  - destruct H as [H|H]; [|contradiction].
    apply (is_derive_ext_loc (fun t => atan (yf t / xf t))).
    { assert (L : locally s (fun t => 0 < xf t)). { apply (Cx (fun y => 0 < y)). apply (open_gt 0). exact H. }
      apply filter_imp with (2 := L). intros t Ht. unfold arctan2. destruct (Rlt_dec 0 (xf t)); [reflexivity|contradiction]. }
    evar (l : R). match goal with |- is_derive _ _ ?r => replace r with l; unfold l end.
    + auto_derive; [|reflexivity].
      repeat match goal with |- _ /\ _ => split end; try exact Logic.I; try (eexists; eassumption); apply Rgt_not_eq; exact H.
    + replace (Derive (fun x => xf x) s) with (Derive xf s) by reflexivity.
      replace (Derive (fun x => yf x) s) with (Derive yf s) by reflexivity.
      rewrite (is_derive_unique _ _ _ Hx), (is_derive_unique _ _ _ Hy). unfold Rsqr. field. repeat match goal with |- _ /\ _ => split end; nra.
  - apply (is_derive_ext_loc (fun t => PI / 2 - atan (xf t / yf t))).
    { assert (L : locally s (fun t => 0 < yf t)). { apply (Cy (fun y => 0 < y)). apply (open_gt 0). exact P. }
      apply filter_imp with (2 := L). intros t Ht. symmetry. apply atan2_up. exact Ht. }
    set (c := PI / 2). clearbody c.
    evar (l : R). match goal with |- is_derive _ _ ?r => replace r with l; unfold l end.
    + auto_derive; [|reflexivity].
      repeat match goal with |- _ /\ _ => split end; try exact Logic.I; try (eexists; eassumption); apply Rgt_not_eq; exact P.
    + replace (Derive (fun x => xf x) s) with (Derive xf s) by reflexivity.
      replace (Derive (fun x => yf x) s) with (Derive yf s) by reflexivity.
      rewrite (is_derive_unique _ _ _ Hx), (is_derive_unique _ _ _ Hy). unfold Rsqr. field. repeat match goal with |- _ /\ _ => split end; nra.
Qed.
