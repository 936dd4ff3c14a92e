(** Theorems C71: the estimate of the noise scale and the maximum of the likelihood. *)
From Coquelicot Require Import Coquelicot.
From Coq Require Import Reals List ZArith Lia Lra.
From Verif Require Import M_Errdis P_Errdis P_Erralt M_Sigma M_Scale.
Import ListNotations.
Local Open Scope R_scope.

(** less, for log-likelihoods; None is minus infinity *)
Definition lless (a b : option R) : Prop :=
  match a, b with _, None => False | None, Some _ => True | Some x, Some y => x < y end.
(** s0 is the scale, and the only one, with the highest likelihood *)
Definition best (L : R -> option R) (s0 : R) : Prop := 0 < s0 /\ forall s, 0 < s -> s <> s0 -> lless (L s) (L s0).
(** weights that are not negative, and a residual that counts *)
Definition informed (p : problem) (par : list R) : Prop :=
  Forall (fun r => 0 <= wgt p r) (rows p) /\ Exists (fun r => 0 < wgt p r /\ residual p par r <> 0) (rows p).

Lemma ln_lt_u (u : R) : 0 < u -> u <> 1 -> ln u < u - 1.
Proof.
  intros U N. assert (E := exp_ineq1 (ln u)). rewrite exp_ln in E by exact U.
  assert (ln u <> 0). { intro Z. apply N. rewrite <- (exp_ln u U), Z. apply exp_0. } specialize (E H). lra.
Qed.

(** the likelihoods as function of the scale *)
Lemma core (C W q s s0 : R) : 0 < W -> 0 < q -> 0 < s -> 0 < s0 -> W * Rpower s0 q = q * C -> s <> s0 ->
  - C / Rpower s q - W * ln s < - C / Rpower s0 q - W * ln s0.
Proof.
  intros W0 Q S S0 E N. set (a := Rpower s q). set (b := Rpower s0 q) in *. assert (A : 0 < a) by apply exp_pos. assert (B : 0 < b) by apply exp_pos.
  assert (La : ln a = q * ln s) by (unfold a, Rpower; apply ln_exp). assert (Lb : ln b = q * ln s0) by (unfold b, Rpower; apply ln_exp).
  clearbody a b. assert (N' : b / a <> 1). { intro H. apply N. apply ln_inv; try assumption. assert (b = a) by (apply (f_equal (fun z => z * a)) in H; unfold Rdiv in H; rewrite Rmult_assoc, Rinv_l in H; lra).
    subst b. rewrite La in Lb. nra. }
  assert (K := ln_lt_u (b / a) ltac:(apply Rdiv_lt_0_compat; assumption) N'). rewrite ln_div in K by assumption.
  assert (EC : C = W * b / q) by (rewrite E; field; lra). subst C.
  replace (ln s) with (ln a / q) by (rewrite La; field; lra). replace (ln s0) with (ln b / q) by (rewrite Lb; field; lra).
  assert (W / q * (ln b - ln a) < W / q * (b / a - 1)) by (apply Rmult_lt_compat_l; [apply Rdiv_lt_0_compat; assumption | exact K]).
  replace (- (W * b / q) / a - W * (ln a / q)) with (- (W / q * (b / a - 1)) - W / q - W / q * ln a) by (field; split; lra).
  replace (- (W * b / q) / b - W * (ln b / q)) with (- W / q - W / q * ln b) by (field; split; lra). replace (- W / q) with (- (W / q)) by (unfold Rdiv; ring). lra.
Qed.

Lemma rsum_pos {A} (f : A -> R) l : Forall (fun a => 0 <= f a) l -> Exists (fun a => 0 < f a) l -> 0 < Rsum (map f l).
Proof.
  induction 1 as [|a l P F IH]; intro E; inversion E; subst; cbn.
  - assert (0 <= Rsum (map f l)). { clear -F. induction F; cbn; [lra|]. unfold Rsum in *. lra. } unfold Rsum in *. lra.
  - specialize (IH H0). unfold Rsum in *. lra.
Qed.

Section Fixed.
Context (p : problem) (par : list R) (I : informed p par).

Lemma sumweight_pos : 0 < sumweight p.
Proof.
  rewrite sumweight_sum. destruct I as [F E]. apply rsum_pos; [exact F|]. revert E. apply Exists_impl. tauto.
Qed.

Lemma moment_pos (g : R -> R) : (forall x, 0 <= g x) -> (forall x, x <> 0 -> 0 < g x) -> 0 < Rsum (map (fun r => wgt p r * g (residual p par r)) (rows p)).
Proof.
  intros G G'. destruct I as [F E]. apply rsum_pos.
  - revert F. apply Forall_impl. intros r W. apply Rmult_le_pos; trivial.
  - revert E. apply Exists_impl. intros r [W N]. apply Rmult_lt_0_compat; auto.
Qed.
End Fixed.

(** ** Gauss *)
Lemma gauss_chisq p par h : length par = npars p -> 
  getChisq 1 p par (Some (par ++ [h])) = Rsum (map (fun r => wgt p r * (residual p par r * residual p par r)) (rows p)).
Proof.
  intro L. unfold getChisq. apply Rsum_ext. intros r _. unfold weightedResSq, chiPars. rewrite dropEnd_1, <- L, firstn_all. unfold wgt. destruct (hasW p); ring.
Qed.

Lemma gauss_logL p par s : length par = npars p -> acc p = ANone -> 0 < s ->
  logLhood gauss p (par ++ [s]) =
  Some ((- (Rsum (map (fun r => wgt p r * (residual p par r * residual p par r)) (rows p)) / 2) / Rpower s 2 - sumweight p * ln s) - sumweight p * (LOG2PI / 2)).
Proof.
  intros L A S. rewrite (logL_eq _ _ _ (fun r => (- / 2 / (s * s)) * (wgt p r * (residual p par r * residual p par r)) - wgt p r * (ln s + LOG2PI / 2))).
  - f_equal. rewrite Rsum_minus, Rsum_scal, <- sumweight_scal. replace (Rpower s 2) with (s * s).
    2:{ change 2 with (INR 2). rewrite Rpower_pow by exact S. cbn. ring. } field. lra.
  - intros r _. cbn [e_ll gauss]. rewrite gauss_val by exact L. f_equal. unfold varyy. rewrite A, Rplus_0_r, ln_mult by exact S. field. lra.
Qed.

(** For a Gaussian error distribution, without accuracies, the estimate is the scale of maximum likelihood. *)
Theorem C71_gauss p par h : length par = npars p -> acc p = ANone -> informed p par ->
  best (fun s => logLhood gauss p (par ++ [s])) (gaussianScale 1 p par (Some (par ++ [h]))).
Proof.
  intros L A I. assert (W := sumweight_pos p par I). unfold gaussianScale. rewrite gauss_chisq by exact L.
  assert (C := moment_pos p par I (fun x => x * x) (fun x => Rle_0_sqr x) (fun x N => Rlt_0_sqr x N)). cbv beta in C.
  set (chi := Rsum _) in *. assert (S0 : 0 < sqrt (chi / sumweight p)) by (apply sqrt_lt_R0, Rdiv_lt_0_compat; assumption).
  split; [exact S0|]. intros s S N. rewrite !gauss_logL by assumption. cbn [lless]. fold chi. apply Rplus_lt_compat_r. apply core; try assumption; try lra.
  change 2 with (INR 2) at 1. rewrite Rpower_pow by exact S0. cbn [pow]. rewrite Rmult_1_r, sqrt_sqrt by (apply Rlt_le, Rdiv_lt_0_compat; assumption). field. lra.
Qed.
Print Assumptions C71_gauss.

(** ** Laplace *)
Lemma laplace_sumres p par h : informed p par ->
  getSumRes p par (Some (par ++ [h])) = Rsum (map (fun r => wgt p r * Rabs (residual p par r)) (rows p)).
Proof.
  intros [F _]. unfold getSumRes. apply Rsum_ext. intros r Hr. unfold resPars. rewrite dropEnd_1. rewrite Forall_forall in F. specialize (F r Hr).
  unfold wgt in *. destruct (hasW p); [rewrite Rabs_mult, (Rabs_right (r_w r)) by lra|]; ring.
Qed.

Lemma laplace_logL p par s : length par = npars p -> acc p = ANone -> 0 < s ->
  logLhood laplace p (par ++ [s]) =
  Some ((- Rsum (map (fun r => wgt p r * Rabs (residual p par r)) (rows p)) / Rpower s 1 - sumweight p * ln s) - sumweight p * ln 2).
Proof.
  intros L A S. rewrite (logL_eq _ _ _ (fun r => (- / s) * (wgt p r * Rabs (residual p par r)) - wgt p r * (ln s + ln 2))).
  - f_equal. rewrite Rsum_minus, Rsum_scal, <- sumweight_scal. rewrite Rpower_1 by exact S. field. lra.
  - intros r _. cbn [e_ll laplace]. rewrite laplace_val by exact L. f_equal. unfold noise. rewrite A. field. lra.
Qed.

Theorem C71_laplace p par h : length par = npars p -> acc p = ANone -> informed p par ->
  best (fun s => logLhood laplace p (par ++ [s])) (laplaceScale p par (Some (par ++ [h]))).
Proof.
  intros L A I. assert (W := sumweight_pos p par I). unfold laplaceScale. rewrite laplace_sumres by exact I.
  assert (C := moment_pos p par I Rabs Rabs_pos Rabs_pos_lt). set (chi := Rsum _) in *.
  assert (S0 : 0 < chi / sumweight p) by (apply Rdiv_lt_0_compat; assumption).
  split; [exact S0|]. intros s S N. rewrite !laplace_logL by assumption. cbn [lless]. fold chi. apply Rplus_lt_compat_r. apply core; try assumption; try lra.
  rewrite Rpower_1 by exact S0. field. lra.
Qed.
Print Assumptions C71_laplace.

(** ** Exponential power *)
Lemma npow_nonneg b e : 0 <= npow b e.
Proof. unfold npow. destruct (Req_EM_T b 0); [lra|]. apply Rlt_le, exp_pos. Qed.
Lemma npow_gt b e : 0 < b -> 0 < npow b e.
Proof. intro B. rewrite npow_pos by exact B. apply exp_pos. Qed.
Lemma npow_scale (x s q : R) : 0 < s -> npow (Rabs (x / s)) q = npow (Rabs x) q / Rpower s q.
Proof.
  intro S. unfold npow. destruct (Req_EM_T (Rabs x) 0) as [Z|Z].
  - destruct (Req_EM_T (Rabs (x / s)) 0) as [Z'|Z']; [unfold Rdiv; ring|]. exfalso. apply Z'. unfold Rdiv. rewrite Rabs_mult, Z. ring.
  - assert (X : 0 < Rabs x) by (pose proof (Rabs_pos x); lra). assert (E : Rabs (x / s) = Rabs x / s).
    { unfold Rdiv. rewrite Rabs_mult, (Rabs_right (/ s)); [reflexivity|]. apply Rle_ge, Rlt_le, Rinv_0_lt_compat, S. }
    rewrite E. destruct (Req_EM_T (Rabs x / s) 0) as [Z'|_].
    + exfalso. assert (0 < Rabs x / s) by (apply Rdiv_lt_0_compat; assumption). lra.
    + unfold Rpower. rewrite ln_div by assumption. rewrite Rmult_minus_distr_l. unfold Rminus. rewrite exp_plus, exp_Ropp. reflexivity.
Qed.

Lemma expo_logL gl psi p par s q : length par = npars p -> acc p = ANone -> 0 < s -> 0 < q ->
  logLhood (expo gl psi) p (par ++ [s; q]) =
  Some ((- Rsum (map (fun r => wgt p r * npow (Rabs (residual p par r)) q) (rows p)) / Rpower s q - sumweight p * ln s) + sumweight p * (ln (q / 2) - gl (1 / q))).
Proof.
  intros L A S Q. rewrite (logL_eq _ _ _ (fun r => (- / Rpower s q) * (wgt p r * npow (Rabs (residual p par r)) q) - wgt p r * (ln s - (ln (q / 2) - gl (1 / q))))).
  - f_equal. rewrite Rsum_minus, Rsum_scal, <- sumweight_scal. assert (0 < Rpower s q) by apply exp_pos. field. lra.
  - intros r _. cbn [e_ll expo]. rewrite expo_val by exact L. f_equal. unfold noise. rewrite A, npow_scale by exact S.
    replace (q / (2 * s)) with (q / 2 / s) by (field; lra). rewrite ln_div by lra. unfold Rdiv. ring.
Qed.

Lemma expo_chipow p par h q : getChipow p (par ++ [h; q]) = Rsum (map (fun r => wgt p r * npow (Rabs (residual p par r)) q) (rows p)).
Proof. unfold getChipow. rewrite dropEnd_2, fromEnd_1b. apply Rsum_ext. intros r _. unfold wgt. cbv zeta. destruct (hasW p); ring. Qed.

Lemma expo_scale_pos p par h q sc : informed p par -> 0 < q -> expoScale p par (Some (par ++ [h; q])) = Some sc ->
  0 < sc /\ Rpower sc q = getChipow p (par ++ [h; q]) / sumweight p.
Proof.
  intros I Q E. unfold expoScale in E. rewrite fromEnd_1b in E. injection E as <-. assert (W := sumweight_pos p par I).
  assert (C := moment_pos p par I (fun x => npow (Rabs x) q) (fun x => npow_nonneg _ _) (fun x N => npow_gt _ _ (Rabs_pos_lt x N))). cbv beta in C.
  rewrite expo_chipow. set (chi := Rsum _) in *. assert (S0 : 0 < chi / sumweight p) by (apply Rdiv_lt_0_compat; assumption).
  split; [now apply npow_gt|]. rewrite npow_pos by exact S0. unfold Rpower. rewrite ln_exp. replace (q * (1 / q * ln (chi / sumweight p))) with (ln (chi / sumweight p)) by (field; lra).
  now apply exp_ln.
Qed.

(** For the exponential distribution with a given power q the scale of maximum likelihood is q^(1/q) times the estimate. *)
Theorem C71_exponential gl psi p par h q sc : length par = npars p -> acc p = ANone -> informed p par -> 0 < q ->
  expoScale p par (Some (par ++ [h; q])) = Some sc ->
  best (fun s => logLhood (expo gl psi) p (par ++ [s; q])) (Rpower q (1 / q) * sc) /\
  (q = 1 -> best (fun s => logLhood (expo gl psi) p (par ++ [s; q])) sc).
Proof.
  intros L A I Q E. destruct (expo_scale_pos _ _ _ _ _ I Q E) as [S0 P]. assert (W := sumweight_pos p par I). rewrite expo_chipow in P.
  assert (G : best (fun s => logLhood (expo gl psi) p (par ++ [s; q])) (Rpower q (1 / q) * sc)).
  - assert (K : 0 < Rpower q (1 / q)) by apply exp_pos. assert (KS : 0 < Rpower q (1 / q) * sc) by (apply Rmult_lt_0_compat; assumption).
    split; [exact KS|]. intros s S N. rewrite !expo_logL by assumption. cbn [lless]. apply Rplus_lt_compat_r. apply core; try assumption.
    rewrite <- Rpower_mult_distr by assumption. rewrite Rpower_mult. replace (1 / q * q) with 1 by (field; lra). rewrite Rpower_1 by exact Q. rewrite P. field. lra.
  - split; [exact G|]. intros ->. replace (Rpower 1 (1 / 1)) with 1 in G; [now rewrite Rmult_1_l in G|]. unfold Rpower. rewrite ln_1, Rmult_0_r. symmetry. apply exp_0.
Qed.
Print Assumptions C71_exponential.

(** The estimate of an exponential distribution is not the scale of maximum likelihood, unless the power is 1: the factor power is missing in
    getScale. *)
Theorem C71_exponential_refuted gl psi p par h q sc : length par = npars p -> acc p = ANone -> informed p par -> 0 < q -> q <> 1 ->
  expoScale p par (Some (par ++ [h; q])) = Some sc ->
  lless (logLhood (expo gl psi) p (par ++ [sc; q])) (logLhood (expo gl psi) p (par ++ [Rpower q (1 / q) * sc; q])).
Proof.
  intros L A I Q N E. destruct (C71_exponential gl psi p par h q sc L A I Q E) as [[_ B] _]. destruct (expo_scale_pos _ _ _ _ _ I Q E) as [S0 _].
  apply B; [exact S0|]. intro Z. assert (X : Rpower q (1 / q) = 1) by nra. assert (Y : ln (Rpower q (1 / q)) = 0) by (rewrite X; apply ln_1).
  unfold Rpower in Y. rewrite ln_exp in Y. apply Rmult_integral in Y as [Y|Y].
  - assert (0 < 1 / q) by (apply Rdiv_lt_0_compat; lra). lra.
  - apply N. apply ln_inv; try lra. now rewrite ln_1.
Qed.
Print Assumptions C71_exponential_refuted.

(** ** Uniform *)
Lemma maxs_lt (l : list R) (s : R) : Forall (fun x => 0 <= x) l -> 0 < s -> (fold_right Rmax 0 l < s <-> Forall (fun x => x < s) l).
Proof.
  intros F S. induction F as [|x l X F IH]; cbn; [split; [constructor|intros; exact S]|]. split.
  - intro H. constructor; [eapply Rle_lt_trans; [apply Rmax_l|exact H]|]. apply IH. eapply Rle_lt_trans; [apply Rmax_r|exact H].
  - intro H. inversion H; subst. apply Rmax_lub_lt; [assumption|]. now apply IH.
Qed.
Lemma maxs_in (l : list R) : Forall (fun x => 0 <= x) l -> l <> [] -> In (fold_right Rmax 0 l) l.
Proof.
  induction l as [|x l IH]; intros F N; [congruence|]. inversion F; subst. cbn. destruct l as [|y l].
  - cbn. left. now rewrite Rmax_left.
  - specialize (IH H2 ltac:(discriminate)). change (In (Rmax x (fold_right Rmax 0 (y :: l))) (x :: y :: l)). destruct (Rle_dec x (fold_right Rmax 0 (y :: l))) as [E|E]; [rewrite Rmax_right by exact E; right; exact IH|rewrite Rmax_left by lra; now left].
Qed.

Lemma uniform_none p ap r : In r (rows p) -> e_ll uniform p ap r = None -> logLhood uniform p ap = None.
Proof.
  unfold logLhood. intro H. induction (rows p) as [|a l IH]; [destruct H|]. intro E. destruct H as [->|H]; cbn [map sumO fold_right].
  - rewrite E. reflexivity.
  - fold (sumO (map (e_ll uniform p ap) l)). rewrite (IH H E). now destruct (e_ll uniform p ap a).
Qed.

Lemma uniform_logL p par h s : acc p = ANone -> period p = None -> 0 < s -> uniformScale p par (Some (par ++ [h])) < s ->
  logLhood uniform p (par ++ [s]) = Some (- (sumweight p * ln (2 * s))).
Proof.
  intros A Q S H. unfold uniformScale in H. rewrite maxs_lt in H; [|apply Forall_map, Forall_forall; intros; apply Rabs_pos|exact S].
  rewrite Forall_map, Forall_forall in H. rewrite (logL_eq _ _ _ (fun r => wgt p r * - ln (2 * s))).
  - rewrite <- sumweight_scal. f_equal. ring.
  - intros r Hr. specialize (H r Hr). unfold resPars in H. rewrite dropEnd_1 in H. unfold residual in H. rewrite Q in H.
    cbn [e_ll uniform]. unfold uniform_ll, noise. rewrite A, dropEnd_1, fromEnd_1. destruct (Rlt_dec _ s); [|contradiction]. unfold wgt. f_equal. destruct (hasW p); ring.
Qed.

(** For a uniform distribution: the scales larger than the estimate are those with a likelihood that is not 0, and the smaller such a scale
    the higher the likelihood. *)
Theorem C71_uniform p par h : acc p = ANone -> period p = None -> 0 < sumweight p ->
  let s0 := uniformScale p par (Some (par ++ [h])) in
  (forall s, 0 < s -> (logLhood uniform p (par ++ [s]) <> None <-> s0 < s)) /\
  (forall s s', s0 < s < s' -> lless (logLhood uniform p (par ++ [s'])) (logLhood uniform p (par ++ [s]))).
Proof.
  intros A Q W s0. assert (Z : 0 <= s0). { unfold s0, uniformScale. induction (map _ _) as [|x l IH]; cbn; [lra|]. eapply Rle_trans; [exact IH|apply Rmax_r]. }
  split.
  - intros s S. split.
    + intro N. destruct (Rlt_le_dec s0 s) as [H|H]; [exact H|]. exfalso. apply N. unfold s0, uniformScale in H. clear N.
      assert (NE : map (fun r => Rabs (residual p (resPars 1 par (Some (par ++ [h]))) r)) (rows p) <> []) by (intro E; rewrite E in H; cbn in H; lra).
      assert (X := maxs_in _ ltac:(apply Forall_map, Forall_forall; intros; apply Rabs_pos) NE). apply in_map_iff in X as (r & E & Hr). apply (uniform_none _ _ r Hr).
      rewrite <- E in H. unfold resPars in H. rewrite dropEnd_1 in H. unfold residual in H. rewrite Q in H.
      cbn [e_ll uniform]. unfold uniform_ll, noise. rewrite A, dropEnd_1, fromEnd_1. destruct (Rlt_dec _ s); [exfalso; cbv beta zeta in H; lra|reflexivity].
    + intro H. rewrite (uniform_logL p par h s A Q S H). discriminate.
  - intros s s' [H H']. rewrite (uniform_logL p par h s A Q ltac:(lra) H), (uniform_logL p par h s' A Q ltac:(lra) ltac:(fold s0; lra)). cbn [lless].
    apply Ropp_lt_contravar, Rmult_lt_compat_l; [exact W|]. apply ln_increasing; lra.
Qed.
Print Assumptions C71_uniform.

(** At the estimate itself the likelihood of a uniform distribution is 0: a residual at the edge is taken to be outside. *)
Theorem C71_uniform_refuted p par h : acc p = ANone -> period p = None -> rows p <> [] ->
  logLhood uniform p (par ++ [uniformScale p par (Some (par ++ [h]))]) = None.
Proof.
  intros A Q N. assert (NE : map (fun r => Rabs (residual p (resPars 1 par (Some (par ++ [h]))) r)) (rows p) <> []) by (destruct (rows p); [congruence|discriminate]).
  assert (X := maxs_in _ ltac:(apply Forall_map, Forall_forall; intros; apply Rabs_pos) NE). apply in_map_iff in X as (r & E & Hr). apply (uniform_none _ _ r Hr).
  unfold uniformScale. rewrite <- E. unfold resPars. rewrite dropEnd_1. unfold residual. rewrite Q. cbn [e_ll uniform]. unfold uniform_ll, noise. rewrite A, dropEnd_1, fromEnd_1.
  destruct (Rlt_dec _ _); [lra|reflexivity].
Qed.
Print Assumptions C71_uniform_refuted.

(** ** Cauchy *)
(** one data point, with residual 1 *)
Definition unitRow : row := mkRow 1 1 1 (fun _ => 0) (fun _ _ => 0).
Definition unitProblem (a : accuracy) : problem := mkProblem [unitRow] false a None 0.
Lemma unit_informed a : informed (unitProblem a) [].
Proof. split; repeat constructor; cbn; unfold wgt, residual; cbn; lra. Qed.

Lemma sqrt2 : 1 < sqrt 2.
Proof. rewrite <- sqrt_1 at 1. apply sqrt_lt_1; lra. Qed.
Lemma ln2 : ln 2 < 1.
Proof. pose proof (ln_lt_u 2). lra. Qed.

(** For a Cauchy distribution the equation that is solved is not the one of maximum likelihood.  With one residual, of 1, the scale of maximum
    likelihood is 1; getScale returns a number, but no zero of its function is 1. *)
Theorem C71_cauchy_refuted bisect h : let p := unitProblem ANone in
  best (fun s => logLhood cauchy p [s]) 1 /\
  cauchyScale bisect p [] (Some [h]) = Some (bisect (cauchyFunct p [] (Some [h])) (1 / 1000) 100) /\
  forall s, 0 < s -> cauchyFunct p [] (Some [h]) s = 0 -> s < 1 /\ lless (logLhood cauchy p [s]) (logLhood cauchy p [1]).
Proof.
  intro p. assert (B : best (fun s => logLhood cauchy p [s]) 1).
  { split; [lra|]. intros s S N. cbn. unfold dropEnd, fromEnd, noise. cbn. unfold residual. cbn. unfold Rminus. rewrite ln_1, Ropp_0, !Rplus_0_r, Rplus_0_l, !Rmult_1_l.
    assert (H : ln (2 * s) < ln (1 + s * s)) by (apply ln_increasing; [lra|]; assert (0 < (s - 1) * (s - 1)) by (apply Rlt_0_sqr; lra); lra).
    rewrite ln_mult in H by lra. replace (1 + 1) with 2 by ring. lra. }
  assert (F : forall s, 0 < s -> cauchyFunct p [] (Some [h]) s = ln ((1 + s * s) / (s * s)) - sqrt 2).
  { intros s S. unfold cauchyFunct. cbn. unfold residual. cbn. rewrite ln_div, ln_mult by nra. unfold Rminus. rewrite Ropp_0, !Rplus_0_r, !Rmult_1_l. ring. }
  assert (Q := sqrt2). assert (Q2 := sqrt_sqrt 2 ltac:(lra)). assert (L := ln2). split; [exact B|]. split.
  - unfold cauchyScale. rewrite !F by lra. destruct (Rlt_dec _ _) as [H|_]; [|reflexivity]. exfalso.
    assert (X : sqrt 2 < ln ((1 + 1 / 1000 * (1 / 1000)) / (1 / 1000 * (1 / 1000)))).
    { rewrite <- (ln_exp (sqrt 2)). apply ln_increasing; [apply exp_pos|]. apply Rlt_trans with (exp (1 + 1)); [apply exp_increasing; nra|].
      rewrite exp_plus. assert (E3 := exp_le_3). assert (0 < exp 1) by apply exp_pos. apply Rle_lt_trans with 9; [nra|lra]. }
    assert (Y : ln ((1 + 100 * 100) / (100 * 100)) < sqrt 2).
    { apply Rlt_trans with (ln 2); [apply ln_increasing; lra|lra]. }
    nra.
  - intros s S Z. rewrite F in Z by exact S. assert (N : s < 1).
    { destruct (Rlt_le_dec s 1) as [H|H]; [exact H|]. exfalso. assert (ln ((1 + s * s) / (s * s)) <= ln 2); [|lra].
      apply Rcomplements.ln_le; [apply Rdiv_lt_0_compat; nra|]. replace ((1 + s * s) / (s * s)) with (1 + / (s * s)) by (field; lra).
      assert (/ (s * s) <= / 1) by (apply Rinv_le_contravar; nra). lra. }
    split; [exact N|]. apply B; lra.
Qed.
Print Assumptions C71_cauchy_refuted.

(** When all residuals are less than 0.001, or all larger than 300, getScale of the Cauchy distribution raises a ValueError. *)
Theorem C71_cauchy_range_refuted bisect p par h : hasW p = false -> rows p <> [] ->
  Forall (fun r => Rabs (residual p par r) <= 1 / 1000) (rows p) \/ Forall (fun r => 300 <= Rabs (residual p par r)) (rows p) ->
  cauchyScale bisect p par (Some (par ++ [h])) = None.
Proof.
  intros Wt N H. assert (Q := sqrt2). assert (Q2 := sqrt_sqrt 2 ltac:(lra)). assert (L := ln2).
  assert (F : forall s, 0 < s -> cauchyFunct p par (Some (par ++ [h])) s = Rsum (map (fun r => ln (1 + (residual p par r / s) * (residual p par r / s)) - sqrt 2) (rows p))).
  { intros s S. unfold cauchyFunct. rewrite sumweight_scal. rewrite <- Rsum_minus. apply Rsum_ext. intros r _. unfold resPars. rewrite dropEnd_1. unfold wgt. rewrite Wt.
    set (x := residual p par r). replace (x * x + s * s) with ((1 + x / s * (x / s)) * (s * s)) by (field; lra).
    rewrite !ln_mult by nra. ring. }
  assert (SG : forall c l, (forall r : row, In r l -> 0 < c r) -> l <> [] -> 0 < Rsum (map c l)).
  { intros c l P NE. apply rsum_pos; [apply Forall_forall; intros; apply Rlt_le; auto|]. destruct l as [|a l]; [congruence|]. apply Exists_cons_hd. apply P. now left. }
  assert (SQ : forall x, x * x = Rabs x * Rabs x) by (intro x; unfold Rabs; destruct (Rcase_abs x); ring).
  unfold cauchyScale. destruct (Rlt_dec _ _) as [_|H']; [reflexivity|]. exfalso. apply H'. rewrite !F by lra. destruct H as [H|H]; rewrite Forall_forall in H.
  - assert (G : forall s, 1 / 1000 <= s -> Rsum (map (fun r => ln (1 + residual p par r / s * (residual p par r / s)) - sqrt 2) (rows p)) < 0).
    { intros s S. assert (0 < Rsum (map (fun r => -1 * (ln (1 + residual p par r / s * (residual p par r / s)) - sqrt 2)) (rows p))).
      - apply SG; [|exact N]. intros r Hr. specialize (H r Hr). assert (ln (1 + residual p par r / s * (residual p par r / s)) <= ln 2); [|lra].
        rewrite SQ. assert (0 <= Rabs (residual p par r / s)) by apply Rabs_pos. assert (Rabs (residual p par r / s) <= 1).
        { unfold Rdiv. rewrite Rabs_mult, (Rabs_right (/ s)) by (apply Rle_ge, Rlt_le, Rinv_0_lt_compat; lra). apply Rmult_le_reg_r with s; [lra|]. rewrite Rmult_assoc, Rinv_l by lra. lra. }
        apply Rcomplements.ln_le; nra.
      - rewrite Rsum_scal in H0. lra. }
    pose proof (G (1 / 1000) ltac:(lra)). pose proof (G 100 ltac:(lra)). nra.
  - assert (G : forall s, 0 < s <= 100 -> 0 < Rsum (map (fun r => ln (1 + residual p par r / s * (residual p par r / s)) - sqrt 2) (rows p))).
    { intros s S. apply SG; [|exact N]. intros r Hr. specialize (H r Hr). rewrite SQ. assert (3 <= Rabs (residual p par r / s)).
      { unfold Rdiv. rewrite Rabs_mult, (Rabs_right (/ s)) by (apply Rle_ge, Rlt_le, Rinv_0_lt_compat; lra). apply Rmult_le_reg_r with s; [lra|]. rewrite Rmult_assoc, Rinv_l by lra. lra. }
      assert (X : ln (exp (3 / 2)) < ln (1 + Rabs (residual p par r / s) * Rabs (residual p par r / s))); [|rewrite ln_exp in X; nra].
      apply ln_increasing; [apply exp_pos|]. apply Rlt_le_trans with 10; [|nra]. apply Rlt_trans with (exp (1 + 1)); [apply exp_increasing; lra|].
      rewrite exp_plus. assert (E3 := exp_le_3). assert (0 < exp 1) by apply exp_pos. nra. }
    pose proof (G (1 / 1000) ltac:(lra)). pose proof (G 100 ltac:(lra)). nra.
Qed.
Print Assumptions C71_cauchy_range_refuted.

(** ** Accuracies, defaults and the fitter *)
(** With accuracies the estimate of the Gaussian distribution ignores them: another scale has a higher likelihood. *)
Theorem C71_gauss_accuracy_refuted h : let p := unitProblem (AScalar true 1) in
  informed p [] /\ gaussianScale 1 p [] (Some [h]) = 1 /\ lless (logLhood gauss p [1]) (logLhood gauss p [1 / 2]).
Proof.
  intro p. split; [apply unit_informed|]. split.
  - unfold gaussianScale, getChisq. cbn. unfold weightedResSq, residual, sumweight. cbn. replace (((1 - 0) * (1 - 0) + 0) / 1) with 1 by field. apply sqrt_1.
  - cbn. unfold fromEnd, varyy, residual, wgt. cbn.
    assert (K := ln_lt_u (5 / 8) ltac:(lra) ltac:(lra)). replace (5 / 8) with (/ (8 / 5)) in K by field. rewrite ln_Rinv in K by lra.
    replace (1 * 1 + 1 * 1) with (8 / 5 * (1 / 2 * (1 / 2) + 1 * 1)) by field. rewrite ln_mult by lra. set (z := ln (1 / 2 * (1 / 2) + 1 * 1)) in *. clearbody z. set (c := LOG2PI). lra.
Qed.
Print Assumptions C71_gauss_accuracy_refuted.

(** Without allpars the parameters of the model are taken. *)
Theorem C71_default p par h :
  gaussianScale 1 p par None = gaussianScale 1 p par (Some (par ++ [h])) /\
  laplaceScale p par None = laplaceScale p par (Some (par ++ [h])) /\
  uniformScale p par None = uniformScale p par (Some (par ++ [h])) /\
  gaussianScale 0 p par None = gaussianScale 0 p par (Some par).
Proof.
  unfold gaussianScale, getChisq, laplaceScale, getSumRes, uniformScale, resPars, chiPars. rewrite dropEnd_1. repeat split; reflexivity.
Qed.
Print Assumptions C71_default.

(** The exponential distribution needs the parameters: without them it raises a TypeError. *)
Theorem C71_default_refuted p par : expoScale p par None = None.
Proof. reflexivity. Qed.
Print Assumptions C71_default_refuted.

(** The automatic scaling of the log-likelihood in MaxLikelihoodFitter takes the maximum for a Gaussian distribution. *)
Theorem C71_autoscale p par h : length par = npars p -> acc p = ANone -> informed p par ->
  forall s, 0 < s -> s <> gaussianScale 1 p par (Some (par ++ [h])) -> lless (logLhood gauss p (par ++ [s])) (autoLogL gauss (gaussianScale 1) defaultSigma p par h).
Proof. intros L A I. apply (C71_gauss p par h L A I). Qed.
Print Assumptions C71_autoscale.

(** For a Laplace distribution the scale is replaced by the standard deviation, which does not give the maximum; *)
Theorem C71_autoscale_laplace_refuted p par h : length par = npars p -> acc p = ANone -> informed p par ->
  lless (autoLogL laplace laplaceScale laplaceSigma p par h) (logLhood laplace p (par ++ [laplaceScale p par (Some (par ++ [h]))])).
Proof.
  intros L A I. destruct (C71_laplace p par h L A I) as [S0 B]. unfold autoLogL, laplaceSigma. pose proof sqrt2. apply B; nra.
Qed.
Print Assumptions C71_autoscale_laplace_refuted.

(** for a uniform distribution the result is minus infinity, always. *)
Theorem C71_autoscale_uniform_refuted p par h : acc p = ANone -> period p = None -> rows p <> [] -> autoLogL uniform uniformScale uniformSigma p par h = None.
Proof.
  intros A Q N. unfold autoLogL, uniformSigma. set (s0 := uniformScale p par (Some (par ++ [h]))).
  assert (NE : map (fun r => Rabs (residual p (resPars 1 par (Some (par ++ [h]))) r)) (rows p) <> []) by (destruct (rows p); [congruence|discriminate]).
  assert (X := maxs_in _ ltac:(apply Forall_map, Forall_forall; intros; apply Rabs_pos) NE). apply in_map_iff in X as (r & E & Hr). apply (uniform_none _ _ r Hr).
  fold (uniformScale p par (Some (par ++ [h]))) in E. fold s0 in E. unfold resPars in E. rewrite dropEnd_1 in E. unfold residual in E. rewrite Q in E. cbv zeta in E.
  cbn [e_ll uniform]. unfold uniform_ll, noise. rewrite A, dropEnd_1, fromEnd_1, E. assert (0 <= s0) by (rewrite <- E; apply Rabs_pos).
  assert (T : 2 < sqrt 12). { rewrite <- (sqrt_square 2) at 1 by lra. apply sqrt_lt_1; lra. }
  destruct (Rlt_dec _ _) as [K|_]; [|reflexivity]. exfalso. assert (s0 * 2 / sqrt 12 <= s0); [|lra].
  unfold Rdiv. rewrite Rmult_assoc. rewrite <- (Rmult_1_r s0) at 2. apply Rmult_le_compat_l; [assumption|].
  apply Rmult_le_reg_r with (sqrt 12); [lra|]. rewrite Rmult_assoc, Rinv_l by lra. lra.
Qed.
Print Assumptions C71_autoscale_uniform_refuted.

(** Two data, weights 1 and 3, residuals 2 and -1. *)
Definition twoProblem : problem := mkProblem [mkRow 2 1 1 (fun _ => 0) (fun _ _ => 0); mkRow (-1) 3 1 (fun _ => 0) (fun _ _ => 0)] true ANone None 0.
Example C71_example : length (@nil R) = npars twoProblem /\ acc twoProblem = ANone /\ informed twoProblem [] /\
  laplaceScale twoProblem [] (Some [7]) = 5 / 4 /\ gaussianScale 1 twoProblem [] (Some [7]) = sqrt (7 / 4) /\ uniformScale twoProblem [] (Some [7]) = 2.
Proof.
  split; [reflexivity|]. split; [reflexivity|]. split.
  { split; [repeat constructor; cbn; unfold wgt; cbn; lra|]. apply Exists_cons_hd. unfold wgt, residual. cbn. lra. }
  unfold laplaceScale, getSumRes, gaussianScale, getChisq, weightedResSq, uniformScale, sumweight, residual. cbn. split; [|split].
  - rewrite (Rabs_right ((2 - 0) * 1)), (Rabs_left ((-1 - 0) * 3)) by lra. field.
  - f_equal. field.
  - rewrite (Rabs_right (2 - 0)), (Rabs_left (-1 - 0)) by lra. rewrite (Rmax_left _ 0) by lra. rewrite Rmax_left by lra. ring.
Qed.
