(** C59: the log-likelihood and the evidence that a fitter reports are those of the posterior it fitted. *)
From Coquelicot Require Import Coquelicot.
From Coq Require Import String List Arith ZArith Reals Bool Lia Lra Psatz FunctionalExtensionality.
From Verif Require Import L_Sum S_Evidence P_Evidence M_Evidence.
Import ListNotations.
Local Open Scope R_scope.

Lemma logLik_chisq m w a (s : R) y f : 0 < s -> (forall i, (i < m)%nat -> 0 < accOf a i) ->
  logLik m (weightOf w) (fun i => s * accOf a i) y f =
  - (1 / 2) * (sumwgt m w * ln (2 * PI * (s * s)) + chisq m w a y f / (s * s)) - sum m (fun i => weightOf w i * ln (accOf a i)).
Proof.
  intros Hs Ha. unfold logLik, chisq. pose proof PI_RGT_0.
  assert (E : sumwgt m w = sum m (weightOf w)).
  { destruct w as [w|]; [reflexivity|]. cbn. rewrite (sum_ext m (weightOf None) (fun _ => 1)) by reflexivity. rewrite sum_const. lra. }
  rewrite E. match goal with |- context [?x / (s * s)] => replace (x / (s * s)) with (x * / (s * s)) by reflexivity end.
  rewrite <- !sum_scal_r, <- sum_plus, <- sum_scal, <- sum_minus. apply sum_ext. intros i Hi.
  pose proof (Ha i Hi) as P. rewrite ln_normal by nra. rewrite (ln_mult (2 * PI)) by nra. rewrite ln_sq, (ln_mult s) by assumption.
  unfold fitWgts. field. split; lra.
Qed.

(** The log-likelihood of a fitter is the log of the product of the normal densities of the residuals, each data point to the power
    of its weight; the standard deviation of a data point is its accuracy times the noise scale.  Weights do not go with an array of
    accuracies, see C59_likelihood_refuted. *)
Theorem C59_likelihood F (s : R) y f :
  0 < s -> (forall i, (i < mdata F)%nat -> 0 < accOf (accuracy F) i) ->
  (wgt F = None \/ forall a, accuracy F <> Many a) ->
  chi F = chisq (mdata F) (wgt F) (accuracy F) y f ->
  getLogLikelihood F (s * s) = logLik (mdata F) (weightOf (wgt F)) (fun i => s * accOf (accuracy F) i) y f.
Proof.
  intros Hs Ha Hw Hc. rewrite logLik_chisq by assumption. unfold getLogLikelihood. rewrite Hc. f_equal.
  destruct F as [m w a ? ? ? ? ? ? ?]; cbn in *. destruct a as [|a|a].
  - symmetry. apply sum_zero. intros. cbn. rewrite ln_1. lra.
  - cbn. rewrite sum_scal_r. f_equal. destruct w as [w|]; cbn; [reflexivity|].
    rewrite (sum_ext m (weightOf None) (fun _ => 1)) by reflexivity. rewrite sum_const. lra.
  - destruct Hw as [->|Hw]; [|now destruct (Hw a)]. apply sum_ext. intros. cbn. lra.
Qed.

(** With weights and an array of accuracies the log-likelihood counts the accuracy of every data point once instead of weight times:
    two data points of weight 2 and accuracy 2 have another log-likelihood when the accuracy is given as one number. *)
Theorem C59_likelihood_refuted :
  exists F F' y f,
    mdata F = 2%nat /\ wgt F = wgt F' /\ mdata F' = 2%nat /\ accuracy F = Single 2 /\ accuracy F' = Many (fun _ => 2) /\
    chi F = chisq 2 (wgt F) (accuracy F) y f /\ chi F' = chisq 2 (wgt F') (accuracy F') y f /\
    getLogLikelihood F (1 * 1) = logLik 2 (weightOf (wgt F)) (fun _ => 2) y f /\
    getLogLikelihood F' (1 * 1) <> logLik 2 (weightOf (wgt F)) (fun _ => 2) y f.
Proof.
  pose (w := Some (fun _ : nat => 2)). pose (y := fun _ : nat => 1). pose (f := fun _ : nat => 0).
  pose (F := fun a => Build_fitter 2 w a (chisq 2 w a y f) 0 None None None (fun _ _ => 0) None).
  exists (F (Single 2)), (F (Many (fun _ => 2))), y, f. cbn [mdata wgt accuracy chi F].
  repeat match goal with |- _ /\ _ => split end; try reflexivity.
  - rewrite (C59_likelihood (F (Single 2)) 1 y f); [|lra|intros; cbn; lra|right; discriminate|reflexivity].
    cbn [mdata wgt accuracy F]. unfold logLik. apply sum_ext. intros. now rewrite Rmult_1_l.
  - assert (E : logLik 2 (weightOf w) (fun _ => 2) y f = logLik 2 (weightOf w) (fun i => 1 * accOf (Single 2) i) y f).
    { unfold logLik. apply sum_ext. intros. cbn. now rewrite Rmult_1_l. }
    rewrite E, logLik_chisq; [|lra|intros; cbn; lra]. unfold getLogLikelihood, F. cbn [mdata wgt accuracy chi].
    replace (chisq 2 w (Many (fun _ => 2)) y f) with (chisq 2 w (Single 2) y f) by reflexivity.
    cbn [sum]. unfold w, weightOf, accOf. assert (0 < ln 2) by (rewrite <- ln_1; apply ln_increasing; lra). lra.
Qed.

(** The prior range of parameter k of a list of ranges: parameters past the end of the list have the last one. *)
Definition rangeOf (l : list R) (k : nat) : R := nth (Nat.min k (length l - 1)) l 0.

Lemma lsum_sum l : lsum l = sum (length l) (fun i => nth i l 0).
Proof.
  induction l as [|x l IH]; [reflexivity|]. cbn [lsum fold_right length]. rewrite <- Nat.add_1_l, sum_app. cbn. fold (lsum l). rewrite IH. lra.
Qed.

Lemma last_ln l : l <> [] -> last (map ln l) 0 = ln (nth (length l - 1) l 0).
Proof.
  intro H. destruct (exists_last H) as [l' [x ->]]. rewrite map_app. cbn [map]. rewrite last_last, app_length. cbn.
  rewrite app_nth2 by lia. replace (length l' + 1 - 1 - length l')%nat with 0%nat by lia. reflexivity.
Qed.

Lemma nth_ln l k : (k < length l)%nat -> nth k (map ln l) 0 = ln (nth k l 0).
Proof. intro H. rewrite (nth_indep _ 0 (ln 0)) by (now rewrite map_length). apply map_nth. Qed.

(** the index that a fitted parameter has among the prior ranges *)
Definition parOf (F : fitter) (limits : option (list R)) (j : nat) : nat :=
  match limits, fitIndex F with None, Some fi => nth j fi 0%nat | _, _ => j end.
Definition given (F : fitter) (limits : option (list R)) : option (list R) :=
  match limits with Some l => Some l | None => priors F end.

(** Every fitted parameter contributes the range of its own prior ( or of the limits that are passed ). *)
Theorem C59_ranges F limits l :
  given F limits = Some l -> l <> [] -> (0 < npfit F)%nat ->
  match limits, fitIndex F with
  | None, Some fi => length fi = npfit F
  | _, _ => (length l <= npfit F)%nat
  end ->
  logRanges F limits = Some (sum (npfit F) (fun j => ln (rangeOf l (parOf F limits j)))).
Proof.
  intros G Nl Hn Hl. unfold given in G. unfold logRanges. rewrite G.
  assert (Ll : (0 < length l)%nat) by (destruct l; [congruence | cbn; lia]).
  destruct (Nat.eqb_spec (length l) 1) as [E1|E1].
  - destruct l as [|a [|b l]]; try discriminate.
    rewrite (sum_ext _ _ (fun _ => ln a)).
    + rewrite sum_const. cbn [map nth last]. f_equal. destruct (Nat.ltb_spec 1 (npfit F)).
      * rewrite minus_INR by lia. cbn [INR]. ring.
      * replace (npfit F) with 1%nat by lia. cbn. lra.
    + intros j _. unfold rangeOf. cbn [length]. replace (Nat.min _ (1 - 1)) with 0%nat by lia. reflexivity.
  - assert (Z : forall n, (length l <= n)%nat ->
      (if (length l <? n)%nat then lsum (map ln l) + INR (n - length l) * last (map ln l) 0 else lsum (map ln l)) =
      sum n (fun j => ln (rangeOf l j))).
    { intros n L. replace n with (length l + (n - length l))%nat at 3 by lia. rewrite sum_app.
      rewrite (sum_ext (n - length l) _ (fun _ => last (map ln l) 0)).
      - rewrite sum_const, lsum_sum, map_length.
        assert (Q : sum (length l) (fun i => nth i (map ln l) 0) = sum (length l) (fun j => ln (rangeOf l j))).
        { apply sum_ext. intros i Hi. rewrite nth_ln by exact Hi. unfold rangeOf. now replace (Nat.min i (length l - 1)) with i by lia. }
        rewrite Q. destruct (Nat.ltb_spec (length l) n); [lra|]. replace (n - length l)%nat with 0%nat by lia. cbn [INR]. lra.
      - intros i _. rewrite last_ln by exact Nl. unfold rangeOf. now replace (Nat.min (length l + i) (length l - 1)) with (length l - 1)%nat by lia. }
    unfold parOf. destruct limits as [l'|]; [apply f_equal, (Z _ Hl)|]. destruct (fitIndex F) as [fi|]; [|apply f_equal, (Z _ Hl)].
    rewrite <- Hl. clear Z Hl Hn.
    assert (W : forall fi, sum (length fi) (fun j => ln (rangeOf l (nth j fi 0%nat))) =
      lsum (map (fun k => nth k (map ln l) 0) (filter (fun k => (k <? length l)%nat) fi)) +
      INR (length fi - length (filter (fun k => (k <? length l)%nat) fi)) * last (map ln l) 0 /\
      (length (filter (fun k => (k <? length l)%nat) fi) <= length fi)%nat).
    { clear fi. induction fi as [|k fi [IH IL]]; [cbn; split; [lra|lia]|].
      cbn [length]. rewrite <- Nat.add_1_l, sum_app. cbn [sum nth Nat.add]. rewrite IH. cbn [filter].
      unfold rangeOf at 1. destruct (Nat.ltb_spec k (length l)) as [K|K]; cbn [map length lsum fold_right].
      - rewrite nth_ln by exact K. replace (Nat.min k (length l - 1)) with k by lia. fold lsum. split; [|lia]. cbn [Nat.sub]. unfold lsum. lra.
      - replace (Nat.min k (length l - 1)) with (length l - 1)%nat by lia. rewrite <- last_ln by exact Nl. split; [|lia].
        rewrite Nat.sub_succ_l by exact IL. rewrite S_INR. lra. }
    destruct (W fi) as [W1 W2]. rewrite W1. f_equal. destruct (Nat.ltb_spec (length (filter (fun k => (k <? length l)%nat) fi)) (length fi)); [reflexivity|].
    replace (length fi - length (filter (fun k => (k <? length l)%nat) fi))%nat with 0%nat by lia. cbn [INR]. lra.
Qed.

Lemma chisq_quad m n w a y c D (ts p : nat -> R) :
  (forall j, (j < n)%nat -> sum m (fun i => D i j * (fitWgts w a i * (y i - linear n c D ts i))) = 0) ->
  chisq m w a y (linear n c D p) =
  chisq m w a y (linear n c D ts) + sum n (fun j => sum n (fun k => (p j - ts j) * getHessian m w a D j k * (p k - ts k))).
Proof.
  intro O. pose (dl := fun i => sum n (fun j => D i j * (p j - ts j))).
  assert (E : forall i, linear n c D p i = linear n c D ts i + dl i).
  { intro i. unfold linear, dl. rewrite (sum_ext n (fun j => D i j * (p j - ts j)) (fun j => D i j * p j - D i j * ts j)) by (intros; ring).
    rewrite sum_minus. lra. }
  assert (C : sum m (fun i => fitWgts w a i * (y i - linear n c D ts i) * dl i) = 0).
  { rewrite (sum_ext m _ (fun i => sum n (fun j => (p j - ts j) * (D i j * (fitWgts w a i * (y i - linear n c D ts i)))))).
    - rewrite sum_swap. apply sum_zero. intros k Hk. rewrite sum_scal, (O k Hk). lra.
    - intros i Hi. unfold dl. rewrite <- sum_scal. apply sum_ext. intros; ring. }
  assert (Q : sum n (fun j => sum n (fun k => (p j - ts j) * getHessian m w a D j k * (p k - ts k))) = sum m (fun i => fitWgts w a i * (dl i * dl i))).
  { rewrite (sum_ext m (fun i => fitWgts w a i * (dl i * dl i))
      (fun i => sum n (fun j => sum n (fun k => (p j - ts j) * (D i j * (D i k * fitWgts w a i)) * (p k - ts k))))).
    - symmetry. rewrite sum_swap. apply sum_ext. intros j _. rewrite sum_swap. apply sum_ext. intros k _.
      unfold getHessian. rewrite sum_scal_r, sum_scal. reflexivity.
    - intros i _. unfold dl. rewrite <- sum_scal_r, <- sum_scal. apply sum_ext. intros j _.
      rewrite <- sum_scal, <- sum_scal. apply sum_ext. intros k _. ring. }
  rewrite Q. unfold chisq.
  rewrite (sum_ext m (fun i => (y i - linear n c D p i) * (y i - linear n c D p i) * fitWgts w a i)
    (fun i => ((y i - linear n c D ts i) * (y i - linear n c D ts i) * fitWgts w a i + fitWgts w a i * (dl i * dl i)) -
              2 * (fitWgts w a i * (y i - linear n c D ts i) * dl i))).
  - rewrite sum_minus, sum_plus, sum_scal, C. lra.
  - intros i _. rewrite E. ring.
Qed.

(** For a linear model ( with a fixed part c, of the parameters that are kept ), a known noise scale s and uniform priors, logZ is the
    logarithm of the integral of the likelihood times the prior density over all parameter values, in any number of parameters.
    Here ts is the least-squares solution and the hessian is positive definite. *)
Theorem C59_evidence det F limits l (s : R) y c D ts L :
  let n := npfit F in let m := mdata F in
  let w := wgt F in let a := accuracy F in
  (0 < n)%nat -> INR n < sumwgt m w ->
  s = match fixedScale F with None => 1 | Some s => s end -> 0 < s ->
  (forall i, (i < m)%nat -> 0 < accOf a i) -> (w = None \/ forall f, a <> Many f) ->
  (forall j, (j < n)%nat -> sum m (fun i => D i j * (fitWgts w a i * (y i - linear n c D ts i))) = 0) ->
  chi F = chisq m w a y (linear n c D ts) -> hessian F = getHessian m w a D ->
  cholesky n (hessian F) L -> isDet det n ->
  given F limits = Some l -> l <> [] -> (forall k, 0 < rangeOf l k) ->
  match limits, fitIndex F with None, Some fi => length fi = n | _, _ => (length l <= n)%nat end ->
  exists Z, 0 < Z /\
    integral n (fun p => exp (logLik m (weightOf w) (fun i => s * accOf a i) y (linear n c D p)) *
                         prod n (fun j => / rangeOf l (parOf F limits j))) (fun _ => Z) /\
    getLogZ det F limits None = Value (ln Z).
Proof.
  intros n m w a Hn Hd Es Hs Ha Hw O Hc Hh C HD G Nl Pl Hl.
  pose (LL := logLik m (weightOf w) (fun i => s * accOf a i) y (linear n c D ts)).
  pose (pr := prod n (fun j => / rangeOf l (parOf F limits j))).
  assert (Ppr : 0 < pr) by (apply prod_pos; intros; apply Rinv_0_lt_compat, Pl).
  assert (S2 : 0 < sqrt (2 * PI)) by (apply sqrt_lt_R0; generalize PI_RGT_0; lra).
  assert (PL : forall i, (i < n)%nat -> 0 < L i i) by (intros; now apply C).
  assert (PP : 0 < prod n (fun l0 => s * sqrt (2 * PI) / L l0 l0)).
  { apply prod_pos. intros i Hi. pose proof (PL i Hi). apply Rdiv_lt_0_compat; [nra|lra]. }
  exists (exp LL * pr * prod n (fun l0 => s * sqrt (2 * PI) / L l0 l0)).
  split; [apply Rmult_lt_0_compat; [apply Rmult_lt_0_compat; [apply exp_pos | exact Ppr] | exact PP] |]. split.
  - pose proof (gauss_integral n (hessian F) L C (exp LL * pr) s Hs ts) as Q.
    match type of Q with integral _ ?f _ => match goal with |- integral _ ?g _ => replace g with f; [exact Q|] end end.
    apply functional_extensionality. intro p.
    assert (E : logLik m (weightOf w) (fun i => s * accOf a i) y (linear n c D p) =
      LL - sum n (fun j => sum n (fun k => (p j - ts j) * hessian F j k * (p k - ts k))) / (s * s) / 2).
    { unfold LL. rewrite !logLik_chisq by assumption. rewrite (chisq_quad m n w a y c D ts p O), Hh. field. lra. }
    rewrite E. fold pr. set (q := sum n _).
    replace (LL - q / (s * s) / 2) with (LL + - q / (s * s) / 2) by (field; lra). rewrite exp_plus. ring.
  - unfold getLogZ. fold n m w a. destruct (Rle_dec (sumwgt m w - INR n) 0) as [X|_]; [lra|].
    rewrite <- Es. destruct (Nat.eqb_spec n 0) as [X|_]; [lia|].
    rewrite (C59_ranges F limits l G Nl Hn Hl). f_equal.
    rewrite (C59_likelihood F s y (linear n c D ts) Hs Ha Hw Hc). fold n m w a. fold LL.
    rewrite (HD _ _ C). rewrite ln_sq by (apply prod_pos; exact PL). rewrite ln_prod by exact PL.
    rewrite (ln_mult (exp LL * pr)); [|apply Rmult_lt_0_compat; [apply exp_pos | exact Ppr] | exact PP].
    rewrite (ln_mult (exp LL)); [|apply exp_pos | exact Ppr]. rewrite ln_exp. unfold pr. rewrite ln_prod by (intros; apply Rinv_0_lt_compat, Pl).
    rewrite (sum_ext n (fun l0 => ln (/ rangeOf l (parOf F limits l0))) (fun j => 0 - ln (rangeOf l (parOf F limits j)))) by (intros; rewrite ln_Rinv by apply Pl; lra).
    rewrite ln_prod by (intros i Hi; pose proof (PL i Hi); apply Rdiv_lt_0_compat; [nra|lra]).
    rewrite (sum_ext n (fun l0 => ln (s * sqrt (2 * PI) / L l0 l0)) (fun l0 => (ln s + ln (2 * PI) / 2) - ln (L l0 l0))).
    + rewrite !sum_minus, !sum_const. rewrite (ln_mult (2 * PI)) by (generalize PI_RGT_0; nra). rewrite ln_sq by exact Hs. lra.
    + intros i Hi. pose proof (PL i Hi). unfold Rdiv. rewrite ln_mult; [|nra|now apply Rinv_0_lt_compat]. rewrite ln_Rinv, ln_mult, ln_sqrt_; try lra. generalize PI_RGT_0; lra.
Qed.

(** Without free parameters logZ is the log-likelihood. *)
Theorem C59_nofree det F limits (s : R) :
  npfit F = 0%nat -> 0 < sumwgt (mdata F) (wgt F) -> s = match fixedScale F with None => 1 | Some s => s end ->
  getLogZ det F limits None = Value (getLogLikelihood F (s * s)).
Proof.
  intros H Hd ->. unfold getLogZ. rewrite H. cbn [INR Nat.eqb]. destruct (Rle_dec _ 0); [lra|]. f_equal. lra.
Qed.

(** The variance of the noise: chisq over the degrees of freedom, and the square of the minimum scale on top of it when there is one *)
Theorem C59_variance F : 0 <= chi F -> let dof := sumwgt (mdata F) (wgt F) - INR (npfit F) in 0 < dof ->
  (minimumScale F = None -> makeVariance F = chi F / dof) /\ (forall s, minimumScale F = Some s -> makeVariance F = chi F / dof + s * s).
Proof.
  intros C dof D. assert (Q : getScale F * getScale F = chi F / dof). { unfold getScale. fold dof. apply sqrt_sqrt. apply Rmult_le_pos; [exact C|]. left. now apply Rinv_0_lt_compat. }
  unfold makeVariance. cbv zeta. rewrite Q. split; [intros ->|intros s ->]; reflexivity.
Qed.

(** getEvidence is logZ in units of log 10; there is an error when there are not more (weighted) data than parameters, and when nothing is
    known about the range of the parameters. *)
Theorem C59_log10 det F limits noise z : getLogZ det F limits noise = Value z -> getEvidence det F limits noise = Value (z / ln 10).
Proof. intro H. unfold getEvidence. now rewrite H. Qed.

Theorem C59_errors det F limits noise :
  (exists msg, getLogZ det F limits noise = Error msg) <->
  sumwgt (mdata F) (wgt F) <= INR (npfit F) \/ (npfit F <> 0%nat /\ given F limits = None).
Proof.
  unfold getLogZ, logRanges, given. split.
  - intros [msg H]. destruct (Rle_dec _ 0) as [D|D]; [left; lra|]. right.
    destruct noise as [[lo hi]|]; cbn iota in H; (destruct (Nat.eqb_spec (npfit F) 0); [discriminate|]; split; [assumption|];
      destruct (match limits with Some l0 => Some l0 | None => priors F end); [|reflexivity];
      destruct (if (length l =? 1)%nat then _ else _); discriminate).
  - intros [H|[H G]].
    + destruct (Rle_dec _ 0) as [D|D]; [eauto|lra].
    + destruct (Rle_dec _ 0) as [D|D]; [eauto|]. rewrite G. apply Nat.eqb_neq in H. rewrite H.
      destruct noise as [[lo hi]|]; eauto.
Qed.

(** The range of the prior of parameter k of a chain of models. *)
Fixpoint chainRange (chain : list (nat * list R)) (k : nat) : R :=
  match chain with
  | [] => 0
  | (np, l) :: rest => if (k <? np)%nat then rangeOf l k else chainRange rest (k - np)
  end.

(** The ranges are right for the model at the head of a chain only: getLogZ looks at model.priors, which are the priors of the first
    model.  For the sum of two models with one parameter each, with ranges 1 and 10, it takes the range 1 twice. *)
Theorem C59_compound_refuted :
  exists chain F,
    priors F = Some (modelPriors chain) /\ npfit F = 2%nat /\ fitIndex F = None /\
    map fst chain = [1%nat; 1%nat] /\ chainRange chain 0 = 1 /\ chainRange chain 1 = 10 /\
    logRanges F None <> Some (sum 2 (fun k => ln (chainRange chain k))).
Proof.
  exists [(1%nat, [1]); (1%nat, [10])], (Build_fitter 3 None NoAcc 1 2 None None None (fun _ _ => 0) (Some [1])).
  repeat match goal with |- _ /\ _ => split end; try reflexivity. cbn. unfold rangeOf. cbn [length Nat.min Nat.sub nth]. intro H.
  assert (E : ln 1 + 1 * ln 1 = 0 + ln 1 + ln 10) by congruence. rewrite ln_1 in E.
  assert (0 < ln 10) by (rewrite <- ln_1; apply ln_increasing; lra). lra.
Qed.

(** Let g( u ) be the logZ for a fixed noise scale exp( u ).  It has its maximum where the variance is chisq / dof, with second
    derivative -2 dof.  So in the Gaussian approximation of the posterior, with a uniform prior for the logarithm of the noise scale
    between the noise limits, logZ = g( maximum ) + log( sqrt( 2 pi / ( 2 dof ) ) ) - log( scalerange ), where scalerange is
    log( high / low ).  The value of getLogZ with noiseLimits is log( dof ) - scalerange more than that: it multiplies pi with dof
    instead of dividing, and subtracts scalerange as well as its logarithm. *)
Theorem C59_noise_refuted det F limits (lo hi : R) :
  let dof := sumwgt (mdata F) (wgt F) - INR (npfit F) in
  let at_ u := Build_fitter (mdata F) (wgt F) (accuracy F) (chi F) (npfit F) (Some (exp u)) (minimumScale F) (fitIndex F) (hessian F) (priors F) in
  (0 < npfit F)%nat -> 0 < dof -> 0 < chi F -> minimumScale F = None -> given F limits <> None -> 0 < lo < hi ->
  exists (g g1 : R -> R) (um : R),
    (forall u, getLogZ det (at_ u) limits None = Value (g u)) /\
    (forall u, is_derive g u (g1 u)) /\ is_derive g1 um (- 2 * dof) /\ g1 um = 0 /\ (forall u, g u <= g um) /\
    exp um * exp um = chi F / dof /\
    getLogZ det F limits (Some (lo, hi)) =
      Value (g um + ln (sqrt (2 * PI / (2 * dof))) - ln (ln hi - ln lo) + (ln dof - (ln hi - ln lo))).
Proof.
  intros dof at_ Hn Hd Hc Hm Hg Hl. pose proof PI_RGT_0 as PP.
  assert (exists lr, forall F', npfit F' = npfit F -> fitIndex F' = fitIndex F -> priors F' = priors F ->
     (npfit F <> 0%nat -> logRanges F' limits = Some lr)) as [lr Hr].
  { unfold given in Hg. exists (match logRanges F limits with Some r => r | None => 0 end). intros F' A B C _. unfold logRanges. rewrite A, B, C.
    destruct (match limits with Some l => Some l | None => priors F end); [|congruence].
    destruct (if (length l =? 1)%nat then _ else _). reflexivity. }
  pose (K := (- (1 / 2) * dof * ln (2 * PI) - (match accuracy F with NoAcc => 0 | Single a => sumwgt (mdata F) (wgt F) * ln a | Many f => sum (mdata F) (fun i => ln (f i)) end)
     - (if (npfit F =? 0)%nat then 0 else lr + 1 / 2 * ln (det (npfit F) (hessian F))))).
  pose (g := fun u : R => K - dof * u - chi F / 2 * exp (- 2 * u)).
  pose (g1 := fun u : R => - dof + chi F * exp (- 2 * u)).
  pose (um := ln (chi F / dof) / 2).
  assert (Q : 0 < chi F / dof) by (now apply Rdiv_lt_0_compat).
  assert (Eu : exp um * exp um = chi F / dof).
  { rewrite <- exp_plus. unfold um. replace (ln (chi F / dof) / 2 + ln (chi F / dof) / 2) with (ln (chi F / dof)) by field. now apply exp_ln. }
  assert (Em : exp (- 2 * um) = dof / chi F).
  { replace (- 2 * um) with (- (um + um)) by ring. rewrite exp_Ropp, exp_plus, Eu. field. lra. }
  exists g, g1, um.
  assert (Eg : forall u, getLogZ det (at_ u) limits None = Value (g u)).
  { intro u. unfold getLogZ. change (mdata (at_ u)) with (mdata F). change (wgt (at_ u)) with (wgt F). change (npfit (at_ u)) with (npfit F). fold dof.
    destruct (Rle_dec dof 0); [lra|]. change (fixedScale (at_ u)) with (Some (exp u)). cbn iota.
    unfold getLogLikelihood. change (mdata (at_ u)) with (mdata F). change (wgt (at_ u)) with (wgt F). change (accuracy (at_ u)) with (accuracy F). change (chi (at_ u)) with (chi F).
    assert (Lx : ln (2 * PI * (exp u * exp u)) = ln (2 * PI) + 2 * u).
    { rewrite ln_mult; [|lra|pose proof (exp_pos u); nra]. rewrite ln_sq, ln_exp by apply exp_pos. lra. }
    assert (Cx : chi F / (exp u * exp u) = chi F * exp (- 2 * u)).
    { replace (- 2 * u) with (- (u + u)) by ring. rewrite exp_Ropp, exp_plus. reflexivity. }
    rewrite Lx, Cx. unfold g, K. destruct (Nat.eqb_spec (npfit F) 0) as [E|E].
    - f_equal. unfold dof. rewrite E. cbn [INR]. lra.
    - rewrite (Hr (at_ u)) by (reflexivity || exact E). change (hessian (at_ u)) with (hessian F). f_equal. unfold dof. lra. }
  split; [exact Eg|].
  assert (Dg : forall u, is_derive g u (g1 u)).
  { intro u. unfold g, g1. generalize K dof (chi F). intros. auto_derive; [exact Logic.I|]. field. }
  split; [exact Dg|]. split; [|split; [|split; [|split; [exact Eu|]]]].
  - unfold g1. replace (-2 * dof) with (chi F * (-2 * exp (- 2 * um))) by (rewrite Em; field; lra). generalize dof (chi F) um. intros.
    auto_derive; [exact Logic.I|]. ring.
  - unfold g1. rewrite Em. field. lra.
  - intro u. unfold g. rewrite Em. replace (exp (-2 * u)) with (dof / chi F * exp (- 2 * (u - um))).
    + pose proof (exp_ineq1_le (- 2 * (u - um))) as X.
      assert (B : chi F / 2 * (dof / chi F * exp (-2 * (u - um))) = dof / 2 * exp (-2 * (u - um))) by (field; lra). rewrite B.
      assert (B2 : chi F / 2 * (dof / chi F) = dof / 2) by (field; lra). rewrite B2. nra.
    + rewrite <- Em, <- exp_plus. f_equal. ring.
  - assert (Sc : getScale F * getScale F = chi F / dof) by (unfold getScale; fold dof; apply sqrt_sqrt; lra).
    assert (Sv : makeVariance F = exp um * exp um) by (unfold makeVariance; rewrite Hm, Sc; now symmetry).
    specialize (Eg um). unfold getLogZ in Eg |- *. change (mdata (at_ um)) with (mdata F) in Eg. change (wgt (at_ um)) with (wgt F) in Eg.
    change (npfit (at_ um)) with (npfit F) in Eg. fold dof in Eg |- *. destruct (Rle_dec dof 0); [lra|].
    change (fixedScale (at_ um)) with (Some (exp um)) in Eg. cbn iota in Eg |- *. rewrite Sv.
    change (getLogLikelihood (at_ um) (exp um * exp um)) with (getLogLikelihood F (exp um * exp um)) in Eg.
    assert (Ls : ln (sqrt (2 * PI / (2 * dof))) = (ln PI - ln dof) / 2).
    { rewrite ln_sqrt_ by (apply Rdiv_lt_0_compat; lra). replace (2 * PI / (2 * dof)) with (PI * / dof) by (field; lra).
      rewrite ln_mult, ln_Rinv; try lra. apply Rinv_0_lt_compat; lra. }
    rewrite Ls, (ln_mult PI) by lra. destruct (Nat.eqb_spec (npfit F) 0) as [E|E]; [lia|].
    rewrite (Hr (at_ um)) in Eg by (reflexivity || exact E). rewrite (Hr F) by (reflexivity || exact E).
    change (hessian (at_ um)) with (hessian F) in Eg.
    match type of Eg with Value ?v = _ => assert (Ev : g um = v) by congruence end. rewrite Ev. f_equal. lra.
Qed.

(** The determinants of 1 x 1 and 2 x 2 matrices. *)
Lemma isDet_1 : isDet (fun _ H => H 0%nat 0%nat) 1.
Proof. intros H L (_ & _ & E). rewrite E by lia. cbn. lra. Qed.

Definition det2 (_ : nat) (H : nat -> nat -> R) : R := H 0%nat 0%nat * H 1%nat 1%nat - H 0%nat 1%nat * H 1%nat 0%nat.
Lemma isDet_2 : isDet det2 2.
Proof. intros H L (Z & _ & E). unfold det2. rewrite !E by lia. cbn. rewrite (Z 0%nat 1%nat) by lia. ring. Qed.

(** A straight line through the points ( 0, 1 ), ( 1, 0 ) and ( 2, 2 ): intercept and slope are 1/2, chisq is 3/2, the hessian is
    not diagonal; the noise scale is 2 and the ranges of the two parameters are 4 and 8. *)
Example C59_example :
  let y i := match i with 0%nat => 1 | 1%nat => 0 | _ => 2 end in
  let D i j := match j with 0%nat => 1 | _ => INR i end in
  let F := Build_fitter 3 None NoAcc (3 / 2) 2 (Some 2) None None (getHessian 3 None NoAcc D) (Some [4; 8]) in
  exists Z, 0 < Z /\
    integral 2 (fun p => exp (logLik 3 (fun _ => 1) (fun _ => 2) y (linear 2 (fun _ => 0) D p)) * (1 * / 4 * / 8)) (fun _ => Z) /\
    getLogZ det2 F None None = Value (ln Z) /\ det2 2 (hessian F) = 6.
Proof.
  intros y D F. pose (ts := fun _ : nat => 1 / 2).
  pose (L := fun j l : nat => match j, l with 0%nat, 0%nat => sqrt 3 | 1%nat, 0%nat => sqrt 3 | 1%nat, 1%nat => sqrt 2 | _, _ => 0 end).
  assert (S3 : sqrt 3 * sqrt 3 = 3) by (apply sqrt_sqrt; lra). assert (S2 : sqrt 2 * sqrt 2 = 2) by (apply sqrt_sqrt; lra).
  destruct (C59_evidence det2 F None [4; 8] 2 y (fun _ => 0) D ts L) as (Z & Pz & I & E).
  - cbn; lia.
  - cbn. lra.
  - reflexivity.
  - lra.
  - intros; cbn; lra.
  - now left.
  - intros j Hj. destruct j as [|[|j]]; [| |cbn in Hj; lia]; cbn; unfold fitWgts, linear, D, ts, y; cbn; field.
  - cbn. unfold chisq, fitWgts, linear, D, ts, y; cbn; field.
  - reflexivity.
  - split; [|split].
    + intros j l H. destruct j as [|[|j]], l as [|[|l]]; try lia; reflexivity.
    + intros l H. destruct l as [|[|l]]; [apply sqrt_lt_R0; lra | apply sqrt_lt_R0; lra | cbn in H; lia].
    + intros j k Hj Hk. cbn in Hj, Hk. destruct j as [|[|j]], k as [|[|k]]; try lia; cbn; unfold getHessian, fitWgts, D; cbn; lra.
  - exact isDet_2.
  - reflexivity.
  - discriminate.
  - intro k. unfold rangeOf. cbn [length Nat.sub]. destruct (Nat.min k 1) as [|[|q]] eqn:M; cbn; try lra. lia.
  - cbn. lia.
  - exists Z. split; [exact Pz|]. split; [|split; [exact E|]].
    + match type of I with integral _ ?f _ => match goal with |- integral _ ?g _ => replace g with f; [exact I|] end end.
      apply functional_extensionality. intro p. cbn [npfit mdata wgt accuracy F prod]. f_equal. f_equal. unfold logLik. apply sum_ext. intros. cbn. now rewrite Rmult_1_r.
    + unfold det2, F, hessian, getHessian, fitWgts, D. cbn. field.
Qed.

(** Three data points with scatter 3/2 in chisq, one fitted parameter, noise between 1/10 and 10. *)
Example C59_noise_example :
  let F := Build_fitter 3 None NoAcc (3 / 2) 1 None None None (fun _ _ => 3) (Some [4]) in
  0 < sumwgt (mdata F) (wgt F) - INR (npfit F) /\ 0 < chi F /\ minimumScale F = None /\ given F None <> None /\ 0 < 1 / 10 < 10 /\
  ln 2 - (ln 10 - ln (1 / 10)) < 0.
Proof.
  cbn. repeat match goal with |- _ /\ _ => split end; try lra; try reflexivity; try discriminate.
  assert (ln 2 < ln 10) by (apply ln_increasing; lra). assert (ln (1 / 10) < ln 1) by (apply ln_increasing; lra). rewrite ln_1 in *. lra.
Qed.

Print Assumptions C59_likelihood.
Print Assumptions C59_likelihood_refuted.
Print Assumptions C59_ranges.
Print Assumptions C59_evidence.
Print Assumptions C59_nofree.
Print Assumptions C59_log10.
Print Assumptions C59_errors.
Print Assumptions C59_compound_refuted.
Print Assumptions C59_noise_refuted.
Print Assumptions C59_variance.
Example C59_variance_ex : let F := Build_fitter 3 None NoAcc (3 / 2) 2 None (Some 2) None (fun _ _ => 1) None in makeVariance F = 11 / 2.
Proof. intros F. destruct (C59_variance F) as [_ V]; [cbn; lra|cbn; lra|]. rewrite (V 2 eq_refl). cbn. lra. Qed.
