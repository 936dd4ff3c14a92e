(** C58: the soft-max model: its outputs are probabilities, its partials and its derivative are those of the outputs. *)
From Coquelicot Require Import Coquelicot.
From Coq Require Import List Arith ZArith Reals Bool Lia Lra.
From Verif Require Import L_Sum M_SoftMax.
Import ListNotations.
Local Open Scope R_scope.

(** The number that the soft-max model assigns to category n before normalisation, written out: the inner product of the input
    with row n of the parameters, and the offset of that category. *)
Definition score (offset : bool) (ndim ndout : nat) (x par : nat -> R) (n : nat) : R :=
  sum ndim (fun k => x k * par (n * ndim + k)%nat) + (if offset then par (ndim * ndout + n)%nat else 0).

(** p with the number of index j replaced by t *)
Definition upd (p : nat -> R) (j : nat) (t : R) : nat -> R := fun i => if (i =? j)%nat then t else p i.

Lemma raster_score b nd no x p n : rasterResult b nd no x p n = score b nd no x p n.
Proof. unfold rasterResult, connectResult, score. destruct b; lra. Qed.

Lemma sum_pos n f : (0 < n)%nat -> (forall i, (i < n)%nat -> 0 < f i) -> 0 < sum n f.
Proof.
  intros Hn H. destruct n; [lia|]. cbn. pose proof (sum_nonneg n f ltac:(intros i Hi; left; apply H; lia)). pose proof (H n ltac:(lia)). lra.
Qed.

Lemma norm_pos no r : (0 < no)%nat -> 0 < sum no (fun k => exp (r k)).
Proof. intro H. apply sum_pos; auto. intros; apply exp_pos. Qed.

Lemma sum_derive n (f : nat -> R -> R) (d : nat -> R) (x : R) :
  (forall i, (i < n)%nat -> is_derive (f i) x (d i)) -> is_derive (fun t : R => sum n (fun i => f i t)) x (sum n d).
Proof.
  induction n as [|n IH]; intro H; cbn.
  - apply @is_derive_const.
  - apply @is_derive_plus; [apply IH; auto | apply H; lia].
Qed.

(** With normed true and more than one output the outputs are the exponentials of the scores divided by their sum; they are positive
    and sum to one. *)
Theorem C58_probabilities offset ndim ndout x par :
  (1 < ndout)%nat ->
  (forall n, (n < ndout)%nat ->
     baseResult offset true ndim ndout x par n =
       exp (score offset ndim ndout x par n) / sum ndout (fun k => exp (score offset ndim ndout x par k)) /\
     0 < baseResult offset true ndim ndout x par n < 1) /\
  sum ndout (baseResult offset true ndim ndout x par) = 1.
Proof.
  intro H. assert (E : forall n, baseResult offset true ndim ndout x par n =
       exp (score offset ndim ndout x par n) / sum ndout (fun k => exp (score offset ndim ndout x par k))).
  { intro n. unfold baseResult, transOf. destruct (Nat.eqb_spec ndout 1); [lia|]. cbn. unfold softmax. rewrite raster_score.
    f_equal. apply sum_ext. intros; now rewrite raster_score. }
  pose proof (norm_pos ndout (score offset ndim ndout x par) ltac:(lia)) as P.
  set (r := score offset ndim ndout x par) in *.
  assert (S1 : sum ndout (baseResult offset true ndim ndout x par) = 1).
  { rewrite (sum_ext _ _ (fun n => exp (r n) * / sum ndout (fun k => exp (r k)))).
    - rewrite sum_scal_r. now apply Rinv_r, Rgt_not_eq.
    - intros i _. apply E. }
  assert (Pos : forall n, 0 < baseResult offset true ndim ndout x par n).
  { intro n. rewrite E. apply Rdiv_lt_0_compat; [apply exp_pos | exact P]. }
  split; [|exact S1]. intros n Hn. split; [apply E|]. split; [apply Pos|].
  rewrite <- S1. set (g := baseResult offset true ndim ndout x par) in *.
  pose (m := if (n =? 0)%nat then 1%nat else 0%nat).
  assert (Hm : (m < ndout)%nat /\ m <> n) by (unfold m; destruct (Nat.eqb_spec n 0); lia).
  clearbody m.
  assert (Q : sum ndout (fun i => if (i =? n)%nat then g n else 0) = g n).
  { rewrite (sum_one _ n); [now rewrite Nat.eqb_refl|lia|]. intros i _ D. apply Nat.eqb_neq in D. now rewrite D. }
  assert (Q2 : sum ndout (fun i => if (i =? m)%nat then g m else 0) = g m).
  { rewrite (sum_one _ m); [now rewrite Nat.eqb_refl|lia|]. intros i _ D. apply Nat.eqb_neq in D. now rewrite D. }
  assert (0 <= sum ndout (fun i => g i - ((if (i =? n)%nat then g n else 0) + (if (i =? m)%nat then g m else 0)))).
  { apply sum_nonneg. intros i _. pose proof (Pos i). destruct (Nat.eqb_spec i n), (Nat.eqb_spec i m); subst; try lra; lia. }
  rewrite sum_minus, sum_plus, Q, Q2 in H0. pose proof (Pos m). lra.
Qed.

(** With one output and normed true the output is 1 / ( 1 + exp( - score ) ), between 0 and 1; without normed it is the score. *)
Theorem C58_single offset ndim x par :
  baseResult offset true ndim 1 x par 0 = 1 / (1 + exp (- score offset ndim 1 x par 0)) /\
  0 < baseResult offset true ndim 1 x par 0 < 1.
Proof.
  assert (E : baseResult offset true ndim 1 x par 0 = 1 / (1 + exp (- score offset ndim 1 x par 0))).
  { unfold baseResult, transOf, transResult, logistic. cbn [Nat.eqb]. now rewrite raster_score. }
  rewrite E. split; [reflexivity|]. pose proof (exp_pos (- score offset ndim 1 x par 0)).
  split; [apply Rdiv_lt_0_compat; lra|]. apply (Rmult_lt_reg_r (1 + exp (- score offset ndim 1 x par 0))); [lra|].
  unfold Rdiv. rewrite Rmult_assoc, Rinv_l; lra.
Qed.

Theorem C58_plain offset ndim ndout x par n :
  baseResult offset false ndim ndout x par n = score offset ndim ndout x par n.
Proof. unfold baseResult, transOf, transResult. apply raster_score. Qed.

(** The category with the higher score has the higher output. *)
Theorem C58_order offset normed ndim ndout x par n m :
  (n < ndout)%nat -> (m < ndout)%nat ->
  score offset ndim ndout x par n < score offset ndim ndout x par m ->
  baseResult offset normed ndim ndout x par n < baseResult offset normed ndim ndout x par m.
Proof.
  intros Hn Hm L. unfold baseResult, transOf. destruct normed; [|cbn; now rewrite !raster_score].
  destruct (Nat.eqb_spec ndout 1) as [->|D].
  - assert (n = m) by lia. subst. lra.
  - cbn. unfold softmax, Rdiv. apply Rmult_lt_compat_r; [apply Rinv_0_lt_compat, norm_pos; lia|].
    rewrite !raster_score. now apply exp_increasing.
Qed.

(** Adding one vector to all rows of the parameters, and one number to all offsets, does not change the normalised outputs. *)
Theorem C58_shift offset ndim ndout x par (v : nat -> R) (c : R) n :
  (1 < ndout)%nat -> (n < ndout)%nat ->
  let par' j := if (j <? ndim * ndout)%nat then par j + v (j mod ndim)%nat else par j + c in
  baseResult offset true ndim ndout x par' n = baseResult offset true ndim ndout x par n.
Proof.
  intros H Hn par'. destruct (C58_probabilities offset ndim ndout x par H) as [A _], (C58_probabilities offset ndim ndout x par' H) as [B _].
  destruct (A n Hn) as [-> _], (B n Hn) as [-> _]. clear A B.
  pose (s := sum ndim (fun k => x k * v k) + (if offset then c else 0)).
  assert (E : forall i, (i < ndout)%nat -> score offset ndim ndout x par' i = score offset ndim ndout x par i + s).
  { intros i Hi. unfold score, s.
    rewrite (sum_ext _ (fun k => x k * par' (i * ndim + k)%nat) (fun k => x k * par (i * ndim + k)%nat + x k * v k)).
    - rewrite sum_plus. destruct offset; [|lra]. unfold par' at 1. destruct (Nat.ltb_spec (ndim * ndout + i) (ndim * ndout)); [lia|]. lra.
    - intros k Hk. unfold par'. destruct (Nat.ltb_spec (i * ndim + k) (ndim * ndout)); [|nia].
      replace ((i * ndim + k) mod ndim)%nat with k; [lra|]. rewrite Nat.add_comm, Nat.mod_add, Nat.mod_small; lia. }
  rewrite (sum_ext ndout _ (fun k => exp (score offset ndim ndout x par k) * exp s)).
  - rewrite sum_scal_r, E, exp_plus by exact Hn. pose proof (norm_pos ndout (score offset ndim ndout x par) ltac:(lia)).
    pose proof (exp_pos s). field. split; lra.
  - intros i Hi. now rewrite E, exp_plus.
Qed.

(** derivatives of the transfer functions along a path of scores *)
Lemma pipe_derive t ndout (r : nat -> R -> R) (dr : nat -> nat -> R) (j n : nat) (s : R) :
  (n < ndout)%nat -> (forall i, (i < ndout)%nat -> is_derive (r i) s (dr i j)) ->
  is_derive (fun u : R => transResult t ndout (fun i => r i u) n) s (pipe t ndout (fun i => r i s) dr n j).
Proof.
  intros Hn H. destruct t; cbn [transResult pipe].
  - now apply H.
  - pose proof (H n Hn) as V. pose (v := fun t : R => r n t). assert (V' : is_derive v s (dr n j)) by exact V.
    change (r n s) with (v s). unfold logistic.
    apply (is_derive_ext (fun u : R => 1 / (1 + exp (- v u)))); [reflexivity|].
    pose proof (exp_pos (- v s)). pose proof (exp_pos (v s)).
    evar (l : R). match goal with |- is_derive _ _ ?r => replace r with l; unfold l end.
    + auto_derive; [|reflexivity]. split; [|split]; try exact Logic.I; [eexists; exact V' | lra].
    + replace (Derive (fun x => v x) s) with (Derive v s) by reflexivity. rewrite (is_derive_unique _ _ _ V').
      unfold logisticDerivative. cbv zeta. rewrite exp_Ropp. pose proof (exp_pos (v s)). field. split; lra.
  - pose proof (norm_pos ndout (fun i => r i s) ltac:(lia)) as P.
    unfold softmax. pose (f := fun i (u : R) => exp (r i u)). pose (N := fun u : R => sum ndout (fun k => f k u)).
    assert (F : forall i, (i < ndout)%nat -> is_derive (f i) s (dr i j * f i s)).
    { intros i Hi. pose proof (H i Hi) as V. pose (v := fun t : R => r i t). assert (V' : is_derive v s (dr i j)) by exact V.
      apply (is_derive_ext (fun u : R => exp (v u))); [reflexivity|].
      evar (l : R). match goal with |- is_derive _ _ ?r => replace r with l; unfold l end.
      + auto_derive; [|reflexivity]. eexists; exact V'.
      + replace (Derive (fun x => v x) s) with (Derive v s) by reflexivity. rewrite (is_derive_unique _ _ _ V').
        unfold f, v. lra. }
    assert (DN : is_derive N s (sum ndout (fun i => dr i j * f i s))) by (apply sum_derive; exact F).
    apply (is_derive_ext (fun u : R => f n u / N u)); [reflexivity|].
    change (0 < N s) in P.
    assert (Q : is_derive (fun u : R => f n u / N u) s ((dr n j * f n s * N s - f n s * sum ndout (fun i => dr i j * f i s)) / (N s)^2)).
    { apply is_derive_div; [now apply F | exact DN | now apply Rgt_not_eq]. }
    match goal with |- is_derive _ _ ?r => replace r with ((dr n j * f n s * N s - f n s * sum ndout (fun i => dr i j * f i s)) / (N s)^2); [exact Q|] end.
    rewrite (sum_ext _ (fun i => softmaxDerivative ndout (fun i0 => r i0 s) n i * dr i j)
       (fun i => (if (i =? n)%nat then f n s / N s * dr n j else 0) - (f n s / (N s * N s)) * (dr i j * f i s))).
    + rewrite sum_minus, sum_scal, (sum_one _ n (fun i => if (i =? n)%nat then f n s / N s * dr n j else 0)); [|exact Hn|].
      * rewrite Nat.eqb_refl. field. lra.
      * intros i _ D. apply Nat.eqb_neq in D. now rewrite D.
    + intros i Hi. unfold softmaxDerivative. cbv zeta. change (sum ndout (fun i0 => exp (r i0 s))) with (N s).
      rewrite (Nat.eqb_sym n i). destruct (Nat.eqb_spec i n) as [->|D]; unfold f; field; lra.
Qed.

Lemma upd_same p j : forall i, upd p j (p j) i = p i.
Proof. intro i. unfold upd. destruct (Nat.eqb_spec i j); now subst. Qed.

Lemma upd_derive p j i (s : R) : is_derive (fun t : R => upd p j t i) s (if (i =? j)%nat then 1 else 0).
Proof. unfold upd. destruct (i =? j)%nat; [exact (is_derive_id (K:=R_AbsRing) s) | apply @is_derive_const]. Qed.

Lemma score_partial offset ndim ndout x par j n :
  (n < ndout)%nat -> (j < npars offset ndim ndout)%nat ->
  is_derive (fun t : R => rasterResult offset ndim ndout x (upd par j t) n) (par j) (rasterPartial offset ndim ndout x n j).
Proof.
  intros Hn Hj.
  assert (C : is_derive (fun t : R => connectResult ndim x (upd par j t) n) (par j)
     (sum ndim (fun k => x k * (if (n * ndim + k =? j)%nat then 1 else 0)))).
  { unfold connectResult. apply sum_derive. intros k _. apply is_derive_scal. apply upd_derive. }
  assert (E : sum ndim (fun k => x k * (if (n * ndim + k =? j)%nat then 1 else 0)) = connectPartial ndim x n j).
  { unfold connectPartial. destruct (Nat.leb_spec (n * ndim) j) as [L1|L1]; [destruct (Nat.ltb_spec j (n * ndim + ndim)) as [L2|L2]|]; cbn [andb].
    - rewrite (sum_one _ (j - n * ndim)%nat); [|lia|].
      + replace (n * ndim + (j - n * ndim))%nat with j by lia. rewrite Nat.eqb_refl. lra.
      + intros k Hk D. destruct (Nat.eqb_spec (n * ndim + k) j); [lia|lra].
    - apply sum_zero. intros k Hk. destruct (Nat.eqb_spec (n * ndim + k) j); [lia|lra].
    - apply sum_zero. intros k Hk. destruct (Nat.eqb_spec (n * ndim + k) j); [lia|lra]. }
  rewrite E in C. unfold rasterResult, rasterPartial, npars in *. destruct offset; [|exact C].
  pose proof (upd_derive par j (ndim * ndout + n) (par j)) as U. pose proof (@is_derive_plus R_AbsRing _ _ _ _ _ _ C U) as Q.
  match goal with |- is_derive _ _ ?r => replace r with (plus (connectPartial ndim x n j) (if (ndim * ndout + n =? j)%nat then 1 else 0)); [exact Q|] end.
  match goal with |- plus ?a ?b = _ => change (plus a b) with (a + b) end. destruct (Nat.ltb_spec j (ndim * ndout)) as [L|L].
  - destruct (Nat.eqb_spec (ndim * ndout + n) j); [lia|lra].
  - assert (Z : connectPartial ndim x n j = 0).
    { unfold connectPartial. destruct (Nat.ltb_spec j (n * ndim + ndim)); [nia|]. now rewrite andb_false_r. }
    rewrite Z. destruct (Nat.eqb_spec (ndim * ndout + n) j), (Nat.eqb_spec (j - ndim * ndout) n); try lia; lra.
Qed.

(** The partials of every output are its derivatives to the parameters: with and without offset, normed or not, for every number of
    inputs and outputs. *)
Theorem C58_partials offset normed ndim ndout x par n j :
  (n < ndout)%nat -> (j < npars offset ndim ndout)%nat ->
  is_derive (fun t : R => baseResult offset normed ndim ndout x (upd par j t) n) (par j)
            (basePartial offset normed ndim ndout x par n j).
Proof.
  intros Hn Hj. unfold baseResult, basePartial.
  pose proof (pipe_derive (transOf normed ndout) ndout (fun i t => rasterResult offset ndim ndout x (upd par j t) i)
    (rasterPartial offset ndim ndout x) j n (par j) Hn) as Q.
  specialize (Q (fun i Hi => score_partial offset ndim ndout x par j i Hi Hj)).
  assert (E : forall i, rasterResult offset ndim ndout x (upd par j (par j)) i = rasterResult offset ndim ndout x par i).
  { intro i. unfold rasterResult, connectResult. rewrite (upd_same par j (ndim * ndout + i)).
    rewrite (sum_ext _ _ (fun k => x k * par (i * ndim + k)%nat)); [reflexivity|]. intros; now rewrite upd_same. }
  match type of Q with is_derive _ _ ?a => match goal with |- is_derive _ _ ?b => replace b with a; [exact Q|] end end.
  destruct (transOf normed ndout); cbn [pipe]; [reflexivity| now rewrite E |].
  apply sum_ext. intros i _. f_equal. unfold softmaxDerivative. cbv zeta. rewrite !E.
  rewrite (sum_ext _ _ (fun i0 => exp (rasterResult offset ndim ndout x par i0))); [reflexivity|]. intros; now rewrite E.
Qed.

(** The derivative of every output to every input. *)
Theorem C58_derivative offset normed ndim ndout x par n k :
  (n < ndout)%nat -> (k < ndim)%nat ->
  is_derive (fun t : R => baseResult offset normed ndim ndout (upd x k t) par n) (x k)
            (baseDerivative offset normed ndim ndout x par n k).
Proof.
  intros Hn Hk. unfold baseResult, baseDerivative.
  assert (D : forall i, (i < ndout)%nat ->
    is_derive (fun t : R => rasterResult offset ndim ndout (upd x k t) par i) (x k) (connectDerivative ndim par i k)).
  { intros i Hi.
    assert (C : is_derive (fun t : R => connectResult ndim (upd x k t) par i) (x k)
       (sum ndim (fun m => (if (m =? k)%nat then 1 else 0) * par (i * ndim + m)%nat))).
    { unfold connectResult. apply sum_derive. intros m _.
      apply (is_derive_ext (fun t : R => par (i * ndim + m)%nat * upd x k t m)); [intro; apply Rmult_comm|].
      rewrite Rmult_comm. apply is_derive_scal. apply upd_derive. }
    rewrite (sum_one _ k) in C; [|exact Hk|intros m _ Hm; apply Nat.eqb_neq in Hm; rewrite Hm; lra].
    rewrite Nat.eqb_refl, Rmult_1_l in C. unfold rasterResult, connectDerivative. destruct offset; [|exact C].
    pose proof (@is_derive_plus R_AbsRing _ _ _ _ _ _ C (@is_derive_const R_AbsRing _ (par (ndim * ndout + i)%nat) (x k))) as Q.
    unfold plus, zero in Q; cbn in Q. now rewrite Rplus_0_r in Q. }
  pose proof (pipe_derive (transOf normed ndout) ndout (fun i t => rasterResult offset ndim ndout (upd x k t) par i)
    (connectDerivative ndim par) k n (x k) Hn D) as Q.
  assert (E : forall i, rasterResult offset ndim ndout (upd x k (x k)) par i = rasterResult offset ndim ndout x par i).
  { intro i. unfold rasterResult, connectResult.
    rewrite (sum_ext _ _ (fun m => x m * par (i * ndim + m)%nat)); [reflexivity|]. intros; now rewrite upd_same. }
  match type of Q with is_derive _ _ ?a => match goal with |- is_derive _ _ ?b => replace b with a; [exact Q|] end end.
  destruct (transOf normed ndout); cbn [pipe]; [reflexivity| now rewrite E |].
  apply sum_ext. intros i _. f_equal. unfold softmaxDerivative. cbv zeta. rewrite !E.
  rewrite (sum_ext _ _ (fun i0 => exp (rasterResult offset ndim ndout x par i0))); [reflexivity|]. intros; now rewrite E.
Qed.

(** The partials of the normalised outputs to one parameter sum to zero. *)
Theorem C58_partials_sum offset ndim ndout x par j :
  (1 < ndout)%nat -> (j < npars offset ndim ndout)%nat ->
  sum ndout (fun n => basePartial offset true ndim ndout x par n j) = 0.
Proof.
  intros H Hj.
  assert (A : is_derive (fun t : R => sum ndout (fun n => baseResult offset true ndim ndout x (upd par j t) n)) (par j)
     (sum ndout (fun n => basePartial offset true ndim ndout x par n j))).
  { apply sum_derive. intros n Hn. now apply C58_partials. }
  assert (B : is_derive (fun t : R => sum ndout (fun n => baseResult offset true ndim ndout x (upd par j t) n)) (par j) 0).
  { apply (is_derive_ext (fun _ : R => 1)); [|apply @is_derive_const].
    intro t. symmetry. apply (proj2 (C58_probabilities offset ndim ndout x (upd par j t) H)). }
  rewrite <- (is_derive_unique _ _ _ A). now apply is_derive_unique.
Qed.

(** Without a list of parameters the partial has one column per parameter, in order. *)
Theorem C58_columns (offset normed : bool) ndim ndout x par n :
  length (partialRow offset normed ndim ndout x par None n) = npars offset ndim ndout /\
  forall j, (j < npars offset ndim ndout)%nat ->
    nth j (partialRow offset normed ndim ndout x par None n) 0 = basePartial offset normed ndim ndout x par n j.
Proof.
  unfold partialRow. rewrite map_length, seq_length. split; [reflexivity|]. intros j Hj.
  rewrite (nth_indep _ 0 (basePartial offset normed ndim ndout x par n 0)) by (rewrite map_length, seq_length; exact Hj).
  rewrite (map_nth (fun j => basePartial offset normed ndim ndout x par n j)), seq_nth by exact Hj. reflexivity.
Qed.

(** The method basePartial of SoftMaxModel takes a list of the parameters that are wanted and does not look at it: when parameters of the
    model are kept fixed the partial still has a column for every parameter, so that column 0 is not that of the first free parameter. *)
Theorem C58_parlist_refuted :
  exists offset normed ndim ndout x par parlist n,
    (n < ndout)%nat /\ (forall j, In j parlist -> (j < npars offset ndim ndout)%nat) /\
    length (partialRow offset normed ndim ndout x par (Some parlist) n) <> length parlist /\
    nth 0 (partialRow offset normed ndim ndout x par (Some parlist) n) 0 <>
    basePartial offset normed ndim ndout x par n (nth 0 parlist 0%nat).
Proof.
  exists false, false, 2%nat, 1%nat, (fun i => INR i), (fun _ => 0), [1%nat], 0%nat.
  split; [lia|]. split; [intros j [<-|[]]; cbn; lia|]. cbn. split; [lia|]. lra.
Qed.

(** A parameter that multiplies input i has the unit 1 / xUnit[i]. *)
Theorem C58_unit ndim ndout n k :
  (n < ndout)%nat -> (k < ndim)%nat -> baseParameterUnit ndim ndout (n * ndim + k) = Some k.
Proof.
  intros Hn Hk. unfold baseParameterUnit. destruct (Nat.ltb_spec (ndim * ndout) (n * ndim + k)); [nia|].
  destruct (Nat.eqb_spec ndim 1); f_equal; [lia|]. rewrite Nat.add_comm, Nat.mod_add, Nat.mod_small; lia.
Qed.

(** The offsets have no unit, except that baseParameterUnit compares k > ndim * ndout where k >= ndim * ndout is meant: the first offset
    has the unit of the parameters of the first input, for every number of inputs and outputs. *)
Theorem C58_unit_refuted ndim ndout :
  (0 < ndim)%nat ->
  baseParameterUnit ndim ndout (ndim * ndout) = Some 0%nat /\
  forall n, (0 < n)%nat -> baseParameterUnit ndim ndout (ndim * ndout + n) = None.
Proof.
  intro H. unfold baseParameterUnit. split.
  - rewrite Nat.ltb_irrefl. destruct (Nat.eqb_spec ndim 1); [reflexivity|]. rewrite Nat.mul_comm, Nat.mod_mul; [reflexivity|lia].
  - intros n Hn. destruct (Nat.ltb_spec (ndim * ndout) (ndim * ndout + n)); [reflexivity|lia].
Qed.

(** The other transfer functions that can be used: arctan, and the step function away from its step. *)
Theorem C58_transfer (x : R) :
  is_derive atan x (arctanDerivative x) /\ (x <> 0 -> is_derive heaviside x (heavisideDerivative x)) /\
  (heaviside x = 1 <-> 0 <= x).
Proof.
  split; [|split].
  - unfold arctanDerivative. evar (l : R). match goal with |- is_derive _ _ ?r => replace r with l; unfold l end.
    + apply is_derive_Reals. apply derivable_pt_lim_atan.
    + unfold Rsqr. field. nra.
  - intro H. unfold heavisideDerivative. destruct (Rlt_dec 0 x) as [P|P].
    + apply (is_derive_ext_loc (fun _ : R => 1)); [|apply @is_derive_const].
      apply (filter_imp (fun y => 0 < y)); [|now apply (open_gt 0)].
      intros y Hy. unfold heaviside. destruct (Rle_dec 0 y); [reflexivity|lra].
    + apply (is_derive_ext_loc (fun _ : R => 0)); [|apply @is_derive_const].
      apply (filter_imp (fun y => y < 0)); [|apply (open_lt 0); lra].
      intros y Hy. unfold heaviside. destruct (Rle_dec 0 y); [lra|reflexivity].
  - unfold heaviside. destruct (Rle_dec 0 x); split; intro; lra.
Qed.

(** A row of partials has a column for each weight and for each offset of an output, and no parameter beyond them matters. *)
Theorem C58_size (offset normed : bool) ndim ndout x par parlist n : let np := (ndim * ndout + if offset then ndout else 0)%nat in
  length (partialRow offset normed ndim ndout x par parlist n) = np /\
  (forall j, (j < np)%nat -> nth j (partialRow offset normed ndim ndout x par parlist n) 0 = basePartial offset normed ndim ndout x par n j) /\
  forall par', (n < ndout)%nat -> (forall j, (j < np)%nat -> par' j = par j) ->
    baseResult offset normed ndim ndout x par' n = baseResult offset normed ndim ndout x par n.
Proof.
  intro np. assert (E : npars offset ndim ndout = np) by (unfold npars, np; destruct offset; lia). unfold partialRow. rewrite E.
  split; [rewrite map_length, seq_length; reflexivity|]. split.
  - intros j Hj. set (f := fun j => _). rewrite (nth_indep _ 0 (f 0%nat)) by (rewrite map_length, seq_length; exact Hj).
    rewrite map_nth, seq_nth by exact Hj. reflexivity.
  - intros par' Hn H. assert (Q : forall i, (i < ndout)%nat -> rasterResult offset ndim ndout x par' i = rasterResult offset ndim ndout x par i).
    { intros i Hi. rewrite !raster_score. unfold score. f_equal.
      - apply sum_ext. intros k Hk. rewrite H; [reflexivity|]. unfold np. nia.
      - destruct offset; [|reflexivity]. apply H. unfold np. lia. }
    unfold baseResult, transOf, transResult. destruct normed; [|apply Q; exact Hn]. destruct (ndout =? 1)%nat; [rewrite Q by exact Hn; reflexivity|].
    unfold softmax. rewrite Q by exact Hn. f_equal. apply sum_ext. intros i Hi. rewrite Q by exact Hi. reflexivity.
Qed.
Print Assumptions C58_size.

(** Three categories, two inputs, with offset: all scores zero, so that every category has probability 1/3, and the partial of the
    first to its own offset is 2/9, to that of another one -1/9. *)
Example C58_example :
  let x i := INR i + 1 in let par (_ : nat) := 0 in
  npars true 2 3 = 9%nat /\ baseResult true true 2 3 x par 1 = 1 / 3 /\
  basePartial true true 2 3 x par 0 6 = 2 / 9 /\ basePartial true true 2 3 x par 0 7 = - 1 / 9 /\
  basePartial true true 2 3 x par 0 1 = 4 / 9.
Proof.
  cbv zeta. unfold baseResult, basePartial, pipe, transOf, transResult, softmax, softmaxDerivative, rasterResult, rasterPartial, connectResult, connectPartial; cbn -[exp INR].
  replace (0 + (INR 0 + 1) * 0 + (INR 1 + 1) * 0 + 0) with 0 by ring. rewrite exp_0. change (INR 1) with 1. change (INR 0) with 0.
  repeat match goal with |- _ /\ _ => split end; try reflexivity; field.
Qed.

Print Assumptions C58_probabilities.
Print Assumptions C58_single.
Print Assumptions C58_plain.
Print Assumptions C58_order.
Print Assumptions C58_shift.
Print Assumptions C58_partials.
Print Assumptions C58_derivative.
Print Assumptions C58_partials_sum.
Print Assumptions C58_columns.
Print Assumptions C58_parlist_refuted.
Print Assumptions C58_unit.
Print Assumptions C58_unit_refuted.
Print Assumptions C58_transfer.
