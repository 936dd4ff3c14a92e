(** Gaussian integrals in any number of dimensions. *)
From Coquelicot Require Import Coquelicot.
From Coq Require Import List Arith Reals Lia Lra FunctionalExtensionality.
From Verif Require Import L_Sum L_Erf P_Kernint S_Evidence.
Local Open Scope R_scope.

Lemma gi_lim_m : is_lim gi m_infty (- (sqrt PI / 2)).
Proof.
  apply (is_lim_ext (fun x => - gi (- x))); [intro y; rewrite gi_opp; lra|].
  apply (is_lim_opp (fun x => gi (- x)) m_infty (sqrt PI / 2)).
  apply (is_lim_comp gi (fun x => - x) m_infty (sqrt PI / 2) p_infty).
  - apply gi_lim.
  - apply (is_lim_opp (fun x => x) m_infty m_infty). apply is_lim_id.
  - exists 0. intros y _. discriminate.
Qed.

(** affine argument with a positive slope *)
Lemma lim_affine (a b : R) (x : Rbar) : 0 < a -> (x = p_infty \/ x = m_infty) -> is_lim (fun t => a * t + b) x x.
Proof.
  intros A H.
  assert (L : is_lim (fun t => a * t) x x).
  { evar_last; [apply (is_lim_scal_l (fun t : R => t) a x x); apply is_lim_id|].
    destruct H; subst; cbn; destruct (Rle_dec 0 a) as [Z|Z]; try lra; destruct (Rle_lt_or_eq_dec 0 a Z); try reflexivity; lra. }
  evar_last; [apply (is_lim_plus _ _ x x b x L); [apply is_lim_const|]|].
  - destruct H; subst; reflexivity.
  - destruct H; subst; reflexivity.
Qed.

Lemma whole_derive (F f : R -> R) (A B : R) :
  (forall t, is_derive F t (f t)) -> (forall t, continuous f t) -> is_lim F m_infty A -> is_lim F p_infty B -> whole f (B - A).
Proof.
  intros D C LA LB. unfold whole.
  assert (E : forall t, Derive F t = f t) by (intro t; apply is_derive_unique, D).
  apply (is_RInt_gen_ext (Derive F)).
  - apply filter_forall. intros [u v] t _. apply E.
  - apply is_RInt_gen_Derive.
    + apply filter_forall. intros [u v] t _. exists (f t). apply D.
    + apply filter_forall. intros [u v] t _. apply (continuous_ext f); [intro; now rewrite E | apply C].
    + exact LA.
    + exact LB.
Qed.

Lemma whole_gauss (c a b s : R) : 0 < a -> 0 < s ->
  whole (fun t => c * exp (- (((a * t + b) / s) * ((a * t + b) / s)) / 2)) (c * (s * sqrt (2 * PI) / a)).
Proof.
  intros A Ss. assert (S2 : 0 < sqrt 2) by (apply sqrt_lt_R0; lra).
  assert (SS : sqrt 2 * sqrt 2 = 2) by (apply sqrt_sqrt; lra).
  pose (q := a / (s * sqrt 2)). pose (d := b / (s * sqrt 2)).
  assert (Q : 0 < q) by (apply Rdiv_lt_0_compat; [lra | now apply Rmult_lt_0_compat]).
  pose (F := fun t : R => c / q * gi (q * t + d)).
  assert (L : forall (x : Rbar) (l : R), is_lim gi x l -> (x = p_infty \/ x = m_infty) -> is_lim F x (c / q * l)).
  { intros x l H X. apply (is_lim_scal_l (fun t => gi (q * t + d)) (c / q) x l).
    apply (is_lim_comp gi (fun t => q * t + d) x l x H); [now apply lim_affine|].
    destruct X; subst; exists 0; intros y _; discriminate. }
  assert (DF : forall t, is_derive F t (c * exp (- (((a * t + b) / s) * ((a * t + b) / s)) / 2))).
  { intro t. evar_last.
    - apply (is_derive_scal (fun t => gi (q * t + d)) t (c / q)). apply (is_derive_comp gi (fun t : R => q * t + d)); [apply gi_derive|].
      auto_derive; [exact Logic.I | reflexivity].
    - unfold scal; cbn; unfold mult; cbn. unfold gs. replace (c / q * (q * 1 * exp (- ((q * t + d) * (q * t + d))))) with (c * exp (- ((q * t + d) * (q * t + d)))) by (field; lra).
      f_equal. f_equal. unfold q, d. replace (a / (s * sqrt 2) * t + b / (s * sqrt 2)) with ((a * t + b) / s * / sqrt 2) by (field; split; lra).
      replace ((a * t + b) / s * / sqrt 2 * ((a * t + b) / s * / sqrt 2)) with ((a * t + b) / s * ((a * t + b) / s) * / (sqrt 2 * sqrt 2)) by (field; split; lra).
      rewrite SS. field. lra. }
  replace (c * (s * sqrt (2 * PI) / a)) with (c / q * (sqrt PI / 2) - c / q * - (sqrt PI / 2)).
  - apply (whole_derive F).
    + exact DF.
    + intro t. apply (ex_derive_continuous (V := R_NormedModule)). auto_derive. exact Logic.I.
    + apply (L m_infty); [apply gi_lim_m | now right].
    + apply (L p_infty); [apply gi_lim | now left].
  - unfold q. rewrite sqrt_mult by (generalize PI_RGT_0; lra). replace (c * (s * (sqrt 2 * sqrt PI) / a)) with (c * (s * (sqrt 2 * sqrt PI)) / a) by (field; lra). field. lra.
Qed.

(** a positive definite quadratic form *)
Lemma quad_cholesky n H L (d : nat -> R) : cholesky n H L ->
  sum n (fun j => sum n (fun k => d j * H j k * d k)) = sum n (fun l => sum n (fun j => L j l * d j) * sum n (fun j => L j l * d j)).
Proof.
  intros (_ & _ & E).
  rewrite (sum_ext n (fun l => _ * _) (fun l => sum n (fun j => sum n (fun k => d j * (L j l * L k l) * d k)))).
  - symmetry. rewrite sum_swap. apply sum_ext. intros j Hj. rewrite sum_swap. apply sum_ext. intros k Hk.
    rewrite (E j k Hj Hk), sum_scal_r, sum_scal. reflexivity.
  - intros l _. rewrite <- sum_scal_r. apply sum_ext. intros j _. rewrite <- sum_scal. apply sum_ext. intros k _. ring.
Qed.

Section Gauss.
  Context (n : nat) (H L : nat -> nat -> R) (C : cholesky n H L) (c s : R) (Sp : 0 < s) (ts : nat -> R).

  Definition uu (p : nat -> R) (l : nat) : R := sum n (fun j => L j l * (p j - ts j)).
  Definition rest (k : nat) (p : nat -> R) : R := sum n (fun l => if (k <=? l)%nat then uu p l * uu p l else 0).
  Definition gk (k : nat) (p : nat -> R) : R := c * prod k (fun l => s * sqrt (2 * PI) / L l l) * exp (- rest k p / (s * s) / 2).

  Lemma uu_put p k t l : (k < l)%nat -> uu (put p k t) l = uu p l.
  Proof using C.
    intro K. unfold uu. apply sum_ext. intros j _. unfold put. destruct (Nat.eqb_spec j k) as [->|D]; [|reflexivity].
    destruct C as (Z & _). rewrite Z by exact K. lra.
  Qed.

  Lemma uu_self p k : (k < n)%nat -> exists b, forall t, uu (put p k t) k = L k k * t + b.
  Proof.
    intro K. exists (uu (put p k 0) k). intro t. unfold uu.
    rewrite (sum_ext n (fun j => L j k * (put p k t j - ts j))
      (fun j => (if (j =? k)%nat then L k k * t else 0) + L j k * (put p k 0 j - ts j))).
    - rewrite sum_plus, (sum_one n k (fun j => if (j =? k)%nat then L k k * t else 0)); [now rewrite Nat.eqb_refl|exact K|].
      intros i _ D. apply Nat.eqb_neq in D. now rewrite D.
    - intros j _. unfold put. destruct (Nat.eqb_spec j k) as [->|D]; lra.
  Qed.

  Lemma rest_split k p : (k < n)%nat -> rest k p = uu p k * uu p k + rest (S k) p.
  Proof.
    intro K. unfold rest.
    rewrite (sum_ext n (fun l => if (k <=? l)%nat then _ else 0)
      (fun l => (if (l =? k)%nat then uu p k * uu p k else 0) + (if (S k <=? l)%nat then uu p l * uu p l else 0))).
    - rewrite sum_plus, (sum_one n k (fun j => if (j =? k)%nat then uu p k * uu p k else 0)); [now rewrite Nat.eqb_refl|exact K|].
      intros i _ D. apply Nat.eqb_neq in D. now rewrite D.
    - intros l _. destruct (Nat.leb_spec k l), (Nat.leb_spec (S k) l), (Nat.eqb_spec l k); subst; try lia; lra.
  Qed.

  Lemma integral_gk k : (k <= n)%nat -> integral k (gk 0) (gk k).
  Proof using C Sp.
    induction k as [|k IH]; intro K; [constructor|].
    apply (int_next k _ (gk k)); [apply IH; lia|]. intro p.
    destruct (uu_self p k ltac:(lia)) as [b Hb].
    assert (A : 0 < L k k) by (apply C; lia).
    pose (c' := c * prod k (fun l => s * sqrt (2 * PI) / L l l) * exp (- rest (S k) p / (s * s) / 2)).
    replace (gk (S k) p) with (c' * (s * sqrt (2 * PI) / L k k)) by (unfold gk, c'; cbn [prod]; ring).
    replace (fun t => gk k (put p k t)) with (fun t => c' * exp (- (((L k k * t + b) / s) * ((L k k * t + b) / s)) / 2)); [now apply whole_gauss|].
    apply functional_extensionality. intro t. unfold gk, c'. rewrite (rest_split k (put p k t)) by lia. rewrite Hb.
    assert (R1 : rest (S k) (put p k t) = rest (S k) p).
    { unfold rest. apply sum_ext. intros l _. destruct (Nat.leb_spec (S k) l); [now rewrite uu_put by lia | reflexivity]. }
    rewrite R1. rewrite !Rmult_assoc. f_equal. f_equal. rewrite <- exp_plus. f_equal. field. lra.
  Qed.

  Lemma rest_0 p : rest 0 p = sum n (fun j => sum n (fun k => (p j - ts j) * H j k * (p k - ts k))).
  Proof using C. symmetry. apply (quad_cholesky n H L (fun j => p j - ts j) C). Qed.

  Lemma rest_n p : rest n p = 0.
  Proof. unfold rest. apply sum_zero. intros l Hl. destruct (Nat.leb_spec n l); [lia|reflexivity]. Qed.

  Lemma gauss_integral :
    integral n (fun p => c * exp (- sum n (fun j => sum n (fun k => (p j - ts j) * H j k * (p k - ts k))) / (s * s) / 2))
               (fun _ => c * prod n (fun l => s * sqrt (2 * PI) / L l l)).
  Proof using C Sp.
    pose proof (integral_gk n (le_n n)) as Q.
    assert (E0 : gk 0 = (fun p => c * exp (- sum n (fun j => sum n (fun k => (p j - ts j) * H j k * (p k - ts k))) / (s * s) / 2))).
    { apply functional_extensionality. intro p. unfold gk. rewrite rest_0. cbn [prod]. ring. }
    assert (E1 : gk n = fun _ => c * prod n (fun l => s * sqrt (2 * PI) / L l l)).
    { apply functional_extensionality. intro p. unfold gk. rewrite rest_n. replace (- 0 / (s * s) / 2) with 0 by (field; lra). rewrite exp_0. ring. }
    rewrite E0, E1 in Q. exact Q.
  Qed.
End Gauss.

Lemma prod_pos n f : (forall l, (l < n)%nat -> 0 < f l) -> 0 < prod n f.
Proof. induction n as [|n IH]; intro H; cbn; [lra|]. apply Rmult_lt_0_compat; [apply IH; auto | apply H; lia]. Qed.

Lemma ln_prod n f : (forall l, (l < n)%nat -> 0 < f l) -> ln (prod n f) = sum n (fun l => ln (f l)).
Proof.
  induction n as [|n IH]; intro H; cbn; [apply ln_1|]. rewrite ln_mult; [rewrite IH; auto | apply prod_pos; auto | apply H; lia].
Qed.

Lemma ln_sq x : 0 < x -> ln (x * x) = 2 * ln x.
Proof. intro H. rewrite ln_mult by exact H. lra. Qed.

Lemma ln_sqrt_ x : 0 < x -> ln (sqrt x) = ln x / 2.
Proof. intro H. rewrite <- (sqrt_sqrt x) at 2 by lra. rewrite ln_sq by now apply sqrt_lt_R0. lra. Qed.

Lemma ln_normal mu s y : 0 < s -> ln (normal mu s y) = - (1 / 2) * (ln (2 * PI) + ((y - mu) / s) * ((y - mu) / s)) - ln s.
Proof.
  intro H. unfold normal. pose proof PI_RGT_0. assert (0 < sqrt (2 * PI)) by (apply sqrt_lt_R0; lra).
  unfold Rdiv at 1. rewrite ln_mult; [|apply exp_pos|apply Rinv_0_lt_compat; nra].
  rewrite ln_exp, ln_Rinv, ln_mult, ln_sqrt_; nra.
Qed.

Lemma sum_const n c : sum n (fun _ => c) = INR n * c.
Proof. induction n as [|n IH]; cbn [sum]; [cbn; lra|]. rewrite IH, S_INR. lra. Qed.
