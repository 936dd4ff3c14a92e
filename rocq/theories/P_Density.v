(** The integral of the exponential power function. *)
From Coquelicot Require Import Coquelicot.
From Coq Require Import Reals Lia Lra.
From Verif Require Import S_Evidence P_Evidence L_Whole M_Errdis P_Errdis.
Local Open Scope R_scope.

(** Euler's integral: G is the gamma function of a *)
Definition isGamma (a G : R) : Prop :=
  is_RInt_gen (fun u => Rpower u (a - 1) * exp (- u)) (at_right 0) (Rbar_locally p_infty) G.

Lemma isGamma_elim a G : isGamma a G -> forall eps, 0 < eps -> exists d M, 0 < d /\
  forall x y, 0 < x < d -> M < y -> exists i, is_RInt (fun u => Rpower u (a - 1) * exp (- u)) x y i /\ Rabs (i - G) < eps.
Proof.
  intros H eps E. assert (L : locally G (fun y => Rabs (y - G) < eps)) by (exists (mkposreal eps E); intros y Y; exact Y).
  destruct (H _ L) as [U V HU HV K]. destruct HU as [d Hd]. destruct HV as [M HM].
  exists d, M. split; [apply cond_pos|]. intros x y X Y.
  destruct (K x y) as (i & I & J).
  - apply Hd; [|apply X]. change (Rabs (x - 0) < d). rewrite Rminus_0_r, Rabs_right by lra. apply X.
  - apply HM. exact Y.
  - exists i. split; assumption.
Qed.

Lemma isGamma_intro (f F : R -> R) a (A B : R) : (forall u, 0 < u -> f u = Rpower u (a - 1) * exp (- u)) ->
  (forall u, is_derive F u (f u)) -> (forall u, continuous f u) -> F 0 = A -> is_lim F p_infty B -> isGamma a (B - A).
Proof.
  intros Ef D C FA FB. unfold isGamma.
  assert (E : forall t, Derive F t = f t) by (intro t; apply is_derive_unique, D).
  apply (is_RInt_gen_ext (Derive F)).
  - exists (fun x => 0 < x) (fun y => 0 < y).
    + exists (mkposreal 1 ltac:(lra)). intros y _ Y. exact Y.
    + exists 0. intros y Y. exact Y.
    + intros u v U V t T. rewrite E. apply Ef. cbn [fst snd] in T. generalize (Rmin_glb_lt u v 0 U V). lra.
  - apply is_RInt_gen_Derive.
    + apply filter_forall. intros [u v] t _. exists (f t). apply D.
    + apply filter_forall. intros [u v] t _. apply (continuous_ext f); [intro; now rewrite E | apply C].
    + rewrite <- FA. apply (filterlim_filter_le_1 (G := at_right 0) (F := locally 0) (H := locally (F 0)) F); [apply filter_le_within|].
      apply (ex_derive_continuous (V := R_NormedModule)). exists (f 0). apply D.
    + exact FB.
Qed.

Lemma npow_cont (e x : R) : 0 < e -> continuous (fun t => npow (Rabs t) e) x.
Proof.
  intro E. destruct (Req_dec x 0) as [->|N].
  - intros P [eps HP]. cbn. 
    exists (mkposreal (Rpower eps (/ e)) ltac:(apply exp_pos)). intros y Y. apply HP.
    change (Rabs (y - 0) < Rpower eps (/ e)) in Y. change (Rabs (npow (Rabs y) e - npow (Rabs 0) e) < eps).
    rewrite Rminus_0_r in Y. rewrite Rabs_R0. unfold npow at 2. destruct (Req_EM_T 0 0) as [_|F]; [|now contradict F].
    rewrite Rminus_0_r. unfold npow. destruct (Req_EM_T (Rabs y) 0) as [_|Ny]; [rewrite Rabs_R0; apply cond_pos|].
    rewrite Rabs_right by (apply Rle_ge, Rlt_le, exp_pos).
    assert (P0 : 0 < Rabs y) by (generalize (Rabs_pos y); lra).
    assert (L : Rpower (Rabs y) e < Rpower (Rpower eps (/ e)) e).
    { unfold Rpower at 1 2. apply exp_increasing. apply Rmult_lt_compat_l; [exact E|]. apply ln_increasing; assumption. }
    rewrite Rpower_mult, Rinv_l, Rpower_1 in L by (try apply cond_pos; lra). exact L.
  - assert (A : 0 < Rabs x) by (apply Rabs_pos_lt; exact N).
    apply (continuous_ext_loc (T := R_UniformSpace) (U := R_UniformSpace) (fun t : R => npow (Rabs t) e) (fun t : R => exp (e * ln (Rabs t)))).
    + exists (mkposreal _ A). intros y Y. change (Rabs (y - x) < Rabs x) in Y. unfold npow.
      destruct (Req_EM_T (Rabs y) 0) as [Z|Z]; [|reflexivity].
      exfalso. assert (y = 0) by (destruct (Req_dec y 0); [assumption | generalize (Rabs_pos_lt y); lra]). subst.
      rewrite Rminus_0_l, Rabs_Ropp in Y. lra.
    + apply (continuous_comp (fun t => Rabs t) (fun u => exp (e * ln u))); [apply continuous_Rabs|].
      apply (ex_derive_continuous (V := R_NormedModule)). auto_derive. exact A.
Qed.

Lemma expo_cont k p s x : 0 < p -> continuous (fun t => t ^ k * exp (- npow (Rabs (t / s)) p)) x.
Proof.
  intro P. apply (continuous_mult (K := R_AbsRing)).
  - apply (ex_derive_continuous (V := R_NormedModule)). auto_derive. exact Logic.I.
  - apply (continuous_comp (fun t => - npow (Rabs (t / s)) p) exp).
    + apply (continuous_opp (V := R_NormedModule)). apply (continuous_comp (fun t => t / s) (fun u => npow (Rabs u) p)).
      * apply (ex_derive_continuous (V := R_NormedModule)). auto_derive. exact Logic.I.
      * now apply npow_cont.
    + apply (ex_derive_continuous (V := R_NormedModule)). auto_derive. exact Logic.I.
Qed.

Lemma expo_half (k : nat) (p s G : R) : 0 < p -> 0 < s -> isGamma ((INR k + 1) / p) G ->
  half (fun t => t ^ k * exp (- npow (t / s) p)) (s ^ (k + 1) / p * G).
Proof.
  intros P S H. apply (half_ext (fun t => t ^ k * exp (- npow (Rabs (t / s)) p))).
  { intros t T. rewrite (Rabs_right (t / s)); [reflexivity|]. apply Rle_ge, Rlt_le, Rdiv_lt_0_compat; lra. }
  set (h := fun t => t ^ k * exp (- npow (Rabs (t / s)) p)).
  assert (Hc : forall x, continuous h x) by (intro x; now apply expo_cont).
  set (c := s ^ (k + 1) / p). assert (C0 : 0 < c) by (apply Rdiv_lt_0_compat; [apply pow_lt|]; assumption).
  intros eps E.
  destruct (isGamma_elim _ _ H (eps / 2 / c)) as (d & M & D & K); [apply Rdiv_lt_0_compat; [lra | exact C0]|].
  assert (Kd : 0 < Rpower d (/ p)) by apply exp_pos.
  assert (Km : 0 < Rpower (Rmax M 1) (/ p)) by apply exp_pos.
  (* start of the interval *)
  set (q := Rmin (Rmin 1 (eps / 2)) (s * Rpower d (/ p)) / 2).
  assert (Q : 0 < q /\ q < 1 /\ q < eps / 2 /\ q < s * Rpower d (/ p)).
  { assert (0 < s * Rpower d (/ p)) by now apply Rmult_lt_0_compat.
    generalize (Rmin_l (Rmin 1 (eps / 2)) (s * Rpower d (/ p))) (Rmin_r (Rmin 1 (eps / 2)) (s * Rpower d (/ p))) (Rmin_l 1 (eps / 2)) (Rmin_r 1 (eps / 2)).
    assert (0 < Rmin (Rmin 1 (eps / 2)) (s * Rpower d (/ p))) by (repeat apply Rmin_glb_lt; lra).
    unfold q. lra. }
  destruct Q as (Q0 & Q1 & Q2 & Q3).
  exists (Rmax 1 (s * Rpower (Rmax M 1) (/ p))). split; [generalize (Rmax_l 1 (s * Rpower (Rmax M 1) (/ p))); lra|].
  intros b B. assert (B1 := Rle_lt_trans _ _ _ (Rmax_l 1 (s * Rpower (Rmax M 1) (/ p))) B).
  assert (B2 := Rle_lt_trans _ _ _ (Rmax_r 1 (s * Rpower (Rmax M 1) (/ p))) B). clear B.
  set (g := fun t => exp (p * ln (t / s))). set (dg := fun t => p / t * exp (p * ln (t / s))).
  assert (Gq : 0 < g q < d).
  { split; [apply exp_pos|]. unfold g. apply Rlt_le_trans with (Rpower (Rpower d (/ p)) p).
    - unfold Rpower at 1. apply exp_increasing, Rmult_lt_compat_l; [exact P|]. apply ln_increasing; [now apply Rdiv_lt_0_compat|].
      apply (Rmult_lt_reg_l s); [exact S|]. replace (s * (q / s)) with q by (field; lra). exact Q3.
    - rewrite Rpower_mult, Rinv_l, Rpower_1 by lra. lra. }
  assert (Gb : M < g b).
  { apply Rle_lt_trans with (Rmax M 1); [apply Rmax_l|]. apply Rle_lt_trans with (Rpower (Rpower (Rmax M 1) (/ p)) p).
    - rewrite Rpower_mult, Rinv_l, Rpower_1 by (generalize (Rmax_r M 1); lra). lra.
    - unfold Rpower at 1. apply exp_increasing, Rmult_lt_compat_l; [exact P|]. apply ln_increasing; [exact Km|].
      apply (Rmult_lt_reg_l s); [exact S|]. replace (s * (b / s)) with b by (field; lra). exact B2. }
  destruct (K (g q) (g b) Gq Gb) as (i & I & J).
  assert (Ih : is_RInt h q b (c * i)).
  { assert (X := is_RInt_comp (V := R_CompleteNormedModule) (fun u => Rpower u ((INR k + 1) / p - 1) * exp (- u)) g dg q b).
    rewrite Rmin_left, Rmax_right in X by lra.
    assert (X1 : is_RInt (fun y => scal (dg y) (Rpower (g y) ((INR k + 1) / p - 1) * exp (- g y))) q b (RInt (fun u => Rpower u ((INR k + 1) / p - 1) * exp (- u)) (g q) (g b))).
    { apply X.
      - intros x Hx. apply (ex_derive_continuous (V := R_NormedModule)). unfold Rpower. auto_derive. apply exp_pos.
      - intros x Hx. assert (0 < x / s) by (apply Rdiv_lt_0_compat; lra). split.
        + unfold g, dg. auto_derive; [exact H0|]. match goal with |- ?a = ?b => change (@eq R a b) end. unfold Rdiv. field. split; lra.
        + unfold dg. apply (ex_derive_continuous (V := R_NormedModule)). auto_derive. repeat split; try exact H0; lra. }
    clear X. rewrite (is_RInt_unique _ _ _ _ I) in X1.
    apply (is_RInt_scal (V := R_NormedModule) _ _ _ c) in X1. apply (is_RInt_ext (V := R_NormedModule)) with (2 := X1).
    intros x Hx. rewrite Rmin_left, Rmax_right in Hx by lra. unfold scal; cbn; unfold mult; cbn.
    assert (Xs : 0 < x / s) by (apply Rdiv_lt_0_compat; lra).
    unfold h. rewrite Rabs_right by lra. unfold npow. destruct (Req_EM_T (x / s) 0); [lra|].
    change (Rpower (x / s) p) with (g x). rewrite <- !Rmult_assoc. f_equal.
    unfold dg, g, Rpower. rewrite ln_exp.
    assert (Y : exp (p * ln (x / s)) * exp (((INR k + 1) / p - 1) * (p * ln (x / s))) = (x / s) ^ (k + 1)).
    { rewrite <- exp_plus. replace (p * ln (x / s) + ((INR k + 1) / p - 1) * (p * ln (x / s))) with (INR (k + 1) * ln (x / s)) by (rewrite plus_INR; cbn; field; lra).
      exact (Rpower_pow (k + 1) (x / s) Xs). }
    transitivity (c * (p / x) * (exp (p * ln (x / s)) * exp (((INR k + 1) / p - 1) * (p * ln (x / s))))); [ring|].
    rewrite Y. unfold c. unfold Rdiv at 3. rewrite Rpow_mult_distr, pow_inv. rewrite !Nat.add_1_r. cbn [pow]. field.
    repeat split; try lra; apply pow_nonzero; lra. }
  assert (E0 : ex_RInt h 0 q) by (apply (ex_RInt_continuous (V := R_CompleteNormedModule)); intros; apply Hc).
  exists (RInt h 0 q + c * i). split.
  - apply (is_RInt_Chasles (V := R_NormedModule) h 0 q b); [exact (RInt_correct (V := R_CompleteNormedModule) h 0 q E0) | exact Ih].
  - assert (Lo : 0 <= RInt h 0 q).
    { apply RInt_ge_0; [lra | exact E0|]. intros x Hx. unfold h. apply Rmult_le_pos; [apply pow_le; lra | apply Rlt_le, exp_pos]. }
    assert (Up : RInt h 0 q <= q).
    { replace q with (RInt (fun _ => 1) 0 q) at 2 by (rewrite RInt_const; unfold scal; cbn; unfold mult; cbn; ring).
      apply RInt_le; [lra | exact E0 | apply ex_RInt_const|]. intros x Hx. unfold h.
      assert (0 <= x ^ k <= 1) by (split; [apply pow_le; lra | rewrite <- (pow1 k); apply pow_incr; lra]).
      assert (0 <= npow (Rabs (x / s)) p) by (unfold npow; destruct (Req_EM_T _ 0); [lra | apply Rlt_le, exp_pos]).
      assert (exp (- npow (Rabs (x / s)) p) <= 1) by (rewrite <- exp_0; destruct (Req_dec (npow (Rabs (x / s)) p) 0) as [->|]; [right; f_equal; lra | left; apply exp_increasing; lra]).
      generalize (exp_pos (- npow (Rabs (x / s)) p)). nra. }
    assert (Z : Rabs (c * i - c * G) < eps / 2).
    { rewrite <- Rmult_minus_distr_l, Rabs_mult, (Rabs_right c) by lra. apply (Rmult_lt_compat_l c) in J; [|exact C0].
      replace (c * (eps / 2 / c)) with (eps / 2) in J by (field; lra). exact J. }
    apply Rabs_def2 in Z. apply Rabs_def1; lra.
Qed.
