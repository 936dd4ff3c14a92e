(** C32: the partial derivatives and slopes of the elementary models. *)
From Coquelicot Require Import Coquelicot.
From Coq Require Import Reals List Arith Lra Lia.
From Verif Require Import M_Order P_Order M_Elem S_Elem P_Elem.
Import ListNotations.
Local Open Scope R_scope.

Theorem C32_polynomial : forall degree,
  partials_exact (poly degree) anywhere /\ slope_exact (poly degree) anywhere.
Proof. intros. split; [apply linear_partials|apply poly_slope]. Qed.

Theorem C32_chebyshev : forall degree,
  partials_exact (cheb degree) anywhere /\ slope_exact (cheb degree) anywhere.
Proof. intros. split; [apply linear_partials|apply cheb_slope]. Qed.

(** the columns of the Chebyshev model are the Chebyshev polynomials *)
Theorem C32_chebyshev_polynomials : forall k t, cheb_part (cos t) k = cos (INR k * t).
Proof.
  intros k t. induction k as [| |k IH1 IH2] using pair_ind.
  - cbn. rewrite Rmult_0_l, cos_0. reflexivity.
  - cbn. rewrite Rmult_1_l. reflexivity.
  - rewrite cheb_rec, IH1, IH2, !S_INR.
    replace ((INR k + 1 + 1) * t) with ((INR k + 1) * t + t) by ring.
    replace (INR k * t) with ((INR k + 1) * t - t) by ring.
    rewrite cos_plus, cos_minus. ring.
Qed.

Theorem C32_harmonic : forall order period,
  partials_exact (harmonic order period) anywhere /\ slope_exact (harmonic order period) anywhere.
Proof. intros. split; [apply linear_partials|apply harm_slope]. Qed.

Theorem C32_sine_amplitudes : forall freq,
  partials_exact (sineamp freq) anywhere /\ slope_exact (sineamp freq) anywhere.
Proof. intros. split; [apply linear_partials|apply sineamp_slope]. Qed.

Theorem C32_power : forall ex,
  partials_exact (power ex) anywhere /\ slope_exact (power ex) (fun x _ => 0 < x).
Proof. intros. split; [apply linear_partials|apply power_slope]. Qed.

Theorem C32_sine : partials_exact sine anywhere /\ slope_exact sine anywhere.
Proof. exact (conj sine_partials sine_slope). Qed.

Theorem C32_sine_phase : partials_exact sine_phase anywhere /\ slope_exact sine_phase anywhere.
Proof. exact (conj sinep_partials sinep_slope). Qed.

Theorem C32_sine_drift : partials_exact sinedrift anywhere /\ slope_exact sinedrift anywhere.
Proof. exact (conj sinedrift_partials sinedrift_slope). Qed.

Theorem C32_gauss :
  partials_exact gaussm (fun _ p => nth 2 p 0 <> 0) /\ slope_exact gaussm (fun _ p => nth 2 p 0 <> 0).
Proof. exact (conj gauss_partials gauss_slope). Qed.

Theorem C32_lorentz :
  partials_exact lorentz (fun _ p => 0 < nth 2 p 0) /\ slope_exact lorentz (fun _ p => nth 2 p 0 <> 0).
Proof. exact (conj lorentz_partials lorentz_slope). Qed.

Theorem C32_exp : forall sign,
  partials_exact (expm sign) anywhere /\ slope_exact (expm sign) anywhere.
Proof. intros. exact (conj (exp_partials sign) (exp_slope sign)). Qed.

Theorem C32_powerlaw :
  partials_exact powerlaw (fun x p => nth 1 p 0 < x) /\ slope_exact powerlaw (fun x p => nth 1 p 0 < x).
Proof. exact (conj powerlaw_partials powerlaw_slope). Qed.

Theorem C32_arctan : partials_exact arctan anywhere /\ slope_exact arctan anywhere.
Proof. exact (conj arctan_partials arctan_slope). Qed.

Theorem C32_logistic :
  partials_exact logistic (fun _ p => nth 2 p 0 <> 0) /\ slope_exact logistic (fun _ p => nth 2 p 0 <> 0).
Proof. exact (conj logistic_partials logistic_slope). Qed.

Theorem C32_etalon : partials_exact etalon etalon_dom /\ slope_exact etalon etalon_dom.
Proof. exact (conj etalon_partials etalon_slope). Qed.

Theorem C32_etalon_drift_partials : forall y, partials_exact (etalondrift y) anywhere.
Proof. exact etalondrift_partials. Qed.

(** the slope computed in EtalonDriftModel.baseDerivative has p_2 as a factor too many (apart from
    the exception it raises) *)
Theorem C32_etalon_drift_slope_refuted : ~ slope_exact (etalondrift 0) anywhere.
Proof.
  intros H. specialize (H (1 / 4) [1; 1; 2; -1 / 4; 0] eq_refl I).
  destruct (etalondrift_factor (1 / 4) 0 [1; 1; 2; -1 / 4; 0] eq_refl) as (d & D & E).
  assert (U : el_dx (etalondrift 0) (1 / 4) [1; 1; 2; -1 / 4; 0] = d).
  { rewrite <- (is_derive_unique _ _ _ H). exact (is_derive_unique _ _ _ D). }
  cbn [nth] in E. rewrite U in E. assert (d = 0) by lra. subst d. clear E D H. rename H0 into Z.
  cbn in Z. replace (PI * (1 / 4 * 2 + -1 / 4 + 0 * 0)) with (PI / 4) in Z by field.
  rewrite sin_PI4, cos_PI4 in Z.
  pose proof Rlt_sqrt2_0 as S2. pose proof PI_RGT_0 as PI0.
  pose proof (sqrt_sqrt 2 ltac:(lra)) as SS.
  assert (Q : 1 / sqrt 2 * (1 / sqrt 2) = 1 / 2).
  { replace (1 / sqrt 2 * (1 / sqrt 2)) with (1 / (sqrt 2 * sqrt 2)) by (field; lra). rewrite SS. reflexivity. }
  assert (X : forall a, 1 + 1 * 1 * a * a = 1 + a * a) by (intros; ring). rewrite X, Q in Z.
  replace (-2 * PI * 1 * (1 * 1) * 2 * (1 / sqrt 2) * (1 / sqrt 2)) with (- 4 * PI * (1 / sqrt 2 * (1 / sqrt 2))) in Z by ring.
  rewrite Q in Z. assert (V : - 4 * PI * (1 / 2) / ((1 + 1 / 2) * (1 + 1 / 2)) * 2 = - (16 / 9) * PI) by field.
  rewrite V in Z. lra.
Qed.

Theorem C32_pade : forall num den,
  partials_exact (pade num den) (pade_dom num den) /\ slope_exact (pade num den) (pade_dom num den).
Proof. intros. exact (conj (pade_partials num den) (pade_slope num den)). Qed.

Theorem C32_pseudovoigt :
  partials_exact pseudovoigt (fun _ p => 0 < nth 2 p 0) /\ slope_exact pseudovoigt (fun _ p => nth 2 p 0 <> 0).
Proof. exact (conj pv_partials pv_slope). Qed.

(** a selection of parameters yields the columns of that selection *)
Theorem C32_selection : forall m x p l, Forall (fun k => k < el_np m)%nat l ->
  basePartial m x p (Some l) = map (fun k => nth k (basePartial m x p None) 0) l.
Proof.
  intros m x p l F. unfold basePartial at 1. apply map_ext_in. intros k K.
  rewrite Forall_forall in F. symmetry. apply partial_nth. apply F. exact K.
Qed.

(** PseudoVoigtModel with a fixed parameter and free balance has no partials at all *)
Theorem C32_pseudovoigt_fixed_refuted :
  ~ (forall x p l, length p = 4%nat -> Forall (fun k => k < 4)%nat l ->
       pseudovoigt_partial x p (Some l) = Some (map (fun k => nth k (basePartial pseudovoigt x p None) 0) l)).
Proof. intros H. specialize (H 0 [1; 0; 1; 1 / 2] [1; 2; 3]%nat eq_refl ltac:(repeat constructor)). discriminate H. Qed.

Example C32_cubic : el_f (poly 3) 2 [1; 2; 3; 4] = 49 /\ el_dx (poly 3) 2 [1; 2; 3; 4] = 62 /\
  basePartial (poly 3) 2 [1; 2; 3; 4] None = [1; 2; 4; 8] /\ el_dx (cheb 3) 2 [1; 2; 3; 4] = 206.
Proof.
  cbn -[INR]. repeat split; unfold poly_dx, cheb_dx, linear_f, basePartial; cbn; try lra.
  repeat f_equal; lra.
Qed.

Example C32_domains : etalon_dom 1 [1; 2; 3; 4] /\ pade_dom 1 1 2 [3; 4; 1; 5].
Proof.
  split.
  - unfold etalon_dom. cbn. generalize (sin (PI * 1 * 3 + 4)). intros s.
    pose proof (Rle_0_sqr s). unfold Rsqr in *. apply Rgt_not_eq. lra.
  - unfold pade_dom. cbn. apply Rgt_not_eq. lra.
Qed.

Print Assumptions C32_polynomial.
Print Assumptions C32_chebyshev.
Print Assumptions C32_chebyshev_polynomials.
Print Assumptions C32_harmonic.
Print Assumptions C32_sine_amplitudes.
Print Assumptions C32_power.
Print Assumptions C32_sine.
Print Assumptions C32_sine_phase.
Print Assumptions C32_sine_drift.
Print Assumptions C32_gauss.
Print Assumptions C32_lorentz.
Print Assumptions C32_exp.
Print Assumptions C32_powerlaw.
Print Assumptions C32_arctan.
Print Assumptions C32_logistic.
Print Assumptions C32_etalon.
Print Assumptions C32_etalon_drift_partials.
Print Assumptions C32_etalon_drift_slope_refuted.
Print Assumptions C32_pade.
Print Assumptions C32_pseudovoigt.
Print Assumptions C32_selection.
Print Assumptions C32_pseudovoigt_fixed_refuted.
