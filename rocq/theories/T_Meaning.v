(** C103: what the parameters of the elementary models mean. *)
From Coquelicot Require Import Coquelicot.
From Coq Require Import Reals Lra Lia List Arith Bool.
From Verif Require Import M_Elem M_Kernel S_Kernel P_Kernint M_Meaning P_Elem T_Elem M_Kepler P_Stellar.
Import ListNotations.
Local Open Scope R_scope.

(** A peak of height a and centre c: symmetric, and falling (for a positive a) away from the centre. *)
Definition peakAt (f : R -> R) (a c : R) : Prop :=
  f c = a /\ (forall d, f (c - d) = f (c + d)) /\ (0 < a -> forall d e, 0 <= d < e -> f (c + e) < f (c + d)).
(** ** Peaks *)
(** Gauss: the amplitude is the height of the top, which is in the centre; the width is where it is exp(-1/2) of the top; it is at half
    the top at sqrt( 2 ln 2 ) widths. *)
Theorem C103_gauss : forall a c w, 0 < w -> let f x := el_f gaussm x [a; c; w] in
  peakAt f a c /\ f (c + w) = a * exp (- (1 / 2)) /\ f (c + w * sqrt (2 * ln 2)) = a / 2.
Proof.
  intros a c w Hw f. unfold f. cbn [gaussm el_f]. unfold gauss_f. cbn [nth]. split; [split; [|split]|split].
  - replace ((c - c) * (1 / w)) with 0 by ring. rewrite Rmult_0_r, exp_0. ring.
  - intros d. f_equal. f_equal. field. lra.
  - intros Ha d e H. apply Rmult_lt_compat_l; [exact Ha|]. apply exp_increasing.
    replace ((c + e - c) * (1 / w)) with (e / w) by (field; lra). replace ((c + d - c) * (1 / w)) with (d / w) by (field; lra).
    assert (U : 0 < / w) by (apply Rinv_0_lt_compat; exact Hw). assert (A : 0 <= d / w) by (unfold Rdiv; nra). assert (B : d / w < e / w) by (unfold Rdiv; nra). nra.
  - replace ((c + w - c) * (1 / w)) with 1 by (field; lra). f_equal. f_equal. field.
  - replace ((c + w * sqrt (2 * ln 2) - c) * (1 / w)) with (sqrt (2 * ln 2)) by (field; lra).
    rewrite Rmult_assoc. assert (L : 0 < ln 2) by (rewrite <- ln_1; apply ln_increasing; lra). rewrite sqrt_sqrt by lra.
    replace (- (1 / 2) * (2 * ln 2)) with (- ln 2) by field. rewrite exp_Ropp, exp_ln by lra. field.
Qed.
(** Lorentz: the width is the half width at half the top. *)
Theorem C103_lorentz : forall a c w, 0 < w -> let f x := el_f lorentz x [a; c; w] in
  peakAt f a c /\ f (c + w) = a / 2.
Proof.
  intros a c w Hw f. unfold f. cbn [lorentz el_f nth]. split; [split; [|split]|].
  - replace (c - c) with 0 by ring. field. lra.
  - intros d. f_equal. f_equal. ring.
  - intros Ha d e H. apply Rmult_lt_compat_l; [apply Rmult_lt_0_compat; [exact Ha|nra]|]. replace (c + e - c) with e by ring. replace (c + d - c) with d by ring.
    apply Rinv_lt_contravar; [apply Rmult_lt_0_compat|]; nra.
  - replace (c + w - c) with w by ring. field. apply Rgt_not_eq; nra.
Qed.
(** PseudoVoigt: a peak when the balance is between 0 and 1; it is between Lorentz and Gauss everywhere. *)
Theorem C103_pseudovoigt : forall a c w b, 0 < w -> 0 <= b <= 1 -> let f x := el_f pseudovoigt x [a; c; w; b] in
  peakAt f a c /\ forall x, Rmin (el_f lorentz x [a; c; w]) (el_f gaussm x [a; c; w]) <= f x <= Rmax (el_f lorentz x [a; c; w]) (el_f gaussm x [a; c; w]).
Proof.
  intros a c w b Hw Hb. destruct (C103_gauss a c w Hw) as [PG _]. destruct (C103_lorentz a c w Hw) as [PL _].
  remember (fun x => el_f lorentz x [a; c; w]) as L eqn:EL. remember (fun x => el_f gaussm x [a; c; w]) as G eqn:EG.
  assert (F : forall x, el_f pseudovoigt x [a; c; w; b] = b * L x + (1 - b) * G x) by (intros x; subst L G; reflexivity).
  assert (FL : forall x, el_f lorentz x [a; c; w] = L x) by (intros x; subst L; reflexivity).
  assert (FG : forall x, el_f gaussm x [a; c; w] = G x) by (intros x; subst G; reflexivity). clear EL EG.
  destruct PG as (G1 & G2 & G3). destruct PL as (L1 & L2 & L3). cbv zeta beta. split; [split; [|split]|].
  - rewrite F, L1, G1. ring.
  - intros d. rewrite !F, L2, G2. reflexivity.
  - intros Ha d e H. rewrite !F. assert (A := L3 Ha d e H). assert (B := G3 Ha d e H).
    generalize dependent (L (c + e)). generalize dependent (L (c + d)). generalize dependent (G (c + e)). generalize dependent (G (c + d)).
    clear - Hb. intros g1 g2 B l1 l2 A. destruct (Req_dec b 0) as [->|N]; [lra|]. assert (0 < b * (l1 - l2)) by (apply Rmult_lt_0_compat; lra).
    assert (0 <= (1 - b) * (g1 - g2)) by (apply Rmult_le_pos; lra). nra.
  - intros x. rewrite F, FL, FG. generalize (L x) (G x). clear - Hb. intros l g.
    unfold Rmin, Rmax. destruct (Rle_dec l g); split; nra.
Qed.
(** Its width is said to be a half-width; only for a pure Lorentz it is. *)
Theorem C103_pseudovoigt_width : forall a c w b, 0 < w ->
  el_f pseudovoigt (c + w) [a; c; w; b] = a * (b / 2 + (1 - b) * exp (- (1 / 2))).
Proof.
  intros a c w b Hw. destruct (C103_gauss a c w Hw) as (_ & G & _). destruct (C103_lorentz a c w Hw) as [_ L].
  change (el_f pseudovoigt (c + w) [a; c; w; b]) with (b * el_f lorentz (c + w) [a; c; w] + (1 - b) * el_f gaussm (c + w) [a; c; w]).
  rewrite G, L. field.
Qed.
(** The width of a PseudoVoigt is no half-width: at one width from the centre it is more than half the top. *)
Theorem C103_pseudovoigt_width_refuted : forall a c w b, 0 < a -> 0 < w -> 0 <= b < 1 -> a / 2 < el_f pseudovoigt (c + w) [a; c; w; b].
Proof.
  intros a c w b Ha Hw Hb. rewrite C103_pseudovoigt_width by exact Hw.
  assert (E : 1 / 2 < exp (- (1 / 2))).
  { assert (N : - (1 / 2) <> 0) by (apply Rlt_not_eq; lra). assert (H := exp_ineq1 _ N). lra. }
  assert (0 < (1 - b) * (exp (- (1 / 2)) - 1 / 2)) by (apply Rmult_lt_0_compat; lra). nra.
Qed.
(** The initial Lorentz has integral 1, as documented. *)
Theorem C103_lorentz_integral : whole_integral (fun x => el_f lorentz x lorentzInit) 1.
Proof.
  assert (P := PI_RGT_0). destruct lorentz_int as [E L].
  assert (X : forall x, el_f lorentz x lorentzInit = scal (1 / PI) (k_result lorentzk x)).
  { intros x. unfold scal. cbn. unfold mult. cbn. field. split; nra. }
  split.
  - intros r. apply (ex_RInt_ext (fun x => scal (1 / PI) (k_result lorentzk x))); [intros x _; symmetry; apply X|]. apply (ex_RInt_scal (V := R_NormedModule)). apply E.
  - apply (is_lim_ext (fun r => (1 / PI) * RInt (k_result lorentzk) (- r) r)).
    + intros r. rewrite (RInt_ext (fun x => el_f lorentz x lorentzInit) (fun x => scal (1 / PI) (k_result lorentzk x))) by (intros; apply X).
      rewrite (RInt_scal (V := R_CompleteNormedModule)) by apply E. reflexivity.
    + replace (Finite 1) with (Rbar_mult (1 / PI) PI) by (cbn; f_equal; field; lra). apply is_lim_scal_l. exact L.
Qed.

(** ** Steps *)
Lemma lim_step : forall (F : R -> R) (l s c : R), 0 < s -> is_lim F p_infty l -> is_lim (fun x => F (s * (x - c))) p_infty l.
Proof.
  intros F l s c Hs H. apply is_lim_spec in H. apply is_lim_spec. intros eps. destruct (H eps) as [M HM]. exists (c + M / s). intros x Hx. apply HM.
  assert (M / s < x - c) by lra. apply (Rmult_lt_compat_l s) in H0; [|exact Hs]. replace (s * (M / s)) with M in H0 by (field; lra). exact H0.
Qed.
Lemma lim_step_m : forall (F : R -> R) (l s c : R), 0 < s -> is_lim F m_infty l -> is_lim (fun x => F (s * (x - c))) m_infty l.
Proof.
  intros F l s c Hs H. apply is_lim_spec in H. apply is_lim_spec. intros eps. destruct (H eps) as [M HM]. exists (c + M / s). intros x Hx. apply HM.
  assert (x - c < M / s) by lra. apply (Rmult_lt_compat_l s) in H0; [|exact Hs]. replace (s * (M / s)) with M in H0 by (field; lra). exact H0.
Qed.
Lemma lim_neg : forall (F : R -> R) (l : R), is_lim F p_infty l -> is_lim (fun x => F (- x)) m_infty l.
Proof.
  intros F l H. apply is_lim_spec in H. apply is_lim_spec. intros eps. destruct (H eps) as [M HM]. exists (- M). intros x Hx. apply HM. lra.
Qed.
(** Arctan: 0 in the centre, odd about it; the slope there is amplitude times slope; it lies between -pi/2 and pi/2 times the amplitude and
    comes arbitrarily close to both. *)
Theorem C103_arctan : forall a c s, 0 < s -> let f x := el_f arctan x [a; c; s] in
  f c = 0 /\ (forall d, f (c - d) = - f (c + d)) /\ is_derive f c (a * s) /\
  is_lim f p_infty (a * (PI / 2)) /\ is_lim f m_infty (- (a * (PI / 2))).
Proof.
  intros a c s Hs f. unfold f. split; [|split; [|split; [|split]]].
  - cbn [arctan el_f nth]. replace (s * (c - c)) with 0 by ring. rewrite atan_0. ring.
  - intros d. cbn [arctan el_f nth]. replace (s * (c - d - c)) with (- (s * (c + d - c))) by ring. rewrite atan_opp. ring.
  - evar_last; [apply (proj2 C32_arctan c [a; c; s]); [reflexivity|exact I]|]. cbn. field. lra.
  - cbn [arctan el_f nth]. apply (is_lim_scal_l (fun x => atan (s * (x - c))) a p_infty (PI / 2)). apply lim_step; [exact Hs|exact atan_lim].
  - cbn [arctan el_f nth]. replace (- (a * (PI / 2))) with (a * (- (PI / 2))) by ring.
    apply (is_lim_scal_l (fun x => atan (s * (x - c))) a m_infty (- (PI / 2))). apply lim_step_m; [exact Hs|].
    apply (is_lim_ext (fun x => - atan (- x))); [intros x; rewrite atan_opp; ring|].
    apply (is_lim_opp (fun x => atan (- x)) m_infty (PI / 2)). apply lim_neg. exact atan_lim.
Qed.

Lemma lim_exp_step : forall a : R, is_lim (fun t => a / (1 + exp (- t))) p_infty a.
Proof.
  intros a. apply (is_lim_ext (fun t => a * / (1 + exp (- t)))); [reflexivity|].
  replace (Finite a) with (Rbar_mult a (Rbar_inv 1)) by (cbn; f_equal; field). apply is_lim_scal_l.
  apply is_lim_inv; [|intros H; injection H; lra].
  replace (Finite 1) with (Rbar_plus 1 0) by (cbn; f_equal; ring).
  apply is_lim_plus'; [apply is_lim_const|]. apply (is_lim_comp exp Ropp p_infty 0 m_infty).
  - apply is_lim_exp_m.
  - apply (is_lim_opp (fun x => x) p_infty p_infty). apply is_lim_id.
  - exists 0. intros x _. discriminate.
Qed.
(** Logistic: half the amplitude in the centre; from 0 to the amplitude for a positive slope; the steepness in the centre is the
    amplitude divided by 4 times the parameter called slope. *)
Theorem C103_logistic : forall a c s, 0 < s -> let f x := el_f logistic x [a; c; s] in
  f c = a / 2 /\ (forall d, f (c - d) + f (c + d) = a) /\ is_derive f c (a / (4 * s)) /\ is_lim f p_infty a /\ is_lim f m_infty 0.
Proof.
  intros a c s Hs f. unfold f. split; [|split; [|split; [|split]]].
  - cbn [logistic el_f nth]. replace ((c - c) / s) with 0 by (field; lra). rewrite exp_0. field.
  - intros d. cbn [logistic el_f nth]. replace ((c - (c - d)) / s) with (d / s) by (field; lra). replace ((c - (c + d)) / s) with (- (d / s)) by (field; lra).
    rewrite exp_Ropp. assert (E := exp_pos (d / s)). field. lra.
  - evar_last; [apply (proj2 C32_logistic c [a; c; s]); [reflexivity|cbn; lra]|]. cbn [el_dx logistic nth]. replace ((c - c) / s) with 0 by (field; lra). rewrite exp_0. field. lra.
  - cbn [logistic el_f nth]. apply (is_lim_ext (fun x => a / (1 + exp (- (/ s * (x - c)))))); [intros x; f_equal; f_equal; f_equal; field; lra|].
    apply (lim_step (fun t => a / (1 + exp (- t))) a (/ s) c); [apply Rinv_0_lt_compat; exact Hs|apply lim_exp_step].
  - cbn [logistic el_f nth]. apply (is_lim_ext (fun x => a - a / (1 + exp (- (/ s * (- x - - c)))))).
    + intros x. replace (- (/ s * (- x - - c))) with (- ((c - x) / s)) by (field; lra). rewrite exp_Ropp. assert (E := exp_pos ((c - x) / s)). field. lra.
    + apply (lim_neg (fun y => a - a / (1 + exp (- (/ s * (y - - c))))) 0). replace 0 with (a - a) by ring. apply is_lim_minus'; [apply is_lim_const|].
      apply (lim_step (fun t => a / (1 + exp (- t))) a (/ s) (- c)); [apply Rinv_0_lt_compat; exact Hs|apply lim_exp_step].
Qed.
(** The formula in its documentation, with ( x - p_1 ) in the exponent, is the mirror image. *)
Theorem C103_logistic_formula : forall a c s x, s <> 0 -> el_f logistic x [a; c; s] = a / (1 + exp ((c - x) / s)) /\
  el_f logistic x [a; c; s] = a - a / (1 + exp ((x - c) / s)).
Proof.
  intros a c s x Hs. split; [reflexivity|]. cbn [logistic el_f nth]. replace ((x - c) / s) with (- ((c - x) / s)) by (field; exact Hs).
  rewrite exp_Ropp. assert (E := exp_pos ((c - x) / s)). field. lra.
Qed.
(** LogisticModel does not compute the formula of its documentation. *)
Theorem C103_logistic_formula_refuted : exists a c s x, 0 < s /\ el_f logistic x [a; c; s] <> a / (1 + exp ((x - c) / s)).
Proof.
  exists 1, 0, 1, 1. split; [lra|]. intros H. rewrite (proj2 (C103_logistic_formula 1 0 1 1 ltac:(lra))) in H. replace ((1 - 0) / 1) with 1 in H by field.
  assert (E : 2 < exp 1) by (assert (N : 1 <> 0) by lra; assert (G := exp_ineq1 1 N); lra).
  assert (D : 1 / (1 + exp 1) < 1 / 2) by (apply Rmult_lt_compat_l; [lra|apply Rinv_lt_contravar; lra]). lra.
Qed.
(** Exponential: the amplitude is the value at 0; a step in x multiplies; decay is the opposite sign; the initial one decays. *)
Theorem C103_exp : forall decay a s x h, let f x := el_f (expm (expSign decay)) x [a; s] in
  f 0 = a /\ f (x + h) = f x * exp (expSign decay * s * h) /\ el_f (expm (expSign true)) x [a; s] = el_f (expm (expSign false)) x [a; - s] /\
  el_f (expm (expSign decay)) x (expInit decay) = exp (- x).
Proof.
  intros decay a s x h f. unfold f. cbn [expm el_f]. unfold expm_f. cbn [nth]. split; [rewrite Rmult_0_r, exp_0; ring|]. split.
  - rewrite Rmult_plus_distr_l, exp_plus. ring.
  - split; [cbn; f_equal; f_equal; ring|]. destruct decay; cbn; rewrite Rmult_1_l; f_equal; ring.
Qed.
(** Power law: the amplitude is the value at 1 beyond the shift; f times a power at a multiple. *)
Theorem C103_powerlaw : forall a c q t k, 0 < t -> 0 < k -> let f x := el_f powerlaw x [a; c; q] in
  f (c + 1) = a /\ f (c + k * t) = Rpower k q * f (c + t).
Proof.
  intros a c q t k Ht Hk f. unfold f. cbn [powerlaw el_f nth]. split.
  - replace (c + 1 - c) with 1 by ring. unfold Rpower. rewrite ln_1, Rmult_0_r, exp_0. ring.
  - replace (c + k * t - c) with (k * t) by ring. replace (c + t - c) with t by ring. rewrite <- Rpower_mult_distr by assumption. ring.
Qed.

(** ** Periodic models *)
(** Sine: one period is 1 over the frequency; it never exceeds the square root of the sum of the squares of the amplitudes, and reaches it. *)
Lemma sin_period1 : forall x, sin (x + 2 * PI) = sin x.
Proof. intros x. rewrite sin_plus, sin_2PI, cos_2PI. ring. Qed.
Lemma cos_period1 : forall x, cos (x + 2 * PI) = cos x.
Proof. intros x. rewrite cos_plus, sin_2PI, cos_2PI. ring. Qed.
Theorem C103_sine : forall fr a b, fr <> 0 -> let f x := el_f sine x [fr; a; b] in
  (forall x, f (x + 1 / fr) = f x) /\ (forall x, Rabs (f x) <= sqrt (a * a + b * b)) /\ exists x, f x = sqrt (a * a + b * b).
Proof.
  intros fr a b Hf f. unfold f. cbn [sine el_f nth]. assert (P := PI_RGT_0). set (r := sqrt (a * a + b * b)). assert (R0 : 0 <= r) by apply sqrt_pos.
  destruct (atan2_polar b a) as [Ea Eb]. fold r in Ea, Eb. set (t := arctan2 b a) in *.
  assert (F : forall x, a * cos x + b * sin x = r * cos (x - t)) by (intros x; rewrite cos_minus, <- Ea, <- Eb at 1; ring).
  split; [|split].
  - intros x. replace (2 * PI * (x + 1 / fr) * fr) with (2 * PI * x * fr + 2 * PI) by (field; exact Hf). rewrite sin_period1, cos_period1. reflexivity.
  - intros x. rewrite F, Rabs_mult, (Rabs_pos_eq r) by exact R0. assert (B := COS_bound (2 * PI * x * fr - t)).
    assert (C : Rabs (cos (2 * PI * x * fr - t)) <= 1) by (apply Rabs_le; exact B). nra.
  - exists (t / (2 * PI * fr)). rewrite F. replace (2 * PI * (t / (2 * PI * fr)) * fr - t) with 0 by (field; split; [exact Hf|lra]). rewrite cos_0. ring.
Qed.
(** With a phase: the same model, with amplitudes A sin( phase ) and A cos( phase ); the initial ones differ. *)
Theorem C103_sine_phase : forall A fr ph x, el_f sine_phase x [A; fr; ph] = el_f sine x [fr; A * sin ph; A * cos ph].
Proof. intros A fr ph x. cbn [sine sine_phase el_f nth]. rewrite sin_plus. ring. Qed.
Theorem C103_sine_init : forall x, el_f sine_phase x (sineInit true) = sin (2 * PI * x) /\
  el_f sine x (sineInit false) = cos (2 * PI * x) + sin (2 * PI * x).
Proof. intros x. cbn. rewrite !Rmult_1_r, Rplus_0_r, !Rmult_1_l. split; reflexivity. Qed.
(** A fixed frequency, no drift, one harmonic: the same sine. *)
Theorem C103_sines : forall fr a b x, el_f (sineamp fr) x [a; b] = el_f sine x [fr; a; b] /\ el_f sinedrift x [fr; a; b; 0] = el_f sine x [fr; a; b] /\
  (fr <> 0 -> el_f (harmonic 1 (1 / fr)) x [a; b] = el_f sine x [fr; a; b]).
Proof.
  intros fr a b x. split; [|split].
  - cbn. replace (2 * PI * fr * x) with (2 * PI * x * fr) by ring. ring.
  - cbn. replace (2 * PI * x * (fr + 0 * x)) with (2 * PI * x * fr) by ring. reflexivity.
  - intros H. cbn. unfold harm_part. cbn. replace (1 * (2 * PI * x / (1 / fr))) with (2 * PI * x * fr) by (field; exact H). ring.
Qed.
(** The drifting sine is a sine of which the phase goes as the frequency p_0 + 2 p_3 x. *)
Theorem C103_drift : forall fr a b d x, let phase t := 2 * PI * t * (fr + d * t) in
  el_f sinedrift x [fr; a; b; d] = a * cos (phase x) + b * sin (phase x) /\ is_derive phase x (2 * PI * (fr + 2 * d * x)).
Proof.
  intros fr a b d x phase. split; [reflexivity|]. unfold phase. auto_derive; trivial; ring.
Qed.
Lemma linear_shift : forall np part x y p, (forall k, part x k = part y k) -> linear_f np part x p = linear_f np part y p.
Proof.
  intros np part x y p H. unfold linear_f. generalize 0 at 2 4 as z. generalize (seq 0 np) as l. induction l as [|k l IH]; intros z; [reflexivity|].
  cbn [fold_left]. rewrite H. apply IH.
Qed.
(** Harmonics: all of them repeat after the period. *)
Theorem C103_harmonic : forall order period x p, period <> 0 -> el_f (harmonic order period) (x + period) p = el_f (harmonic order period) x p.
Proof.
  intros order period x p H. cbn [harmonic linear el_f]. apply linear_shift. intros k. unfold harm_part.
  set (j := (1 + k / 2)%nat). replace (INR j * (2 * PI * (x + period) / period)) with (INR j * (2 * PI * x / period) + 2 * INR j * PI) by (field; exact H).
  rewrite cos_period, sin_period. reflexivity.
Qed.
(** Etalon: it repeats after 1 over the frequency; between the amplitude and the amplitude divided by 1 + finesse; both are reached. *)
Theorem C103_etalon : forall a q fr ph, fr <> 0 -> 0 <= a -> 0 <= q -> let f x := el_f etalon x [a; q; fr; ph] in
  (forall x, f (x + 1 / fr) = f x) /\ (forall x, a / (1 + q) <= f x <= a) /\ (exists x, f x = a) /\ (exists x, f x = a / (1 + q)).
Proof.
  intros a q fr ph Hf Ha Hq f. unfold f. cbn [etalon el_f nth]. assert (P := PI_RGT_0). split; [|split; [|split]].
  - intros x. replace (PI * (x + 1 / fr) * fr + ph) with (PI * x * fr + ph + PI) by (field; exact Hf). rewrite neg_sin. f_equal. ring.
  - intros x. set (v := PI * x * fr + ph). assert (S1 := SIN_bound v). assert (S2 : 0 <= sin v * sin v <= 1) by nra.
    assert (D : 1 <= 1 + q * sin v * sin v <= 1 + q) by nra. split.
    + apply Rmult_le_compat_l; [exact Ha|]. apply Rinv_le_contravar; lra.
    + apply (Rle_trans _ (a / 1)); [apply Rmult_le_compat_l; [exact Ha|apply Rinv_le_contravar; lra]|lra].
  - exists (- ph / (PI * fr)). replace (PI * (- ph / (PI * fr)) * fr + ph) with 0 by (field; split; [exact Hf|lra]). rewrite sin_0. field.
  - exists ((PI / 2 - ph) / (PI * fr)). replace (PI * ((PI / 2 - ph) / (PI * fr)) * fr + ph) with (PI / 2) by (field; split; [exact Hf|lra]). rewrite sin_PI2, !Rmult_1_r. reflexivity.
Qed.
(** As documented: with a finesse between -1 and 0 there is an equivalent one with a positive finesse, *)
Theorem C103_etalon_negative : forall a q fr ph x, -1 < q < 0 -> let q' := q / - (1 + q) in
  0 < q' /\ el_f etalon x [a; q; fr; ph] = el_f etalon x [a / (1 + q); q'; fr; ph + PI / 2].
Proof.
  intros a q fr ph x Hq q'. split.
  - unfold q'. replace (q / - (1 + q)) with (- q / (1 + q)) by (field; lra). apply Rdiv_lt_0_compat; lra.
  - cbn [etalon el_f nth]. replace (PI * x * fr + (ph + PI / 2)) with (PI * x * fr + ph + PI / 2) by ring. set (v := PI * x * fr + ph).
    replace (sin (v + PI / 2)) with (cos v) by (rewrite cos_sin; f_equal; ring). unfold q'.
    assert (E := sin2_cos2 v). unfold Rsqr in E. assert (D : 0 < 1 + q * (sin v * sin v)) by (assert (0 <= cos v * cos v) by nra; nra).
    assert (C : cos v * cos v = 1 - sin v * sin v) by lra.
    replace (1 + q / - (1 + q) * cos v * cos v) with ((1 + q * (sin v * sin v)) / (1 + q)).
    + rewrite (Rmult_assoc q (sin v) (sin v)). clear - D Hq. generalize dependent (1 + q * (sin v * sin v)). intros X D. field. split; lra.
    + replace (q / - (1 + q) * cos v * cos v) with (q / - (1 + q) * (cos v * cos v)) by ring. rewrite C. field. lra.
Qed.
(** and with one below -1 there are points where the denominator is zero. *)
Theorem C103_etalon_infinite : forall q fr ph, q <= -1 -> fr <> 0 -> exists x, let s := sin (PI * x * fr + ph) in 1 + q * s * s = 0.
Proof.
  intros q fr ph Hq Hf. assert (P := PI_RGT_0). set (z := sqrt (/ - q)).
  assert (I1 : 0 < / - q <= 1) by (split; [apply Rinv_0_lt_compat; lra|rewrite <- Rinv_1; apply Rinv_le_contravar; lra]).
  assert (Z : z * z = / - q) by (apply sqrt_sqrt; lra). assert (Z0 : 0 <= z) by apply sqrt_pos.
  exists ((asin z - ph) / (PI * fr)). cbv zeta. replace (PI * ((asin z - ph) / (PI * fr)) * fr + ph) with (asin z) by (field; split; [exact Hf|lra]).
  rewrite sin_asin by nra. rewrite Rmult_assoc, Z. field. lra.
Qed.
(** The drifting etalon: its finesse is squared, and its phase in periods, with the drift in the other input added. *)
Theorem C103_etalon_drift : forall a q fr ph d x y, el_f (etalondrift y) x [a; q; fr; ph; d] = el_f etalon x [a; q * q; fr; PI * (ph + d * y)].
Proof.
  intros. cbn [etalon etalondrift el_f nth]. replace (PI * (fr * x + ph + d * y)) with (PI * x * fr + PI * (ph + d * y)) by ring. f_equal. f_equal. ring.
Qed.
(** ** Polynomials *)
(** Chebyshev: no larger than 1 in [-1,1], and orthogonal there, with weight 1 / sqrt( 1 - x^2 ), x = cos t. *)
Theorem C103_chebyshev : forall m n, (forall x, -1 <= x <= 1 -> Rabs (cheb_part x n) <= 1) /\ cheb_part 1 n = 1 /\
  (m <> n -> is_RInt (fun t => cheb_part (cos t) m * cheb_part (cos t) n) 0 PI 0).
Proof.
  intros m n. split; [|split].
  - intros x H. rewrite <- (cos_acos x H), C32_chebyshev_polynomials. apply Rabs_le. apply COS_bound.
  - rewrite <- cos_0 at 1. rewrite C32_chebyshev_polynomials, Rmult_0_r. exact cos_0.
  - intros H. set (u := IZR (Z.of_nat m - Z.of_nat n)). set (v := IZR (Z.of_nat m + Z.of_nat n)).
    assert (U : u <> 0) by (apply not_0_IZR; lia). assert (V : v <> 0) by (apply not_0_IZR; lia).
    apply (is_RInt_ext (fun t => (cos (u * t) + cos (v * t)) / 2)).
    + intros t _. rewrite !C32_chebyshev_polynomials. unfold u, v. rewrite minus_IZR, plus_IZR, <- !INR_IZR_INZ.
      rewrite Rmult_minus_distr_r, Rmult_plus_distr_r, cos_minus, cos_plus. match goal with |- ?a = ?b => change (@eq R a b) end. field.
    + evar_last; [apply (is_RInt_derive (V := R_CompleteNormedModule) (fun t => (sin (u * t) / u + sin (v * t) / v) / 2))|].
      * intros t _. auto_derive; trivial. field. split; assumption.
      * intros t _. apply (ex_derive_continuous (K := R_AbsRing) (V := R_NormedModule)). auto_derive; trivial.
      * unfold minus, plus, opp. cbn. rewrite !Rmult_0_r, sin_0. rewrite (sin_eq_0_1 (u * PI)), (sin_eq_0_1 (v * PI)); [field; split; assumption| |]; eexists; reflexivity.
Qed.

Lemma pade_sum_scale : forall c x p k0 n, pade_sum x (map (Rmult c) p) k0 n = c * pade_sum x p k0 n.
Proof.
  intros c x p k0 n. unfold pade_sum. assert (G : forall l a b, fst (fold_left (fun st k => (fst st + nth k (map (Rmult c) p) 0 * snd st, snd st * x)) l (c * a, b)) =
    c * fst (fold_left (fun st k => (fst st + nth k p 0 * snd st, snd st * x)) l (a, b))).
  { induction l as [|k l IH]; intros a b; [reflexivity|]. cbn [fold_left fst snd].
    replace (nth k (map (Rmult c) p) 0) with (c * nth k p 0) by (rewrite <- (Rmult_0_r c) at 2; symmetry; apply map_nth).
    replace (c * a + c * nth k p 0 * b) with (c * (a + nth k p 0 * b)) by ring. apply IH. }
  rewrite <- (G (seq k0 n) 0 1). rewrite Rmult_0_r. reflexivity.
Qed.
(** Pade: degenerate, so one parameter must be fixed: all parameters may be multiplied by the same number. *)
Theorem C103_pade : forall num den c x p, c <> 0 -> pade_sum x p (num + 1) (den + 1) <> 0 ->
  el_f (pade num den) x (map (Rmult c) p) = el_f (pade num den) x p.
Proof.
  intros num den c x p Hc H. cbn [pade el_f]. unfold pade_f. rewrite !pade_sum_scale. field. split; assumption.
Qed.
(** ** Initial parameters *)
Lemma linear_zeros : forall np part x n, linear_f np part x (repeat 0 n) = 0.
Proof.
  intros np part x n. unfold linear_f. generalize (seq 0 np) as l. induction l as [|k l IH]; [reflexivity|]. cbn [fold_left].
  replace (0 + nth k (repeat 0 n) 0 * part x k) with 0; [exact IH|].
  replace (nth k (repeat 0 n) 0) with 0; [ring|]. symmetry. destruct (Nat.lt_ge_cases k n) as [H|H]; [apply (repeat_spec n 0); apply nth_In; rewrite repeat_length; exact H|].
  apply nth_overflow. rewrite repeat_length. exact H.
Qed.
(** The initial polynomials and harmonics are 0 everywhere. *)
Theorem C103_linear_init : forall degree order period x, el_f (poly degree) x (polyInit degree) = 0 /\ el_f (cheb degree) x (polyInit degree) = 0 /\
  el_f (harmonic order period) x (harmonicInit order) = 0.
Proof. intros. split; [|split]; apply linear_zeros. Qed.
(** The documentation of HarmonicModel says that its parameters are initially 1.0; they are 0. *)
Theorem C103_harmonic_init_refuted : forall order, (0 < order)%nat -> harmonicInit order <> repeat 1 (2 * order).
Proof. intros [|order] H E; [lia|]. unfold harmonicInit, zeros in E. change (2 * S order)%nat with (S (order + S (order + 0))) in E. cbn [repeat] in E. injection E as E _. lra. Qed.
(** The initial gauss, logistic, power law, PseudoVoigt and etalon; the initial arctan goes from -1 to 1. *)
Theorem C103_init : forall x, el_f gaussm x gaussInit = exp (- (x * x / 2)) /\ el_f logistic x logisticInit = 1 / (1 + exp (- x)) /\
  (el_f powerlaw 1 powerlawInit = 1) /\ (0 < x -> el_f powerlaw x powerlawInit = x /\ el_f (power 1) x powerInit = x) /\
  el_f pseudovoigt x pseudovoigtInit = (1 / (x * x + 1) + exp (- (x * x / 2))) / 2 /\
  el_f etalon x etalonInit = 1 / (1 + sin (PI * x) * sin (PI * x)) /\
  el_f sinedrift x sinedriftInit = cos (2 * PI * x) + sin (2 * PI * x) /\
  (forall y, el_f (etalondrift y) x etalondriftInit = el_f etalon x etalonInit) /\
  is_lim (fun x => el_f arctan x arctanInit) p_infty 1 /\ is_lim (fun x => el_f arctan x arctanInit) m_infty (-1).
Proof.
  intros x. assert (P := PI_RGT_0).
  assert (G : el_f gaussm x gaussInit = exp (- (x * x / 2))) by (cbn; unfold gauss_f; cbn; rewrite Rmult_1_l; f_equal; field).
  repeat apply conj.
  - exact G.
  - cbn. f_equal. f_equal. f_equal. field.
  - cbn. rewrite Rminus_0_r, Rpower_1 by lra. ring.
  - intros H. cbn. unfold linear_f. cbn. rewrite Rminus_0_r, !Rpower_1 by exact H. split; ring.
  - change (el_f pseudovoigt x pseudovoigtInit) with (1 / 2 * el_f lorentz x [1; 0; 1] + (1 - 1 / 2) * el_f gaussm x gaussInit). rewrite G. cbn. field. apply Rgt_not_eq; nra.
  - cbn. replace (PI * x * 1 + 0) with (PI * x) by ring. f_equal. ring.
  - cbn. replace (2 * PI * x * (1 + 0 * x)) with (2 * PI * x) by ring. ring.
  - intros y. unfold etalondriftInit, etalonInit. rewrite C103_etalon_drift. repeat f_equal; ring.
  - destruct (C103_arctan (2 / PI) 0 1 ltac:(lra)) as (_ & _ & _ & L & _). replace 1 with (2 / PI * (PI / 2)) at 1 by (field; lra). exact L.
  - destruct (C103_arctan (2 / PI) 0 1 ltac:(lra)) as (_ & _ & _ & _ & L). replace (-1) with (- (2 / PI * (PI / 2))) by (field; lra). exact L.
Qed.
(** The initial Pade, whatever its degrees: 0 divided by 1. *)
Theorem C103_pade_init : forall num den x, el_f (pade num den) x (padeInit num den) = 0 /\ pade_sum x (padeInit num den) (num + 1) (den + 1) = 1.
Proof.
  intros num den x. assert (N : forall k, (k < num + den + 2)%nat -> nth k (padeInit num den) 0 = if Nat.eqb k (num + 1) then 1 else 0).
  { intros k H. unfold padeInit. set (g := fun k => if Nat.eqb k (num + 1) then 1 else 0). rewrite (nth_indep _ 0 (g 0%nat)) by (rewrite map_length, seq_length; exact H).
    rewrite map_nth, seq_nth by exact H. reflexivity. }
  assert (Z : forall n k0 a b, (forall k, (k0 <= k < k0 + n)%nat -> nth k (padeInit num den) 0 = 0) ->
    fst (fold_left (fun st k => (fst st + nth k (padeInit num den) 0 * snd st, snd st * x)) (seq k0 n) (a, b)) = a).
  { induction n as [|n IH]; intros k0 a b H; [reflexivity|]. cbn [seq fold_left fst snd]. rewrite IH by (intros k Hk; apply H; lia). rewrite H by lia. ring. }
  assert (A : pade_sum x (padeInit num den) 0 (num + 1) = 0).
  { unfold pade_sum. apply Z. intros k Hk. rewrite N by lia. destruct (Nat.eqb_spec k (num + 1)); [lia|reflexivity]. }
  assert (B : pade_sum x (padeInit num den) (num + 1) (den + 1) = 1).
  { unfold pade_sum. replace (den + 1)%nat with (S den) by lia. cbn [seq fold_left fst snd]. rewrite Z.
    - rewrite N by lia. rewrite Nat.eqb_refl. ring.
    - intros k Hk. rewrite N by lia. destruct (Nat.eqb_spec k (num + 1)); [lia|reflexivity]. }
  split; [|exact B]. cbn [pade el_f]. unfold pade_f. rewrite A, B. field.
Qed.
(** An instance of each kind. *)
Example C103_ex : el_f gaussm 3 [5; 3; 2] = 5 /\ el_f lorentz 5 [6; 3; 2] = 3 /\ el_f logistic 3 [4; 3; 2] = 2 /\
  el_f etalon 0 [6; 2; 1; 0] = 6 /\ el_f etalon (1 / 2) [6; 2; 1; 0] = 2 /\ -1 < -1 / 2 < 0.
Proof.
  repeat apply conj; try lra.
  - apply (C103_gauss 5 3 2 ltac:(lra)).
  - replace 5 with (3 + 2) at 1 by ring. rewrite (proj2 (C103_lorentz 6 3 2 ltac:(lra))). field.
  - rewrite (proj1 (C103_logistic 4 3 2 ltac:(lra))). field.
  - cbn. replace (PI * 0 * 1 + 0) with 0 by ring. rewrite sin_0. field.
  - cbn. replace (PI * (1 / 2) * 1 + 0) with (PI / 2) by field. rewrite sin_PI2. field.
Qed.

Print Assumptions C103_gauss.
Print Assumptions C103_sine.
Print Assumptions C103_chebyshev.
