(** C96: the units of the parameters agree with the formula of the model. *)
From Coquelicot Require Import Coquelicot.
From Coq Require Import Reals List Arith ZArith Bool Lia Lra.
Import ListNotations.
From Verif Require Import M_Elem M_Kernel M_Voigt M_Units.
Local Open Scope R_scope.

(** The numbers that stand for the same parameters, after x has been expressed in a unit that is a times smaller, and y in one that is b times
    smaller: a parameter in yUnit^i xUnit^j is multiplied by b^i a^j *)
Definition scaled (np : nat) (u : nat -> Z * Z) (a b : R) (p : list R) : list R :=
  map (fun k => powerRZ b (fst (u k)) * powerRZ a (snd (u k)) * nth k p 0) (seq 0 np).

(** The units are those of the formula: with the numbers in the other units the model gives the same result, in the other unit of y *)
Definition consistent (m : elem) (u : nat -> Z * Z) (dom : R -> list R -> Prop) : Prop :=
  forall a b x p, 0 < a -> 0 < b -> dom x p -> el_f m (a * x) (scaled (el_np m) u a b p) = b * el_f m x p.
Definition always (x : R) (p : list R) : Prop := True.
Definition width (k : nat) (x : R) (p : list R) : Prop := nth k p 0 <> 0.

Lemma pz0 : forall x, powerRZ x 0 = 1. Proof. reflexivity. Qed.
Lemma pz1 : forall x, powerRZ x 1 = x. Proof. exact powerRZ_1. Qed.
Lemma pzm1 : forall x, powerRZ x (-1) = / x.
Proof. intros x. unfold powerRZ. change (Pos.to_nat 1) with 1%nat. rewrite pow_1. reflexivity. Qed.
Lemma pzm2 : forall x, x <> 0 -> powerRZ x (-2) = / x * / x.
Proof. intros x H. unfold powerRZ. change (Pos.to_nat 2) with 2%nat. cbn [pow]. field. exact H. Qed.
Lemma nth_scaled : forall np u a b p k, (k < np)%nat ->
  nth k (scaled np u a b p) 0 = powerRZ b (fst (u k)) * powerRZ a (snd (u k)) * nth k p 0.
Proof.
  intros np u a b p k H. unfold scaled.
  rewrite (nth_indep _ 0 ((fun k => powerRZ b (fst (u k)) * powerRZ a (snd (u k)) * nth k p 0) 0%nat)) by (rewrite map_length, seq_length; exact H).
  rewrite (map_nth (fun k => powerRZ b (fst (u k)) * powerRZ a (snd (u k)) * nth k p 0)), seq_nth by exact H. reflexivity.
Qed.

Ltac uu := unfold consistent, width, always; intros a b x p Ha Hb D; assert (Ha0 : a <> 0) by lra; assert (Hb0 : b <> 0) by lra;
  cbn [el_f el_np]; rewrite ?nth_scaled by lia; cbn [fst snd];
  unfold gaussUnit, lorentzUnit, voigtUnit, pseudovoigtUnit, logisticUnit, kernelUnit, peakUnit, arctanUnit, expUnit, sineUnit, sinedriftUnit,
    etalonUnit, powerlawUnit, yU, xU, one; cbn [fst snd]; rewrite ?pz0, ?pz1, ?pzm1, ?(pzm2 a Ha0).

Theorem C96_gauss : consistent gaussm gaussUnit (width 2).
Proof.
  unfold gaussm, gauss_f. uu.
  replace ((a * x - 1 * a * nth 1 p 0) * (1 / (1 * a * nth 2 p 0))) with ((x - nth 1 p 0) * (1 / nth 2 p 0)) by (field; auto).
  ring.
Qed.
Theorem C96_lorentz : consistent lorentz lorentzUnit (width 2).
Proof.
  unfold lorentz. uu. set (w := nth 2 p 0) in *. set (c := nth 1 p 0). set (h := nth 0 p 0).
  assert (0 < (x - c) * (x - c) + w * w) by (pose proof (Rle_0_sqr (x - c)); pose proof (Rlt_0_sqr w D); unfold Rsqr in *; lra).
  assert (E : (a * x - 1 * a * c) * (a * x - 1 * a * c) + 1 * a * w * (1 * a * w) = a * a * ((x - c) * (x - c) + w * w)) by ring.
  rewrite E. field. split; [|exact Ha0]. lra.
Qed.
Theorem C96_exp : forall sign, consistent (expm sign) expUnit always.
Proof.
  intros sign. unfold expm, expm_f. uu.
  replace (sign * (1 * / a * nth 1 p 0) * (a * x)) with (sign * nth 1 p 0 * x) by (field; auto). ring.
Qed.
Theorem C96_arctan : consistent arctan arctanUnit always.
Proof.
  unfold arctan. uu.
  replace (1 * / a * nth 2 p 0 * (a * x - 1 * a * nth 1 p 0)) with (nth 2 p 0 * (x - nth 1 p 0)) by (field; auto). ring.
Qed.
Theorem C96_logistic : consistent logistic logisticUnit (width 2).
Proof.
  unfold logistic. uu.
  replace ((1 * a * nth 1 p 0 - a * x) / (1 * a * nth 2 p 0)) with ((nth 1 p 0 - x) / nth 2 p 0) by (field; auto). unfold Rdiv. ring.
Qed.
Theorem C96_kernel : forall K, consistent (kernelmodel K) kernelUnit (width 2).
Proof.
  intros K. unfold kernelmodel. uu.
  replace ((a * x - 1 * a * nth 1 p 0) / (1 * a * nth 2 p 0)) with ((x - nth 1 p 0) / nth 2 p 0) by (field; auto). ring.
Qed.
Theorem C96_sine : consistent sine sineUnit always.
Proof.
  unfold sine. uu.
  replace (2 * PI * (a * x) * (1 * / a * nth 0 p 0)) with (2 * PI * x * nth 0 p 0) by (field; auto). ring.
Qed.
Theorem C96_sinedrift : consistent sinedrift sinedriftUnit always.
Proof.
  unfold sinedrift. uu.
  replace (2 * PI * (a * x) * (1 * / a * nth 0 p 0 + 1 * (/ a * / a) * nth 3 p 0 * (a * x))) with (2 * PI * x * (nth 0 p 0 + nth 3 p 0 * x))
    by (field; auto). ring.
Qed.
Theorem C96_etalon : consistent etalon etalonUnit always.
Proof.
  unfold etalon. uu.
  replace (PI * (a * x) * (1 * / a * nth 2 p 0) + 1 * 1 * nth 3 p 0) with (PI * x * nth 2 p 0 + nth 3 p 0) by (field; auto).
  rewrite !Rmult_1_r, !Rmult_1_l. unfold Rdiv. ring.
Qed.

(** EtalonDriftModel has two inputs, each with a unit of its own *)
Definition scaled3 (u : nat -> Z * Z * Z) (a0 a1 b : R) (p : list R) : list R :=
  map (fun k => let '(i, j, l) := u k in powerRZ b i * powerRZ a0 j * powerRZ a1 l * nth k p 0) (seq 0 5).
Theorem C96_etalondrift : forall a0 a1 b x y p, 0 < a0 -> 0 < a1 -> 0 < b ->
  el_f (etalondrift (a1 * y)) (a0 * x) (scaled3 etalondriftUnit a0 a1 b p) = b * el_f (etalondrift y) x p.
Proof.
  intros a0 a1 b x y p H0 H1 Hb. unfold etalondrift, scaled3, etalondriftUnit. cbn [el_f map seq nth].
  rewrite ?pz0, ?pz1, ?pzm1.
  replace (PI * (1 * / a0 * 1 * nth 2 p 0 * (a0 * x) + 1 * 1 * 1 * nth 3 p 0 + 1 * 1 * / a1 * nth 4 p 0 * (a1 * y)))
    with (PI * (nth 2 p 0 * x + nth 3 p 0 + nth 4 p 0 * y)) by (field; lra).
  rewrite !Rmult_1_l, !Rmult_1_r. unfold Rdiv. ring.
Qed.

(** A linear model: when every parameter times its partial goes along *)
Lemma linear_consistent : forall n part part' x x' p p' b,
  (forall k, (k < n)%nat -> nth k p' 0 * part' x' k = b * (nth k p 0 * part x k)) ->
  linear_f n part' x' p' = b * linear_f n part x p.
Proof.
  intros n part part' x x' p p' b H. unfold linear_f.
  assert (G : forall l s s', (forall k, In k l -> (k < n)%nat) -> s' = b * s ->
    fold_left (fun res k => res + nth k p' 0 * part' x' k) l s' = b * fold_left (fun res k => res + nth k p 0 * part x k) l s).
  { induction l as [|k l IH]; intros s s' Hl E; cbn; [exact E|]. apply IH; [intros; apply Hl; right; assumption|].
    rewrite H by (apply Hl; left; reflexivity). rewrite E. ring. }
  apply G; [intros k Hk; apply in_seq in Hk; lia|ring].
Qed.
Lemma poly_part_pow : forall x k, poly_part x k = x ^ k.
Proof.
  intros x k. unfold poly_part. induction k as [|k IH]; [reflexivity|].
  change (Nat.iter k (fun y => y * x) 1 * x = x ^ S k). rewrite IH. cbn. ring.
Qed.
Lemma powm : forall a k, a <> 0 -> powerRZ a (- Z.of_nat k) * a ^ k = 1.
Proof.
  intros a k H. rewrite powerRZ_neg' by exact H. rewrite <- pow_powerRZ. field. apply pow_nonzero. exact H.
Qed.
Theorem C96_polynomial : forall degree, consistent (poly degree) polyUnit always.
Proof.
  intros degree a b x p Ha Hb _. unfold poly, linear. cbn [el_f el_np].
  apply linear_consistent. intros k Hk. rewrite nth_scaled by exact Hk. unfold polyUnit. cbn [fst snd].
  rewrite pz1, !poly_part_pow, Rpow_mult_distr.
  assert (E := powm a k ltac:(lra)).
  transitivity (b * (nth k p 0 * x ^ k) * (powerRZ a (- Z.of_nat k) * a ^ k)); [ring|]. rewrite E. ring.
Qed.

(** HarmonicModel and SineAmpModel: the period, or the frequency, given at the construction is in xUnit, or 1/xUnit *)
Theorem C96_harmonic : forall order period a b x p, 0 < a -> 0 < b -> period <> 0 ->
  el_f (harmonic order (a * period)) (a * x) (scaled (2 * order) harmonicUnit a b p) = b * el_f (harmonic order period) x p.
Proof.
  intros order period a b x p Ha Hb Hp. unfold harmonic, linear. cbn [el_f].
  apply linear_consistent. intros k Hk. rewrite nth_scaled by exact Hk. unfold harmonicUnit, yU. cbn [fst snd]. rewrite pz0, pz1.
  unfold harm_part. replace (2 * PI * (a * x) / (a * period)) with (2 * PI * x / period) by (field; lra). ring.
Qed.
Theorem C96_sineamp : forall freq a b x p, 0 < a -> 0 < b ->
  el_f (sineamp (freq / a)) (a * x) (scaled 2 sineampUnit a b p) = b * el_f (sineamp freq) x p.
Proof.
  intros freq a b x p Ha Hb. unfold sineamp, linear. cbn [el_f].
  apply linear_consistent. intros k Hk. rewrite nth_scaled by exact Hk. unfold sineampUnit, yU. cbn [fst snd]. rewrite pz0, pz1.
  replace (2 * PI * (freq / a) * (a * x)) with (2 * PI * freq * x) by (field; lra). destruct k; ring.
Qed.

Lemma pade_sum_scaled : forall a c x p p' k0 n, a <> 0 ->
  (forall i, (i < n)%nat -> nth (k0 + i) p' 0 * a ^ i = c * nth (k0 + i) p 0) ->
  pade_sum (a * x) p' k0 n = c * pade_sum x p k0 n.
Proof.
  intros a c x p p' k0 n Ha H. unfold pade_sum.
  assert (G : forall m i s s' t t', (i + m <= n)%nat -> s' = c * s -> t' = a ^ i * t ->
    fst (fold_left (fun st k => (fst st + nth k p' 0 * snd st, snd st * (a * x))) (seq (k0 + i) m) (s', t'))
    = c * fst (fold_left (fun st k => (fst st + nth k p 0 * snd st, snd st * x)) (seq (k0 + i) m) (s, t))).
  { induction m as [|m IH]; intros i s s' t t' Hm Es Et; cbn [seq fold_left fst snd]; [exact Es|].
    replace (S (k0 + i)) with (k0 + S i)%nat by lia. apply IH; [lia| |].
    - rewrite Es, Et. assert (E := H i ltac:(lia)).
      transitivity (c * s + nth (k0 + i) p' 0 * a ^ i * t); [ring|]. rewrite E. ring.
    - rewrite Et. cbn [pow]. ring. }
  specialize (G n 0%nat 0 0 1 1). rewrite Nat.add_0_r in G. apply G; [lia|ring|cbn; ring].
Qed.
(** PadeModel, counted over all its parameters (the fixed one included) *)
Theorem C96_pade : forall num den, consistent (pade num den) (padeUnit num) (fun x p => pade_sum x p (num + 1) (den + 1) <> 0).
Proof.
  intros num den a b x p Ha Hb D. unfold pade, pade_f. cbn [el_f el_np]. assert (Ha0 : a <> 0) by lra.
  rewrite (pade_sum_scaled a b x p _ 0 (num + 1) Ha0), (pade_sum_scaled a 1 x p _ (num + 1) (den + 1) Ha0).
  - field. exact D.
  - intros i Hi. rewrite nth_scaled by lia. unfold padeUnit, xU. destruct (Nat.leb_spec (num + 1 + i) num); [lia|]. cbn [fst snd].
    rewrite pz0. replace (num + 1 + i - (num + 1))%nat with i by lia. assert (E := powm a i Ha0).
    transitivity (nth (num + 1 + i) p 0 * (powerRZ a (- Z.of_nat i) * a ^ i)); [ring|]. rewrite E. ring.
  - intros i Hi. cbn [Nat.add]. rewrite nth_scaled by lia. unfold padeUnit. destruct (Nat.leb_spec i num); [|lia]. cbn [fst snd].
    rewrite pz1. assert (E := powm a i Ha0).
    transitivity (b * nth i p 0 * (powerRZ a (- Z.of_nat i) * a ^ i)); [ring|]. rewrite E. ring.
Qed.

Lemma z0_scaled : forall p, sigma p <> 0 -> z0 p = (Ci * RtoC (nth 3 p 0 / sigma p))%C.
Proof. intros p H. unfold z0. rewrite RtoC_div by exact H. unfold Cdiv. rewrite Cmult_assoc. reflexivity. Qed.
Theorem C96_voigt : forall wofz, consistent (voigt wofz) voigtUnit (width 2).
Proof.
  intros wofz a b x p Ha Hb D. unfold width in D. unfold voigt. cbn [el_f el_np]. set (q := scaled 4 voigtUnit a b p).
  assert (Hs : sqrt 2 <> 0) by (apply Rgt_not_eq, sqrt_lt_R0; lra).
  assert (Q : forall k, (k < 4)%nat -> nth k q 0 = powerRZ b (fst (voigtUnit k)) * powerRZ a (snd (voigtUnit k)) * nth k p 0)
    by (intros; apply nth_scaled; assumption).
  assert (Q0 := Q 0%nat ltac:(lia)). assert (Q1 := Q 1%nat ltac:(lia)). assert (Q2 := Q 2%nat ltac:(lia)). assert (Q3 := Q 3%nat ltac:(lia)).
  unfold voigtUnit, peakUnit, yU, xU in Q0, Q1, Q2, Q3. cbn [fst snd] in Q0, Q1, Q2, Q3. rewrite ?pz0, ?pz1 in Q0, Q1, Q2, Q3. clearbody q. clear Q.
  assert (S1 : sigma p <> 0) by (unfold sigma; apply Rmult_integral_contrapositive_currified; assumption).
  assert (E2 : sigma q = a * sigma p) by (unfold sigma; rewrite Q2; ring).
  assert (S2 : sigma q <> 0) by (rewrite E2; apply Rmult_integral_contrapositive_currified; lra).
  assert (Z : z0 q = z0 p).
  { rewrite !z0_scaled by assumption. f_equal. f_equal. rewrite E2, Q3. field. split; [exact S1|lra]. }
  assert (ZZ : zz (a * x) q = zz x p).
  { unfold zz. rewrite Z. f_equal. f_equal. rewrite E2, Q1. field. split; [exact S1|lra]. }
  unfold voigt_f. rewrite ZZ, Z, Q0. unfold Rdiv. ring.
Qed.

Lemma nth_firstn_lt : forall (l : list R) n k, (k < n)%nat -> nth k (firstn n l) 0 = nth k l 0.
Proof.
  induction l as [|y l IH]; intros n k H; [rewrite firstn_nil; reflexivity|].
  destruct n as [|n]; [lia|]. destruct k as [|k]; [reflexivity|]. cbn. apply IH. lia.
Qed.
(** The balance of a PseudoVoigtModel is a pure number: with that the units are right ... *)
Theorem C96_pseudovoigt : consistent pseudovoigt (fun k => if (k =? 3)%nat then one else pseudovoigtUnit k) (width 2).
Proof.
  unfold pseudovoigt, lorentz, gaussm, gauss_f. unfold consistent, width. intros a b x p Ha Hb D. cbn [el_f el_np].
  assert (Ha0 : a <> 0) by lra. rewrite ?nth_firstn_lt by lia. rewrite ?nth_scaled by lia.
  unfold pseudovoigtUnit, peakUnit, yU, xU, one. cbn [Nat.eqb fst snd]. rewrite ?pz0, ?pz1.
  replace ((a * x - 1 * a * nth 1 p 0) * (1 / (1 * a * nth 2 p 0))) with ((x - nth 1 p 0) * (1 / nth 2 p 0)) by (field; auto).
  set (w := nth 2 p 0) in *. set (c := nth 1 p 0). set (h := nth 0 p 0).
  assert (0 < (x - c) * (x - c) + w * w) by (pose proof (Rle_0_sqr (x - c)); pose proof (Rlt_0_sqr w D); unfold Rsqr in *; lra).
  assert (E : (a * x - 1 * a * c) * (a * x - 1 * a * c) + 1 * a * w * (1 * a * w) = a * a * ((x - c) * (x - c) + w * w)) by ring.
  rewrite E. field. repeat split; try assumption; lra.
Qed.
(** ... but PseudoVoigtModel says that the balance is in xUnit. *)
Theorem C96_pseudovoigt_refuted : ~ consistent pseudovoigt pseudovoigtUnit (width 2).
Proof.
  intros H. specialize (H 2 1 1 [1; 0; 1; 1] ltac:(lra) ltac:(lra)). unfold width in H. cbn [nth] in H. specialize (H ltac:(lra)).
  unfold pseudovoigt, lorentz, gaussm, gauss_f in H. cbn [el_f el_np] in H. rewrite ?nth_firstn_lt in H by lia. rewrite ?nth_scaled in H by lia.
  unfold pseudovoigtUnit, peakUnit, yU, xU in H. cbn [fst snd nth] in H. rewrite ?pz0, ?pz1 in H.
  replace (- (1 / 2) * ((2 * 1 - 1 * 2 * 0) * (1 / (1 * 2 * 1))) * ((2 * 1 - 1 * 2 * 0) * (1 / (1 * 2 * 1)))) with (- (1 / 2)) in H by field.
  assert (E := exp_ineq1 (- (1 / 2)) ltac:(lra)). lra.
Qed.

(** The amplitude of a PowerModel is in yUnit / xUnit^exponent (here for a natural exponent) ... *)
Theorem C96_power : forall n, consistent (power (INR n)) (fun _ => (1, - Z.of_nat n)%Z) (fun x _ => 0 < x).
Proof.
  intros n a b x p Ha Hb Hx. unfold power, linear. cbn [el_f el_np]. apply linear_consistent. intros k Hk. rewrite nth_scaled by exact Hk. cbn [fst snd].
  rewrite !Rpower_pow, pz1, Rpow_mult_distr by (try apply Rmult_lt_0_compat; assumption). assert (E := powm a n ltac:(lra)).
  transitivity (b * (nth k p 0 * x ^ n) * (powerRZ a (- Z.of_nat n) * a ^ n)); [ring|]. rewrite E. ring.
Qed.
(** ... but PowerModel says it is in yUnit, which is right for exponent 0 only. The code knows: "Not strictly OK"
    (PowerModel.py:157), its documentation (41-42) divides x by 1.0 in the units of x. *)
Theorem C96_power_refuted : forall ex, ex <> 0 -> ~ consistent (power ex) powerUnit (fun x _ => 0 < x).
Proof.
  intros ex He H. specialize (H (exp 1) 1 1 [1] (exp_pos 1) ltac:(lra) ltac:(lra)). unfold power, linear, linear_f in H. cbn [el_f el_np fold_left seq] in H.
  rewrite nth_scaled in H by lia. unfold powerUnit, yU in H. cbn [fst snd nth] in H. rewrite pz0, pz1 in H.
  replace (exp 1 * 1) with (exp 1) in H by ring. unfold Rpower in H. rewrite ln_exp, ln_1, Rmult_0_r, exp_0 in H. replace (ex * 1) with ex in H by ring.
  assert (E : exp ex = 1) by lra. rewrite <- exp_0 in E. apply exp_inv in E. lra.
Qed.
(** PowerLawModel has the amplitude in yUnit too: right when the power is 0 only. Its documentation (48-49) divides x by
    1.0 in the units of x; in those units it is right. *)
Theorem C96_powerlaw_refuted : forall p0 p1 p2 : R, p0 <> 0 -> p2 <> 0 ->
  ~ consistent powerlaw powerlawUnit (fun x p => p = [p0; p1; p2] /\ p1 < x).
Proof.
  intros p0 p1 p2 H0 H2 H. specialize (H (exp 1) 1 (p1 + 1) [p0; p1; p2] (exp_pos 1) Rlt_0_1 (conj eq_refl (Rlt_plus_1 p1))).
  unfold powerlaw in H. cbn [el_f el_np] in H. rewrite !nth_scaled in H by lia. unfold powerlawUnit, yU, xU, one in H. cbn [fst snd nth] in H.
  rewrite ?pz0, ?pz1 in H. replace (exp 1 * (p1 + 1) - 1 * exp 1 * p1) with (exp 1) in H by ring. replace (p1 + 1 - p1) with 1 in H by ring.
  unfold Rpower in H. rewrite ln_exp, ln_1 in H. replace (1 * 1 * p2 * 1) with p2 in H by ring. rewrite Rmult_0_r, exp_0 in H.
  assert (E : exp p2 = 1). { apply (Rmult_eq_reg_l p0); lra. }
  rewrite <- exp_0 in E. apply exp_inv in E. contradiction.
Qed.
Theorem C96_powerlaw : forall a b x p0 p1 p2, 0 < a -> p1 < x ->
  el_f powerlaw (a * x) [b * Rpower a (- p2) * p0; a * p1; p2] = b * el_f powerlaw x [p0; p1; p2].
Proof.
  intros a b x p0 p1 p2 Ha Hx. unfold powerlaw. cbn [el_f nth]. replace (a * x - a * p1) with (a * (x - p1)) by ring.
  rewrite <- Rpower_mult_distr by lra. rewrite Rpower_Ropp. field. apply Rgt_not_eq, exp_pos.
Qed.
(** SineModel with phase=True: amplitude, frequency and phase. *)
Theorem C96_sine_phase : consistent sine_phase sinephaseUnit always.
Proof.
  unfold sine_phase, sinephaseUnit. uu.
  replace (2 * PI * (a * x) * (1 * / a * nth 1 p 0) + 1 * 1 * nth 2 p 0) with (2 * PI * x * nth 1 p 0 + nth 2 p 0) by (field; auto). ring.
Qed.
(** A Chebyshev polynomial is not one in another unit of x: its x is a pure number, while xUnit can be set all the same. The documentation
    (ChebyshevPolynomialModel.py:200) says that xUnit must be dimensionless. *)
Theorem C96_chebyshev_refuted : forall degree, (1 <= degree)%nat -> ~ consistent (cheb degree) chebUnit (fun x _ => -1 <= x <= 1).
Proof.
  intros degree Hd H. set (p := [0; 1]).
  assert (L : forall x q, (forall k, nth k q 0 = nth k p 0) -> el_f (cheb degree) x q = x).
  { intros x q Hq. unfold cheb, linear, linear_f. cbn [el_f]. replace (degree + 1)%nat with (2 + (degree - 1))%nat by lia.
    rewrite seq_app, fold_left_app. cbn [seq fold_left]. rewrite !Hq. unfold p, cheb_part. cbn [nth cheb_pair fst].
    assert (G : forall l s, (forall k, In k l -> (2 <= k)%nat) -> fold_left (fun res k => res + nth k q 0 * fst (cheb_pair x k)) l s = s).
    { induction l as [|k l IH]; intros s Hl; [reflexivity|]. cbn [fold_left]. rewrite IH by (intros; apply Hl; right; assumption).
      rewrite Hq. unfold p. assert (Hk := Hl k (or_introl eq_refl)). destruct k as [|[|k]]; [lia|lia|]. cbn. destruct k; ring. }
    rewrite G by (intros k Hk; apply in_seq in Hk; lia). ring. }
  specialize (H 2 1 (1 / 2) p ltac:(lra) ltac:(lra) ltac:(lra)). rewrite (L _ p) in H by reflexivity. rewrite L in H; [lra|].
  intros k. destruct (Nat.lt_ge_cases k (el_np (cheb degree))) as [K|K].
  - rewrite nth_scaled by exact K. unfold chebUnit, yU. cbn [fst snd]. rewrite pz0, pz1. ring.
  - assert (el_np (cheb degree) = degree + 1)%nat by reflexivity.
    rewrite nth_overflow by (unfold scaled; rewrite map_length, seq_length; exact K). unfold p. destruct k as [|[|k]]; [lia|lia|]. cbn. destruct k; reflexivity.
Qed.

(** With fixed parameters the units are right as long as no fixed parameter comes before *)
Theorem C96_fixed : forall u fixed np k, (forall i, (i <= k)%nat -> ~ In i fixed) -> (k < np)%nat ->
  let parlist := filter (fun i => negb (existsb (Nat.eqb i) fixed)) (seq 0 np) in
  nth k parlist 0%nat = k /\ freeUnit u parlist k = u (nth k parlist 0%nat).
Proof.
  intros u fixed np k H Hk parlist.
  assert (E : nth k parlist 0%nat = k).
  { unfold parlist. replace np with (S k + (np - S k))%nat by lia. rewrite seq_app, filter_app.
    assert (F : filter (fun i => negb (existsb (Nat.eqb i) fixed)) (seq 0 (S k)) = seq 0 (S k)).
    { assert (G : forall l, (forall i, In i l -> (i <= k)%nat) -> filter (fun i => negb (existsb (Nat.eqb i) fixed)) l = l).
      { induction l as [|i l IH]; intros Hl; [reflexivity|]. cbn [filter].
        destruct (existsb (Nat.eqb i) fixed) eqn:B.
        - apply existsb_exists in B. destruct B as (j & Hj & Ej). apply Nat.eqb_eq in Ej. subst j. exfalso. apply (H i); [apply Hl; left; reflexivity|exact Hj].
        - cbn [negb]. f_equal. apply IH. intros; apply Hl; right; assumption. }
      apply G. intros i Hi. apply in_seq in Hi. lia. }
    rewrite F, app_nth1 by (rewrite seq_length; lia). rewrite seq_nth by lia. reflexivity. }
  split; [exact E|]. unfold freeUnit. rewrite E. reflexivity.
Qed.
(** A GaussModel with a fixed amplitude gives the centre the unit of y. *)
Theorem C96_fixed_refuted : let parlist := filter (fun i => negb (existsb (Nat.eqb i) [0%nat])) (seq 0 3) in
  parlist = [1; 2]%nat /\ freeUnit gaussUnit parlist 0 = yU /\ gaussUnit (nth 0 parlist 0%nat) = xU 1.
Proof. repeat split. Qed.
(** A PadeModel fixes parameter num+1 at 1: all the units of its denominator are one power of x off. *)
Theorem C96_pade_refuted : forall num den i, (i < den)%nat ->
  let parlist := filter (fun i => negb (existsb (Nat.eqb i) [(num + 1)%nat])) (seq 0 (num + den + 2)) in
  let k := (num + 1 + i)%nat in
  freeUnit (padeUnit num) parlist k = xU (- Z.of_nat i) /\ padeUnit num (nth k parlist 0%nat) = xU (- Z.of_nat (i + 1)).
Proof.
  intros num den i Hi parlist k.
  assert (G : forall l, (forall j, In j l -> j <> num + 1)%nat -> filter (fun i => negb (existsb (Nat.eqb i) [(num + 1)%nat])) l = l).
  { induction l as [|j l IH]; intros Hl; [reflexivity|]. cbn [filter existsb]. assert (Hj := Hl j (or_introl eq_refl)).
    apply Nat.eqb_neq in Hj. rewrite Hj. cbn [orb negb]. f_equal. apply IH. intros; apply Hl; right; assumption. }
  assert (E : parlist = seq 0 (num + 1) ++ seq (num + 2) den).
  { unfold parlist. replace (num + den + 2)%nat with ((num + 1) + (1 + den))%nat by lia. rewrite seq_app, filter_app, G.
    2: intros j Hj; apply in_seq in Hj; lia. f_equal. cbn [Nat.add seq filter existsb]. rewrite Nat.eqb_refl. cbn [orb negb].
    replace (S (num + 1)) with (num + 2)%nat by lia. apply G. intros j Hj; apply in_seq in Hj; lia. }
  split.
  - unfold freeUnit, padeUnit, k. destruct (Nat.leb_spec (num + 1 + i) num); [lia|]. do 3 f_equal. lia.
  - rewrite E. unfold k. rewrite app_nth2 by (rewrite seq_length; lia). rewrite seq_length.
    replace (num + 1 + i - (num + 1))%nat with i by lia. rewrite seq_nth by exact Hi. unfold padeUnit.
    destruct (Nat.leb_spec (num + 2 + i) num); [lia|]. do 3 f_equal. lia.
Qed.

(** Chains of models that are added.  Each with its units and its domain *)
Record um := mkUm { u_el : elem; u_un : nat -> Z * Z; u_dom : R -> list R -> Prop }.
Fixpoint sumf (c : list um) (x : R) (p : list R) : R :=
  match c with [] => 0 | m :: r => el_f (u_el m) x (firstn (el_np (u_el m)) p) + sumf r x (skipn (el_np (u_el m)) p) end.
Fixpoint sumnp (c : list um) : nat := match c with [] => 0%nat | m :: r => (el_np (u_el m) + sumnp r)%nat end.
Fixpoint sumdom (c : list um) (x : R) (p : list R) : Prop :=
  match c with [] => True | m :: r => u_dom m x (firstn (el_np (u_el m)) p) /\ sumdom r x (skipn (el_np (u_el m)) p) end.
Definition sumElem (c : list um) : elem := mkElem (sumnp c) (sumf c) (fun _ _ _ => 0) (fun _ _ => 0).
(** all its models have been given the units of the data *)
Definition unitsOf (c : list um) : list umdl := map (fun m => setUnits yU (xU 1) (newModel (el_np (u_el m)) (u_un m))) c.
Definition unitAt (l : list umdl) (k : nat) : Z * Z := match getUnit l k with Some u => u | None => one end.

Lemma inUnits_data : forall np u k, inUnits (setUnits yU (xU 1) (newModel np u)) k = u k.
Proof.
  intros np u k. unfold inUnits, setUnits, newModel, uadd, umul, yU, xU. cbn [um_unit um_y um_x fst snd]. destruct (u k) as [i j]. cbn [fst snd]. f_equal; lia.
Qed.
Theorem C96_chain : forall c pre m k, (exists post, c = pre ++ m :: post) -> (k < el_np (u_el m))%nat ->
  getUnit (unitsOf c) (sumnp pre + k) = Some (u_un m k).
Proof.
  intros c pre m k (post & ->) Hk. revert k Hk. induction pre as [|q pre IH]; intros k Hk; cbn [app unitsOf map getUnit sumnp].
  - change (um_np (setUnits yU (xU 1) (newModel (el_np (u_el m)) (u_un m)))) with (el_np (u_el m)).
    destruct (Nat.ltb_spec (0 + k) (el_np (u_el m))); [|lia]. rewrite inUnits_data. reflexivity.
  - change (um_np (setUnits yU (xU 1) (newModel (el_np (u_el q)) (u_un q)))) with (el_np (u_el q)).
    destruct (Nat.ltb_spec (el_np (u_el q) + sumnp pre + k) (el_np (u_el q))); [lia|].
    replace (el_np (u_el q) + sumnp pre + k - el_np (u_el q))%nat with (sumnp pre + k)%nat by lia. apply IH. exact Hk.
Qed.
Theorem C96_chain_range : forall c k, getUnit (unitsOf c) k = None <-> (sumnp c <= k)%nat.
Proof.
  induction c as [|m c IH]; intros k; cbn [unitsOf map getUnit sumnp]; [split; [lia|reflexivity]|].
  change (um_np (setUnits yU (xU 1) (newModel (el_np (u_el m)) (u_un m)))) with (el_np (u_el m)).
  destruct (Nat.ltb_spec k (el_np (u_el m))).
  - split; [discriminate|lia].
  - change (getUnit (unitsOf c) (k - el_np (u_el m)) = None <-> (el_np (u_el m) + sumnp c <= k)%nat). rewrite IH. lia.
Qed.

Lemma scaled_first : forall n m u a b p, firstn n (scaled (n + m) u a b p) = scaled n u a b (firstn n p).
Proof.
  intros n m u a b p. unfold scaled. rewrite seq_app, map_app, firstn_app, firstn_all2 by (rewrite map_length, seq_length; lia).
  rewrite map_length, seq_length, Nat.sub_diag. cbn [firstn]. rewrite app_nil_r. apply map_ext_in. intros k Hk. apply in_seq in Hk.
  rewrite nth_firstn_lt by lia. reflexivity.
Qed.
Lemma nth_skipn_add : forall (l : list R) n k, nth k (skipn n l) 0 = nth (n + k) l 0.
Proof.
  induction l as [|y l IH]; intros n k; [rewrite skipn_nil; destruct k, n; reflexivity|]. destruct n; [reflexivity|]. cbn. apply IH.
Qed.
Lemma scaled_rest : forall n m u a b p, skipn n (scaled (n + m) u a b p) = scaled m (fun k => u (n + k)%nat) a b (skipn n p).
Proof.
  intros n m u a b p. unfold scaled. rewrite seq_app, map_app, skipn_app, skipn_all2 by (rewrite map_length, seq_length; lia).
  rewrite map_length, seq_length, Nat.sub_diag. cbn [skipn app].
  assert (G : forall m s, map (fun k => powerRZ b (fst (u k)) * powerRZ a (snd (u k)) * nth k p 0) (seq (n + s) m)
    = map (fun k => powerRZ b (fst (u (n + k)%nat)) * powerRZ a (snd (u (n + k)%nat)) * nth k (skipn n p) 0) (seq s m)).
  { clear m. induction m as [|m IH]; intros s; [reflexivity|]. cbn [seq map]. f_equal; [rewrite nth_skipn_add; reflexivity|].
    replace (S (n + s)) with (n + S s)%nat by lia. apply IH. }
  specialize (G m 0%nat). rewrite Nat.add_0_r in G. exact G.
Qed.
Lemma scaled_ext : forall n u v a b p, (forall k, (k < n)%nat -> u k = v k) -> scaled n u a b p = scaled n v a b p.
Proof. intros n u v a b p H. unfold scaled. apply map_ext_in. intros k Hk. apply in_seq in Hk. rewrite H by lia. reflexivity. Qed.

(** With the units set in each of the models, those of a sum of models are right *)
Theorem C96_sum : forall c, (forall m, In m c -> consistent (u_el m) (u_un m) (u_dom m)) ->
  consistent (sumElem c) (unitAt (unitsOf c)) (sumdom c).
Proof.
  intros c H a b x p Ha Hb D. unfold sumElem. cbn [el_f el_np]. revert p D. induction c as [|m c IH]; intros p D; [cbn; ring|].
  cbn [sumf sumnp]. destruct D as [D1 D2]. rewrite scaled_first, scaled_rest.
  rewrite (scaled_ext _ _ (u_un m)).
  2:{ intros k Hk. unfold unitAt. change k with (sumnp [] + k)%nat. rewrite (C96_chain (m :: c) [] m k (ex_intro _ c eq_refl) Hk). reflexivity. }
  rewrite (scaled_ext (sumnp c) _ (unitAt (unitsOf c))).
  2:{ intros k Hk. unfold unitAt. cbn [unitsOf map getUnit].
      change (um_np (setUnits yU (xU 1) (newModel (el_np (u_el m)) (u_un m)))) with (el_np (u_el m)).
      destruct (Nat.ltb_spec (el_np (u_el m) + k) (el_np (u_el m))); [lia|].
      replace (el_np (u_el m) + k - el_np (u_el m))%nat with k by lia. reflexivity. }
  rewrite (H m (or_introl eq_refl) a b x _ Ha Hb D1), IH by (try (intros; apply H; right; assumption); exact D2). ring.
Qed.
(** Set on the compound model, as on any other model, only those of the first model in the chain get the units. *)
Theorem C96_chain_refuted : forall y x m n r k, (k < um_np n)%nat -> um_y n = one -> um_x n = one ->
  getUnit (setChain y x (m :: n :: r)) (um_np m + k) = Some one.
Proof.
  intros y x m n r k Hk Ey Ex. cbn [setChain getUnit]. change (um_np (setUnits y x m)) with (um_np m).
  destruct (Nat.ltb_spec (um_np m + k) (um_np m)); [lia|]. replace (um_np m + k - um_np m)%nat with k by lia.
  destruct (Nat.ltb_spec k (um_np n)); [|lia]. unfold inUnits. rewrite Ey, Ex. unfold uadd, umul, one. cbn [fst snd]. rewrite !Z.mul_0_r. reflexivity.
Qed.
(** ... and those are right. *)
Theorem C96_head : forall np u r k, (k < np)%nat -> getUnit (setChain yU (xU 1) (newModel np u :: r)) k = Some (u k).
Proof.
  intros np u r k Hk. cbn [setChain getUnit]. change (um_np (setUnits yU (xU 1) (newModel np u))) with np.
  destruct (Nat.ltb_spec k np); [|lia]. rewrite inUnits_data. reflexivity.
Qed.
(** A CombiModel does not hand its units to its inner model: whatever they are, the parameters have those of the inner model. *)
Theorem C96_combi_refuted : forall np u nmp select y x k, (nth k select 0 mod nmp < np)%nat ->
  combiUnit [newModel np u] nmp select y x k = Some one.
Proof.
  intros np u nmp select y x k H. unfold combiUnit. cbn [getUnit]. change (um_np (newModel np u)) with np.
  destruct (Nat.ltb_spec (nth k select 0%nat mod nmp) np); [|lia].
  unfold inUnits, newModel, uadd, umul, one. cbn [um_unit um_y um_x fst snd]. rewrite !Z.mul_0_r. reflexivity.
Qed.
(** They are right if the inner model had the units *)
Theorem C96_combi : forall inner pre m nmp select y x k j, (exists post, inner = pre ++ m :: post) ->
  (j < el_np (u_el m))%nat -> (nth k select 0 mod nmp = sumnp pre + j)%nat ->
  combiUnit (unitsOf inner) nmp select y x k = Some (u_un m j).
Proof. intros inner pre m nmp select y x k j E H S. unfold combiUnit. rewrite S. apply C96_chain; assumption. Qed.
(** A RepeatingModel does hand over its units, to the first of its inner models *)
Theorem C96_repeat : forall np u r par2model k, (par2model k < np)%nat ->
  repeatUnit (newModel np u :: r) par2model yU (xU 1) k = Some (u (par2model k)).
Proof. intros np u r par2model k H. unfold repeatUnit. apply C96_head. exact H. Qed.

(** The integral of the model is in yUnit times xUnit, as getIntegralUnit says *)
Theorem C96_integral : forall m u dom a b p lo hi S, consistent m u dom -> 0 < a -> 0 < b -> (forall x, dom x p) ->
  is_RInt (V := R_NormedModule) (fun x => el_f m x p) lo hi S ->
  let iu := integralUnit [setUnits yU (xU 1) (newModel (el_np m) u)] in
  is_RInt (V := R_NormedModule) (fun x => el_f m x (scaled (el_np m) u a b p)) (a * lo) (a * hi) (powerRZ b (fst iu) * powerRZ a (snd iu) * S).
Proof.
  intros m u dom a b p lo hi S C Ha Hb D HI iu. unfold iu. cbn [integralUnit setUnits um_y um_x uadd yU xU fst snd Z.add]. rewrite !pz1.
  assert (E1 : / a * (a * lo) + 0 = lo) by (field; lra). assert (E2 : / a * (a * hi) + 0 = hi) by (field; lra).
  assert (J : is_RInt (V := R_NormedModule) (fun x => el_f m x p) (/ a * (a * lo) + 0) (/ a * (a * hi) + 0) S) by (rewrite E1, E2; exact HI).
  apply (is_RInt_comp_lin (V := R_NormedModule)) in J. apply (is_RInt_scal (V := R_NormedModule) _ _ _ (b * a)) in J.
  change (scal (b * a) S) with (b * a * S) in J.
  eapply is_RInt_ext; [|exact J]. intros x _. change (b * a * (/ a * el_f m (/ a * x + 0) p) = el_f m x (scaled (el_np m) u a b p)).
  assert (E := C a b (/ a * x + 0) p Ha Hb (D _)). replace (a * (/ a * x + 0)) with x in E by (field; lra). rewrite E. field. lra.
Qed.

(** A Gaussian on a straight line *)
Example C96_sum_ex : let c := [mkUm gaussm gaussUnit (width 2); mkUm (poly 1) polyUnit always] in
  (forall m, In m c -> consistent (u_el m) (u_un m) (u_dom m)) /\ sumdom c 1 [3; 2; 1; 4; 5]
  /\ map (getUnit (unitsOf c)) [0; 1; 2; 3; 4; 5]%nat
     = [Some (1, 0); Some (0, 1); Some (0, 1); Some (1, 0); Some (1, -1); None]%Z
  /\ map (getUnit (setChain yU (xU 1) [newModel 3 gaussUnit; newModel 2 polyUnit])) [0; 1; 2; 3; 4]%nat
     = [Some (1, 0); Some (0, 1); Some (0, 1); Some (0, 0); Some (0, 0)]%Z.
Proof.
  cbn zeta. repeat split.
  - intros m [<-|[<-|[]]]; [exact C96_gauss|exact (C96_polynomial 1)].
  - unfold width. cbn. lra.
Qed.
Example C96_units_ex : map etalonUnit [0; 1; 2; 3]%nat = [(1, 0); (0, 0); (0, -1); (0, 0)]%Z
  /\ map (padeUnit 1) [0; 1; 2; 3; 4]%nat = [(1, 0); (1, -1); (0, 0); (0, -1); (0, -2)]%Z
  /\ map (freeUnit (padeUnit 1) [0; 1; 3; 4]%nat) [0; 1; 2; 3]%nat = [(1, 0); (1, -1); (0, 0); (0, -1)]%Z
  /\ scaled 3 gaussUnit 1000 10 [2; 3; 4] = [10 * 1 * 2; 1 * 1000 * 3; 1 * 1000 * 4].
Proof. repeat split. unfold scaled, gaussUnit, peakUnit, yU, xU. cbn [map seq nth fst snd]. rewrite !pz0, !pz1. reflexivity. Qed.
Example C96_fixed_ex : let parlist := filter (fun i => negb (existsb (Nat.eqb i) [2%nat])) (seq 0 3) in
  (forall i, (i <= 1)%nat -> ~ In i [2%nat]) /\ parlist = [0; 1]%nat /\ freeUnit gaussUnit parlist 1 = xU 1.
Proof. repeat split. intros i Hi [E|[]]. lia. Qed.
Example C96_combi_ex : combiUnit (unitsOf [mkUm gaussm gaussUnit (width 2)]) 3 [0; 3; 1; 2]%nat one one 1 = Some yU
  /\ repeatUnit [newModel 3 gaussUnit] (fun k => k mod 3)%nat yU (xU 1) 4 = Some (xU 1).
Proof. split; reflexivity. Qed.
Example C96_integral_ex : is_RInt (V := R_NormedModule) (fun x => el_f (poly 0) x [3]) 0 2 6.
Proof.
  assert (H := is_RInt_const (V := R_NormedModule) 0 2 3). change (scal (2 - 0) 3) with ((2 - 0) * 3) in H. replace ((2 - 0) * 3) with 6 in H by ring.
  eapply is_RInt_ext; [|exact H]. intros x _. unfold poly, linear, linear_f, poly_part. cbn. ring.
Qed.
Print Assumptions C96_gauss.
Print Assumptions C96_lorentz.
Print Assumptions C96_exp.
Print Assumptions C96_arctan.
Print Assumptions C96_logistic.
Print Assumptions C96_kernel.
Print Assumptions C96_sine.
Print Assumptions C96_sinedrift.
Print Assumptions C96_etalon.
Print Assumptions C96_etalondrift.
Print Assumptions C96_polynomial.
Print Assumptions C96_harmonic.
Print Assumptions C96_sineamp.
Print Assumptions C96_pade.
Print Assumptions C96_voigt.
Print Assumptions C96_pseudovoigt.
Print Assumptions C96_pseudovoigt_refuted.
Print Assumptions C96_power.
Print Assumptions C96_power_refuted.
Print Assumptions C96_powerlaw_refuted.
Print Assumptions C96_powerlaw.
Print Assumptions C96_sine_phase.
Print Assumptions C96_chebyshev_refuted.
Print Assumptions C96_fixed.
Print Assumptions C96_fixed_refuted.
Print Assumptions C96_pade_refuted.
Print Assumptions C96_chain.
Print Assumptions C96_chain_range.
Print Assumptions C96_sum.
Print Assumptions C96_chain_refuted.
Print Assumptions C96_head.
Print Assumptions C96_combi_refuted.
Print Assumptions C96_combi.
Print Assumptions C96_repeat.
Print Assumptions C96_integral.

(** With any units of the model itself: powers multiply, so exponents are added. *)
Theorem C96_own_units : forall m k i j, um_unit m k = (i, j) ->
  inUnits m k = (i * fst (um_y m) + j * fst (um_x m), i * snd (um_y m) + j * snd (um_x m))%Z.
Proof. intros m k i j E. unfold inUnits. rewrite E. reflexivity. Qed.
Theorem C96_integral_units : forall m r, integralUnit (m :: r) = (fst (um_y m) + fst (um_x m), snd (um_y m) + snd (um_x m))%Z.
Proof. reflexivity. Qed.
(** A density (1 / y) over y: no unit. *)
Example C96_own_ex : integralUnit [setUnits (xU (-1)) (xU 1) (newModel 3 gaussUnit)] = one /\ inUnits (setUnits (2, 1)%Z (1, 1)%Z (newModel 3 polyUnit)) 2 = (0, -1)%Z.
Proof. split; reflexivity. Qed.
Print Assumptions C96_own_units.
