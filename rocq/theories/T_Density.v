(** Theorems C69: the likelihoods of the error distributions as probability densities. *)
From Coquelicot Require Import Coquelicot.
From Coq Require Import Reals List ZArith Lia Lra FunctionalExtensionality.
From Verif Require Import M_Order M_Errdis P_Errdis M_Sigma L_Erf S_Evidence P_Evidence P_Kernint L_Whole P_Density.
Import ListNotations.
Local Open Scope R_scope.

(** the data point r with y as its datum *)
Definition datum (y : R) (r : row) : row := mkRow y (r_w r) (r_a r) (r_f r) (r_df r).

(** the likelihood of the datum y, for the parameters allpars *)
Definition density (e : errdis) (p : problem) (allpars : list R) (r : row) (y : R) : R := expO (e_ll e p allpars (datum y r)).

(** d is a probability density *)
Definition normalised (d : R -> R) : Prop := (forall y, 0 <= d y) /\ whole d 1.

(** sigma is the standard deviation around mu of the density d *)
Definition deviation (d : R -> R) (mu sigma : R) : Prop := 0 <= sigma /\ whole (fun y => (y - mu) * (y - mu) * d y) (sigma * sigma).

(** neither weights nor a cyclic model *)
Definition plain (p : problem) : Prop := hasW p = false /\ period p = None.

Lemma sq_abs (x : R) : Rabs x * Rabs x = x * x.
Proof. unfold Rabs. destruct (Rcase_abs x); ring. Qed.

(** ** Gauss *)
Lemma gauss_density p par s r y : plain p -> length par = npars p -> 0 < s * s + varyy p r ->
  density gauss p (par ++ [s]) r y = normal (r_f r par) (sqrt (s * s + varyy p r)) y.
Proof.
  intros [W Q] L P. unfold density, gauss, gauss_ll. cbn [e_ll]. unfold expO. rewrite W, fromEnd_1, firstn_app_par by assumption.
  unfold residual, wgt. rewrite Q, W. cbn [datum r_y r_f]. change (varyy p (datum y r)) with (varyy p r).
  set (v := s * s + varyy p r) in *. set (d := y - r_f r par).
  assert (S := sqrt_lt_R0 v P). assert (SS : sqrt v * sqrt v = v) by (apply sqrt_sqrt; lra).
  unfold normal. fold d. assert (PP := PI_RGT_0).
  replace (- (d / sqrt v * (d / sqrt v)) / 2) with (- (1 / 2) * (d * 1 * d) / v) by (rewrite <- SS at 1; field; lra).
  unfold Rminus. rewrite exp_plus. match goal with |- _ * ?e = ?a / ?b => change (a * e = a * / b) end. apply (f_equal2 Rmult); [reflexivity|].
  unfold LOG2PI. replace (- (1 / 2 * (ln (2 * PI) + ln v))) with (- (ln (sqrt (2 * PI)) + ln (sqrt v))).
  - rewrite exp_Ropp, exp_plus, !exp_ln by (try apply sqrt_lt_R0; lra). rewrite (Rmult_comm (sqrt v)). reflexivity.
  - rewrite <- !Rpower_sqrt by lra. unfold Rpower. rewrite !ln_exp. field.
Qed.

Lemma normal_whole (mu s : R) : 0 < s -> whole (normal mu s) 1.
Proof.
  intro S. assert (PP := PI_RGT_0). assert (Q : 0 < sqrt (2 * PI)) by (apply sqrt_lt_R0; lra).
  assert (H := whole_gauss (/ (s * sqrt (2 * PI))) 1 (- mu) s ltac:(lra) S).
  replace (/ (s * sqrt (2 * PI)) * (s * sqrt (2 * PI) / 1)) with 1 in H by (field; lra).
  revert H. apply whole_ext. intro y. unfold normal. replace (1 * y + - mu) with (y - mu) by ring. unfold Rdiv at 4. apply Rmult_comm.
Qed.

Lemma normal_deviation (mu s : R) : 0 < s -> whole (fun y => (y - mu) * (y - mu) * normal mu s y) (s * s).
Proof.
  intro S. assert (PP := PI_RGT_0). assert (Q : 0 < sqrt (2 * PI)) by (apply sqrt_lt_R0; lra).
  assert (S2 : 0 < sqrt 2) by (apply sqrt_lt_R0; lra). assert (SS : sqrt 2 * sqrt 2 = 2) by (apply sqrt_sqrt; lra).
  (* the part that stays finite *)
  set (F := fun t : R => s * s * ((/ sqrt PI) * gi (t / (s * sqrt 2))) - s * t * exp (- (t / s * (t / s)) / 2) / sqrt (2 * PI)).
  assert (H : half (fun t => t * t * (exp (- (t / s * (t / s)) / 2) / (s * sqrt (2 * PI)))) (s * s / 2 - F 0)).
  { apply half_derive.
    - intros t _. unfold F. evar_last.
      + apply (is_derive_minus (V := R_NormedModule)).
        * apply (is_derive_scal (fun t => / sqrt PI * gi (t / (s * sqrt 2)))). apply (is_derive_scal (fun t => gi (t / (s * sqrt 2)))).
          apply (is_derive_comp gi (fun t : R => t / (s * sqrt 2))); [apply gi_derive|]. auto_derive; [exact Logic.I | reflexivity].
        * auto_derive; [exact Logic.I | reflexivity].
      + unfold minus, plus, opp, scal; cbn; unfold mult; cbn. unfold gs.
        replace (t / (s * sqrt 2) * (t / (s * sqrt 2))) with (t / s * (t / s) / 2) by (rewrite <- SS at 1; field; lra).
        replace (- (t / s * (t / s) / 2)) with (- (t / s * (t / s)) / 2) by (unfold Rdiv; ring).
        set (e := exp (- (t / s * (t / s)) / 2)). rewrite sqrt_mult by lra. assert (0 < sqrt PI) by (now apply sqrt_lt_R0).
        unfold e. match goal with |- ?a = ?b => change (@eq R a b) end. unfold Rdiv. field. lra.
    - intros t _. apply (ex_derive_continuous (V := R_NormedModule)). auto_derive. exact Logic.I.
    - unfold F. replace (s * s / 2) with (s * s * (/ sqrt PI * (sqrt PI / 2)) - 0) by (field; apply Rgt_not_eq; now apply sqrt_lt_R0).
      apply (is_lim_minus' _ (fun t => s * t * exp (- (t / s * (t / s)) / 2) / sqrt (2 * PI))).
      + apply (is_lim_scal_l (fun t => / sqrt PI * gi (t / (s * sqrt 2))) (s * s) p_infty (/ sqrt PI * (sqrt PI / 2))).
        apply (is_lim_scal_l (fun t => gi (t / (s * sqrt 2))) (/ sqrt PI) p_infty (sqrt PI / 2)).
        apply (is_lim_comp gi (fun t => t / (s * sqrt 2)) p_infty (sqrt PI / 2) p_infty); [apply gi_lim| |exists 0; intros y _; discriminate].
        apply (is_lim_ext (fun t => / (s * sqrt 2) * t + 0)); [intro t; unfold Rdiv; ring|].
        apply lim_affine; [apply Rinv_0_lt_compat; now apply Rmult_lt_0_compat | now left].
      + apply (lim_zero _ (s * (2 * (s * s)) / sqrt (2 * PI)) 0). intros t T.
        rewrite Rabs_right by (apply Rle_ge; apply Rmult_le_pos; [apply Rmult_le_pos; [nra | apply Rlt_le, exp_pos] | apply Rlt_le, Rinv_0_lt_compat; exact Q]).
        assert (X : exp (- (t / s * (t / s)) / 2) <= 2 * (s * s) / (t * t)).
        { replace (- (t / s * (t / s)) / 2) with (- (t / s * (t / s) / 2)) by (unfold Rdiv; ring). rewrite exp_Ropp.
          replace (2 * (s * s) / (t * t)) with (/ (t / s * (t / s) / 2)) by (field; lra).
          assert (0 < t / s * (t / s) / 2) by (apply Rdiv_lt_0_compat; [apply Rmult_lt_0_compat; apply Rdiv_lt_0_compat; lra | lra]).
          apply Rinv_le_contravar; [assumption|]. generalize (exp_ineq1_le (t / s * (t / s) / 2)). lra. }
        replace (s * (2 * (s * s)) / sqrt (2 * PI) / t) with (s * t * (2 * (s * s) / (t * t)) / sqrt (2 * PI)) by (field; lra).
        apply Rmult_le_compat_r; [apply Rlt_le, Rinv_0_lt_compat; exact Q|]. apply Rmult_le_compat_l; [nra | exact X]. }
  replace (F 0) with 0 in H.
  2:{ unfold F. replace (0 / (s * sqrt 2)) with 0 by (unfold Rdiv; ring). rewrite gi_0. unfold Rdiv. ring. }
  apply (whole_even _ _ mu) in H. replace (2 * (s * s / 2 - 0)) with (s * s) in H by field.
  revert H. apply whole_ext. intro y. rewrite sq_abs. unfold normal. replace (Rabs (y - mu) / s * (Rabs (y - mu) / s)) with ((y - mu) / s * ((y - mu) / s)); [reflexivity|].
  unfold Rdiv. transitivity ((y - mu) * (y - mu) * / s * / s); [ring|]. rewrite <- sq_abs. ring.
Qed.

Theorem C69_gauss p par s r : plain p -> length par = npars p -> 0 < s * s + varyy p r ->
  let sigma := sqrt (s * s + varyy p r) in
  (forall y, density gauss p (par ++ [s]) r y = normal (r_f r par) sigma y) /\
  normalised (density gauss p (par ++ [s]) r) /\
  deviation (density gauss p (par ++ [s]) r) (r_f r par) sigma /\
  (0 <= s -> acc p = ANone -> sigma = defaultSigma s).
Proof.
  intros PL L P sigma. assert (S : 0 < sigma) by (now apply sqrt_lt_R0).
  assert (E := fun y => gauss_density p par s r y PL L P). fold sigma in E.
  repeat split; try assumption.
  - intro y. rewrite E. apply Rlt_le. unfold normal. apply Rdiv_lt_0_compat; [apply exp_pos|]. apply Rmult_lt_0_compat; [exact S|].
    apply sqrt_lt_R0. generalize PI_RGT_0. lra.
  - apply (whole_ext (normal (r_f r par) sigma)); [intro; now rewrite E | now apply normal_whole].
  - lra.
  - apply (whole_ext (fun y => (y - r_f r par) * (y - r_f r par) * normal (r_f r par) sigma y)); [intro; now rewrite E | now apply normal_deviation].
  - intros S0 A. unfold sigma, defaultSigma, varyy. rewrite A, Rplus_0_r. apply sqrt_square. exact S0.
Qed.

(** ** Laplace *)
Lemma laplace_density p par s r y : plain p -> length par = npars p -> 0 < noise p r s ->
  density laplace p (par ++ [s]) r y = exp (- (Rabs (y - r_f r par) / noise p r s)) / (2 * noise p r s).
Proof.
  intros [W Q] L P. unfold density, laplace, laplace_ll. cbn [e_ll]. unfold expO. rewrite W, fromEnd_1, firstn_app_par by assumption.
  unfold residual. rewrite Q. cbn [datum r_y r_f]. change (noise p (datum y r) s) with (noise p r s).
  unfold Rminus at 1. rewrite exp_plus, exp_Ropp, exp_plus, !exp_ln by lra. unfold Rdiv. f_equal. f_equal. ring.
Qed.

Lemma laplace_half (s : R) : 0 < s -> half (fun t => exp (- (t / s)) / (2 * s)) (1 / 2).
Proof.
  intro S. replace (1 / 2) with (0 - - exp (- (0 / s)) / 2) by (replace (0 / s) with 0 by (unfold Rdiv; ring); rewrite Ropp_0, exp_0; lra).
  apply (half_derive (fun t => - exp (- (t / s)) / 2)).
  - intros t _. auto_derive; [exact Logic.I|]. match goal with |- ?a = ?b => change (@eq R a b) end. unfold Rdiv. field. lra.
  - intros t _. apply (ex_derive_continuous (V := R_NormedModule)). auto_derive. exact Logic.I.
  - apply (lim_zero _ (27 * s) s). intros t T. assert (U : 1 < t / s) by (apply (Rmult_lt_reg_r s); [exact S|]; replace (t / s * s) with t by (field; lra); lra).
    unfold Rdiv at 1. rewrite Rabs_mult, Rabs_Ropp, !Rabs_right by (try (apply Rle_ge, Rlt_le, exp_pos); lra).
    rewrite exp_Ropp. assert (X := exp_cube (t / s) ltac:(lra)). set (u := t / s) in *. replace t with (s * u) by (unfold u; field; lra). clearbody u.
    replace (27 * s / (s * u)) with (27 * / u) by (field; lra).
    assert (Y : u / 27 <= exp u) by (assert (u <= u * u * u) by nra; lra).
    apply Rinv_le_contravar in Y; [|lra]. replace (/ (u / 27)) with (27 * / u) in Y by (field; lra).
    assert (0 < / exp u) by (apply Rinv_0_lt_compat, exp_pos). lra.
Qed.

Lemma laplace_half2 (s : R) : 0 < s -> half (fun t => t * t * (exp (- (t / s)) / (2 * s))) (s * s).
Proof.
  intro S. replace (s * s) with (0 - - (0 * 0 + 2 * s * 0 + 2 * s * s) * exp (- (0 / s)) / 2) by (replace (0 / s) with 0 by (unfold Rdiv; ring); rewrite Ropp_0, exp_0; field).
  apply (half_derive (fun t => - (t * t + 2 * s * t + 2 * s * s) * exp (- (t / s)) / 2)).
  - intros t _. auto_derive; [exact Logic.I|]. match goal with |- ?a = ?b => change (@eq R a b) end. unfold Rdiv. field. lra.
  - intros t _. apply (ex_derive_continuous (V := R_NormedModule)). auto_derive. exact Logic.I.
  - apply (lim_zero _ (135 * s * s * s) s). intros t T. assert (U : 1 < t / s) by (apply (Rmult_lt_reg_r s); [exact S|]; replace (t / s * s) with t by (field; lra); lra).
    set (u := t / s) in *. assert (Et : t = s * u) by (unfold u; field; lra). clearbody u.
    assert (A0 : 0 < t * t + 2 * s * t + 2 * s * s) by (assert (0 < t) by lra; nra).
    assert (Z : t * t + 2 * s * t + 2 * s * s <= 5 * (s * s) * (u * u)).
    { rewrite Et. assert (u <= u * u) by (clear - U; nra). assert (1 <= u * u) by lra.
      replace (s * u * (s * u) + 2 * s * (s * u) + 2 * s * s) with (s * s * (u * u + 2 * u + 2)) by ring.
      replace (5 * (s * s) * (u * u)) with (s * s * (5 * (u * u))) by ring. apply Rmult_le_compat_l; [apply Rle_0_sqr | lra]. }
    set (A := t * t + 2 * s * t + 2 * s * s) in *. clearbody A.
    assert (X := exp_cube u ltac:(lra)).
    assert (Y : / exp u <= 27 / (u * u * u)).
    { replace (27 / (u * u * u)) with (/ (u * u * u / 27)) by (field; lra). apply Rinv_le_contravar; [|exact X].
      assert (0 < u * u * u) by (repeat (apply Rmult_lt_0_compat; [|lra]); lra). lra. }
    assert (Ep : 0 < / exp u) by (apply Rinv_0_lt_compat, exp_pos).
    assert (W : A * / exp u <= 5 * (s * s) * (u * u) * (27 / (u * u * u))) by (apply Rmult_le_compat; try assumption; lra).
    replace (5 * (s * s) * (u * u) * (27 / (u * u * u))) with (135 * s * s * s / t) in W by (rewrite Et; field; lra).
    assert (V : 0 < A * / exp u) by (apply Rmult_lt_0_compat; assumption).
    rewrite exp_Ropp. replace (- A * / exp u / 2) with (- (A * / exp u / 2)) by (unfold Rdiv; ring).
    rewrite Rabs_Ropp, Rabs_right by lra. lra.
Qed.

Theorem C69_laplace p par s r : plain p -> length par = npars p -> 0 < noise p r s ->
  let b := noise p r s in
  (forall y, density laplace p (par ++ [s]) r y = exp (- (Rabs (y - r_f r par) / b)) / (2 * b)) /\
  normalised (density laplace p (par ++ [s]) r) /\
  deviation (density laplace p (par ++ [s]) r) (r_f r par) (laplaceSigma b).
Proof.
  intros PL L P b. assert (E := fun y => laplace_density p par s r y PL L P). fold b in E, P.
  repeat split; try assumption.
  - intro y. rewrite E. apply Rlt_le, Rdiv_lt_0_compat; [apply exp_pos | lra].
  - apply (whole_even2 _ _ (r_f r par) _ _ (laplace_half b P)); [exact E | field].
  - unfold laplaceSigma. apply Rmult_le_pos; [lra | apply sqrt_pos].
  - apply (whole_even2 _ _ (r_f r par) _ _ (laplace_half2 b P)); [intro; cbv beta; now rewrite E, sq_abs|].
    unfold laplaceSigma. transitivity (b * b * (sqrt 2 * sqrt 2)); [ring | rewrite sqrt_sqrt by lra; ring].
Qed.

(** ** Cauchy *)
Lemma sq_pos (x b : R) : 0 < b -> 0 < x * x + b * b.
Proof. intro B. nra. Qed.

Lemma cauchy_density p par s r y : period p = None -> 0 < noise p r s ->
  density cauchy p (par ++ [s]) r y = noise p r s / (PI * ((y - r_f r par) * (y - r_f r par) + noise p r s * noise p r s)).
Proof.
  intros Q P. unfold density, cauchy, cauchy_ll. cbn [e_ll]. unfold expO. rewrite fromEnd_1, dropEnd_1.
  unfold residual. rewrite Q. cbn [datum r_y r_f]. change (noise p (datum y r) s) with (noise p r s). set (b := noise p r s) in *.
  set (d := y - r_f r par). assert (0 < d * d + b * b) by now apply sq_pos. assert (PP := PI_RGT_0).
  unfold Rminus. rewrite !exp_plus, !exp_Ropp, !exp_ln by lra. field. split; lra.
Qed.

Theorem C69_cauchy p par s r : period p = None -> 0 < noise p r s ->
  let b := noise p r s in
  (forall y, density cauchy p (par ++ [s]) r y = b / (PI * ((y - r_f r par) * (y - r_f r par) + b * b))) /\
  normalised (density cauchy p (par ++ [s]) r).
Proof.
  intros Q P b. assert (E := fun y => cauchy_density p par s r y Q P). fold b in E, P. assert (PP := PI_RGT_0).
  repeat split; try assumption.
  - intro y. rewrite E. apply Rlt_le, Rdiv_lt_0_compat; [lra|]. apply Rmult_lt_0_compat; [exact PP | now apply sq_pos].
  - apply (whole_even2 _ (fun t => b / (PI * (t * t + b * b))) (r_f r par) (1 / PI * (PI / 2) - 1 / PI * atan (0 / b)));
      [|intro; cbv beta; now rewrite E, sq_abs|replace (0 / b) with 0 by (unfold Rdiv; ring); rewrite atan_0; field; lra].
    apply (half_derive (fun t => 1 / PI * atan (t / b))).
    + intros t _. auto_derive; [exact Logic.I|].
      match goal with |- ?a = ?b => change (@eq R a b) end. unfold Rsqr, Rdiv. field. generalize (sq_pos t b P). repeat split; apply Rgt_not_eq; lra.
    + intros t _. apply (ex_derive_continuous (V := R_NormedModule)). auto_derive. assert (0 < PI * (t * t + b * b)) by (apply Rmult_lt_0_compat; [exact PP | now apply sq_pos]). lra.
    + apply (is_lim_scal_l (fun y => atan (y / b)) (1 / PI) p_infty (PI / 2)).
      apply (is_lim_comp atan (fun y => y / b) p_infty (PI / 2) p_infty); [apply atan_lim| |exists 0; intros y _; discriminate].
      apply (is_lim_ext (fun t => / b * t + 0)); [intro; field; lra | apply lim_affine; [now apply Rinv_0_lt_compat | now left]].
Qed.

(** toSigma of the Cauchy distribution is the scale: no number is its standard deviation. *)
Theorem C69_cauchy_sigma_refuted p par s r : period p = None -> 0 < noise p r s ->
  forall sigma, ~ deviation (density cauchy p (par ++ [s]) r) (r_f r par) sigma.
Proof.
  intros Q P sigma [_ H]. set (b := noise p r s) in *. set (m := r_f r par) in *. assert (PP := PI_RGT_0).
  destruct (whole_elim _ _ H 1 ltac:(lra)) as (M & K).
  set (F := fun y : R => b / PI * ((y - m) - b * atan ((y - m) / b))).
  assert (D : forall a c, a < - M -> M < c -> Rabs (F c - F a - sigma * sigma) < 1).
  { intros a c A C. destruct (K a c A C) as (i & I & J). rewrite <- (is_RInt_unique _ _ _ _ I) in J. 
    rewrite (is_RInt_unique _ a c (F c - F a)) in J; [exact J|].
    apply (is_RInt_ext (V := R_NormedModule) (fun y => (y - m) * (y - m) * (b / (PI * ((y - m) * (y - m) + b * b))))).
    { intros y _. unfold b, m. rewrite cauchy_density by assumption. reflexivity. }
    apply (is_RInt_derive (V := R_CompleteNormedModule)).
    - intros t _. unfold F. auto_derive; [exact Logic.I|]. match goal with |- ?a = ?b => change (@eq R a b) end. unfold Rsqr, Rdiv. field. generalize (sq_pos (t - m) b P). repeat split; apply Rgt_not_eq; lra.
    - intros t _. apply (ex_derive_continuous (V := R_NormedModule)). auto_derive. assert (0 < PI * ((t - m) * (t - m) + b * b)) by (apply Rmult_lt_0_compat; [exact PP | now apply sq_pos]). lra. }
  set (a := - M - 1). set (c1 := Rabs M + 1). set (c2 := c1 + (2 + b * b) * PI / b).
  assert (C1 : M < c1) by (generalize (Rle_abs M); unfold c1; lra).
  assert (Z : 0 < (2 + b * b) * PI / b) by (apply Rdiv_lt_0_compat; [apply Rmult_lt_0_compat; [generalize (Rle_0_sqr b); unfold Rsqr; lra | exact PP] | exact P]).
  assert (D1 := D a c1 ltac:(unfold a; lra) C1). assert (D2 := D a c2 ltac:(unfold a; lra) ltac:(unfold c2; lra)).
  assert (X : F c2 - F c1 >= 2).
  { replace (F c2 - F c1) with (b / PI * ((c2 - c1) - b * (atan ((c2 - m) / b) - atan ((c1 - m) / b)))) by (unfold F; ring).
    assert (T : atan ((c2 - m) / b) - atan ((c1 - m) / b) <= PI) by (generalize (atan_bound ((c2 - m) / b)) (atan_bound ((c1 - m) / b)); lra).
    set (q := atan ((c2 - m) / b) - atan ((c1 - m) / b)) in *.
    replace (c2 - c1) with ((2 + b * b) * PI / b) by (unfold c2; ring).
    replace (b / PI * ((2 + b * b) * PI / b - b * q)) with (2 + b * b * (1 - q / PI)) by (field; lra).
    assert (q / PI <= 1) by (apply (Rmult_le_reg_r PI); [lra|]; replace (q / PI * PI) with q by (field; lra); lra).
    assert (0 <= b * b * (1 - q / PI)) by (apply Rmult_le_pos; nra). lra. }
  apply Rabs_def2 in D1. apply Rabs_def2 in D2. lra.
Qed.

(** ** Uniform *)
Lemma uniform_density p par s r y : hasW p = false -> 0 < noise p r s ->
  density uniform p (par ++ [s]) r y = if Rlt_dec (Rabs (y - r_f r par)) (noise p r s) then 1 / (2 * noise p r s) else 0.
Proof.
  intros W P. unfold density, uniform, uniform_ll. cbn [e_ll]. rewrite fromEnd_1, dropEnd_1, W. cbn [datum r_y r_f].
  change (noise p (datum y r) s) with (noise p r s).
  destruct (Rlt_dec _ _); [|reflexivity]. cbn [expO]. rewrite exp_Ropp, exp_ln by lra. unfold Rdiv. ring.
Qed.

Theorem C69_uniform p par s r : hasW p = false -> 0 < noise p r s ->
  let b := noise p r s in
  (forall y, density uniform p (par ++ [s]) r y = if Rlt_dec (Rabs (y - r_f r par)) b then 1 / (2 * b) else 0) /\
  normalised (density uniform p (par ++ [s]) r) /\
  deviation (density uniform p (par ++ [s]) r) (r_f r par) (uniformSigma b).
Proof.
  intros W P b. assert (E := fun y => uniform_density p par s r y W P). fold b in E, P.
  repeat split; try assumption.
  - intro y. rewrite E. destruct (Rlt_dec _ _); [apply Rlt_le, Rdiv_lt_0_compat; lra | lra].
  - apply (whole_even2 _ (fun t => if Rlt_dec t b then 1 / (2 * b) else 0) (r_f r par) (1 / 2)); [|exact E|field].
    apply (half_stop (fun _ => 1 / (2 * b)) _ b); [exact P| | |].
    + replace (1 / 2) with (scal (b - 0) (1 / (2 * b))) by (unfold scal; cbn; unfold mult; cbn; field; lra). apply (is_RInt_const (V := R_NormedModule)).
    + intros t T. destruct (Rlt_dec t b); lra.
    + intros t T. destruct (Rlt_dec t b); lra.
  - unfold uniformSigma. apply Rmult_le_pos; [lra | apply Rlt_le, Rinv_0_lt_compat, sqrt_lt_R0; lra].
  - apply (whole_even2 _ (fun t => t * t * if Rlt_dec t b then 1 / (2 * b) else 0) (r_f r par) (b * b / 6)); [|intro; cbv beta; now rewrite E, sq_abs|].
    + apply (half_stop (fun t => t * t * (1 / (2 * b))) _ b); [exact P| | |].
      * replace (b * b / 6) with (b * b * b * (1 / (6 * b)) - 0 * 0 * 0 * (1 / (6 * b))) by (field; lra).
        apply (is_RInt_derive (V := R_CompleteNormedModule) (fun t => t * t * t * (1 / (6 * b)))).
        { intros t _. auto_derive; [exact Logic.I|]. match goal with |- ?a = ?b => change (@eq R a b) end. field. lra. }
        { intros t _. apply (ex_derive_continuous (V := R_NormedModule)). auto_derive. exact Logic.I. }
      * intros t T. destruct (Rlt_dec t b); lra.
      * intros t T. destruct (Rlt_dec t b); [lra|ring].
    + unfold uniformSigma. assert (0 < sqrt 12) by (apply sqrt_lt_R0; lra). assert (S12 : sqrt 12 * sqrt 12 = 12) by (apply sqrt_sqrt; lra).
      transitivity (4 * (b * b) / (sqrt 12 * sqrt 12)); [field; lra | rewrite S12; field].
Qed.

(** ** Exponential power *)
Lemma expo_density gl psi p par s w r y : plain p -> 0 < noise p r s -> 0 < w ->
  density (expo gl psi) p (par ++ [s; w]) r y =
  w / (2 * noise p r s * exp (gl (1 / w))) * exp (- npow (Rabs (y - r_f r par) / noise p r s) w).
Proof.
  intros [W Q] P Pw. unfold density, expo, expo_ll. cbn [e_ll]. unfold expO. rewrite W, fromEnd_2b, fromEnd_1b, dropEnd_2.
  unfold residual. rewrite Q. cbn [datum r_y r_f]. change (noise p (datum y r) s) with (noise p r s). set (b := noise p r s) in *.
  rewrite exp_plus. unfold Rminus at 2. rewrite exp_plus, (exp_Ropp (gl (1 / w))), exp_ln by (apply Rdiv_lt_0_compat; lra).
  replace (Rabs ((y - r_f r par) / b)) with (Rabs (y - r_f r par) / b) by (unfold Rdiv; rewrite Rabs_mult, (Rabs_right (/ b)); [reflexivity | apply Rle_ge, Rlt_le, Rinv_0_lt_compat; exact P]).
  assert (0 < exp (gl (1 / w))) by apply exp_pos. field. lra.
Qed.

Theorem C69_exponential gl psi gamma p par s w r : plain p -> 0 < noise p r s -> 0 < w ->
  isGamma (1 / w) (gamma (1 / w)) -> gl (1 / w) = ln (gamma (1 / w)) -> 0 < gamma (1 / w) ->
  let b := noise p r s in
  (forall y, density (expo gl psi) p (par ++ [s; w]) r y = w / (2 * b * gamma (1 / w)) * exp (- npow (Rabs (y - r_f r par) / b) w)) /\
  normalised (density (expo gl psi) p (par ++ [s; w]) r) /\
  (isGamma (3 / w) (gamma (3 / w)) -> 0 <= gamma (3 / w) ->
   deviation (density (expo gl psi) p (par ++ [s; w]) r) (r_f r par) (expoSigma gamma b w)).
Proof.
  intros PL P Pw G1 GL GP b. assert (E := fun y => expo_density gl psi p par s w r y PL P Pw). rewrite GL, exp_ln in E by exact GP. fold b in E, P.
  set (g := gamma (1 / w)) in *. repeat split; try assumption.
  - intro y. rewrite E. apply Rmult_le_pos; [apply Rlt_le, Rdiv_lt_0_compat; [lra | repeat apply Rmult_lt_0_compat; lra] | apply Rlt_le, exp_pos].
  - apply (whole_even2 _ (fun t => w / (2 * b * g) * (t ^ 0 * exp (- npow (t / b) w))) (r_f r par) (w / (2 * b * g) * (b ^ (0 + 1) / w * g)));
      [|intro; cbv beta; rewrite E; cbn [pow]; now rewrite Rmult_1_l|cbn [Nat.add pow]; field; lra].
    apply (half_scal (fun t => t ^ 0 * exp (- npow (t / b) w))). apply expo_half; try assumption. cbn [INR]. now rewrite Rplus_0_l.
  - unfold expoSigma. apply Rmult_le_pos; [lra | apply sqrt_pos].
  - apply (whole_even2 _ (fun t => w / (2 * b * g) * (t ^ 2 * exp (- npow (t / b) w))) (r_f r par) (w / (2 * b * g) * (b ^ (2 + 1) / w * gamma (3 / w)))).
    2:{ intro y. cbv beta. rewrite E. cbn [pow]. rewrite Rmult_1_r, sq_abs. ring. }
    + apply (half_scal (fun t => t ^ 2 * exp (- npow (t / b) w))). apply expo_half; try assumption. replace (INR 2 + 1) with 3 by (cbn; ring). assumption.
    + unfold expoSigma. fold g. transitivity (b * b * (sqrt (gamma (3 / w) / g) * sqrt (gamma (3 / w) / g))); [ring|].
      rewrite sqrt_sqrt by (apply Rmult_le_pos; [assumption | apply Rlt_le, Rinv_0_lt_compat; exact GP]). cbn [Nat.add pow]. field. lra.
Qed.

(** ** Poisson *)
Lemma poisson_density lf p par r k : 0 < r_f r par -> lf (INR k) = ln (INR (fact k)) ->
  density (poisson lf) p par r (INR k) = r_f r par ^ k / (exp (r_f r par) * INR (fact k)).
Proof.
  intros P LF. unfold density, poisson, poisson_ll. cbn [e_ll datum r_y r_f]. destruct (Rlt_dec 0 (r_f r par)); [|contradiction]. cbn [expO].
  rewrite LF. assert (F := INR_fact_lt_0 k). unfold Rminus. rewrite !exp_plus, !exp_Ropp, exp_ln by exact F.
  replace (exp (INR k * ln (r_f r par))) with (r_f r par ^ k) by (symmetry; exact (Rpower_pow k _ P)).
  field. split; [lra | apply Rgt_not_eq, exp_pos].
Qed.

Lemma poisson_sum (m : R) : is_series (fun k => m ^ k / (exp m * INR (fact k))) 1.
Proof.
  assert (H := is_exp_Reals m). unfold is_pseries in H. apply (is_series_scal_l (/ exp m)) in H.
  assert (E : exp m <> 0) by (apply Rgt_not_eq, exp_pos).
  evar_last; [apply (is_series_ext (V := R_NormedModule)) with (2 := H)|unfold scal; cbn; unfold mult; cbn; field; exact E]. intro k. rewrite pow_n_pow. unfold scal; cbn; unfold mult; cbn.
  field. split; [apply INR_fact_neq_0 | exact E].
Qed.

Theorem C69_poisson lf p par r : 0 < r_f r par -> (forall k, lf (INR k) = ln (INR (fact k))) ->
  let d k := density (poisson lf) p par r (INR k) in
  (forall k, d k = r_f r par ^ k / (exp (r_f r par) * INR (fact k))) /\ (forall k, 0 <= d k) /\ is_series d 1 /\
  is_series (fun k => INR k * d k) (r_f r par).
Proof.
  intros P LF d. assert (E : forall k, d k = r_f r par ^ k / (exp (r_f r par) * INR (fact k))) by (intro k; now apply poisson_density).
  repeat split; try assumption.
  - intro k. rewrite E. apply Rlt_le, Rdiv_lt_0_compat; [now apply pow_lt|]. apply Rmult_lt_0_compat; [apply exp_pos | apply INR_fact_lt_0].
  - apply (is_series_ext (V := R_NormedModule)) with (2 := poisson_sum (r_f r par)). intro k. symmetry. apply E.
  - replace (r_f r par) with (plus (r_f r par) (INR 0 * d 0%nat)) by (unfold plus; cbn; ring).
    apply (is_series_decr_1 (V := R_NormedModule)). 
    evar_last; [apply (is_series_ext (V := R_NormedModule)) with (2 := is_series_scal_l (V := R_NormedModule) (r_f r par) _ _ (poisson_sum (r_f r par)))|].
    + intro k. rewrite E. unfold scal; cbn [fact]; cbn -[INR pow]; unfold mult; cbn -[INR pow]. 
      change (fact k + k * fact k)%nat with (S k * fact k)%nat. rewrite mult_INR. cbn [pow].
      assert (INR (S k) <> 0) by (apply not_0_INR; lia). field. repeat split; [apply INR_fact_neq_0 | assumption | apply Rgt_not_eq, exp_pos].
    + unfold plus, opp, scal; cbn; unfold mult; cbn. ring.
Qed.

(** ** Bernoulli *)
Theorem C69_bernoulli p par r : 0 <= r_f r par <= 1 ->
  density bernoulli p par r 0 = r_f r par /\ density bernoulli p par r 1 = 1 - r_f r par /\
  density bernoulli p par r 0 + density bernoulli p par r 1 = 1.
Proof.
  intros B. assert (H : forall v, 0 <= v -> expO (if Rlt_dec 0 v then Some (ln v) else None) = v).
  { intros v V. destruct (Rlt_dec 0 v) as [L|L]; cbn [expO]; [now apply exp_ln | lra]. }
  assert (D0 : density bernoulli p par r 0 = r_f r par).
  { unfold density, bernoulli, bernoulli_ll. cbn [e_ll datum r_y r_f]. destruct (Req_EM_T 0 0); [|lra]. apply H. lra. }
  assert (D1 : density bernoulli p par r 1 = 1 - r_f r par).
  { unfold density, bernoulli, bernoulli_ll. cbn [e_ll datum r_y r_f]. destruct (Req_EM_T 1 0); [lra|]. apply H. lra. }
  rewrite D0, D1. repeat split. ring.
Qed.

(** The class documents a likelihood x for a True and 1 - x for a False datum, x the value of the model (BernoulliErrorDistribution.py:37-40); it is the other way around: a datum that equals 0 (False) has likelihood x. *)
Theorem C69_bernoulli_refuted : exists p par r, 0 <= r_f r par <= 1 /\ density bernoulli p par r 1 <> r_f r par.
Proof.
  exists (mkProblem [] false ANone None 1), [1/4], (mkRow 1 1 1 (fun q => nth 0 q 0) (fun _ _ => 1)).
  cbn [r_f nth]. split; [lra|]. destruct (C69_bernoulli (mkProblem [] false ANone None 1) [1/4] (mkRow 1 1 1 (fun q => nth 0 q 0) (fun _ _ => 1))) as (_ & D & _); [cbn; lra|].
  rewrite D. cbn [r_f nth]. lra.
Qed.

(** ** Mixed *)
Theorem C69_mixed e1 e2 p par s1 s2 f r : e_nh e1 = 1%nat -> e_nh e2 = 1%nat -> 0 <= f <= 1 ->
  (forall y, density (mixed e1 e2) p (par ++ [s1; s2; f]) r y = f * density e1 p (par ++ [s1]) r y + (1 - f) * density e2 p (par ++ [s2]) r y) /\
  (normalised (density e1 p (par ++ [s1]) r) -> normalised (density e2 p (par ++ [s2]) r) -> normalised (density (mixed e1 e2) p (par ++ [s1; s2; f]) r)).
Proof.
  intros N1 N2 F.
  assert (E : forall y, density (mixed e1 e2) p (par ++ [s1; s2; f]) r y = f * density e1 p (par ++ [s1]) r y + (1 - f) * density e2 p (par ++ [s2]) r y).
  { intro y. unfold density, mixed. cbn [e_ll]. unfold mixed_ll. rewrite fromEnd_1c, (mix_p1_eq e2 N2), (mix_p2_eq e1 e2 (mkProblem [] false ANone None 0) [] N1 N2 eq_refl).
    destruct (Rle_dec f 0) as [L|L]; [replace f with 0 by lra; ring|]. destruct (Rle_dec 1 f) as [M|M]; [replace f with 1 by lra; ring|].
    destruct (e_ll e1 p (par ++ [s1]) (datum y r)) as [a|]; destruct (e_ll e2 p (par ++ [s2]) (datum y r)) as [b|]; cbn [option_map logaddexp expO];
      rewrite ?exp_ln by (generalize (exp_pos (a + ln f)) (exp_pos (b + ln (1 - f))); lra); rewrite ?exp_plus, ?exp_ln by lra; ring. }
  split; [exact E|]. intros [P1 W1] [P2 W2]. split.
  - intro y. rewrite E. specialize (P1 y). specialize (P2 y). apply Rplus_le_le_0_compat; apply Rmult_le_pos; lra.
  - apply (whole_ext (fun y => f * density e1 p (par ++ [s1]) r y + (1 - f) * density e2 p (par ++ [s2]) r y)); [intro; now rewrite E|].
    assert (X := whole_plus _ _ _ _ (whole_scal _ f _ W1) (whole_scal _ (1 - f) _ W2)). cbv beta in X.
    replace (f * 1 + (1 - f) * 1) with 1 in X by ring. exact X.
Qed.

(** ** A cyclic model *)
(** In a cyclic problem residuals are folded into one period, the density is not: over one period of data the likelihood adds up to less than 1, for Laplace to 1 - exp( - q / 2s ). *)
Theorem C69_cyclic_refuted p par s r q : hasW p = false -> period p = Some q -> 0 < q -> length par = npars p -> 0 < noise p r s ->
  let b := noise p r s in let m := r_f r par in
  is_RInt (density laplace p (par ++ [s]) r) (m - q / 2) (m + q / 2) (1 - exp (- (q / 2 / b))) /\ 1 - exp (- (q / 2 / b)) < 1.
Proof.
  intros W Q Q0 L P b m. split; [|generalize (exp_pos (- (q / 2 / b))); lra].
  assert (E : forall y, m - q / 2 < y < m + q / 2 -> density laplace p (par ++ [s]) r y = exp (- (Rabs (y - m) / b)) / (2 * b)).
  { intros y Y. transitivity (density laplace (mkProblem (rows p) (hasW p) (acc p) None (npars p)) (par ++ [s]) r y);
      [|exact (laplace_density (mkProblem (rows p) (hasW p) (acc p) None (npars p)) par s r y (conj W eq_refl) L P)].
    unfold density, laplace, laplace_ll. cbn [e_ll]. unfold residual. rewrite Q, !firstn_app_par by exact L. cbn [period npars datum r_y r_f]. fold m.
    unfold cyclize. destruct (Rlt_dec _ _); [lra|]. destruct (Rlt_dec _ _); [lra|]. reflexivity. }
  apply (is_RInt_ext (V := R_NormedModule) (fun y => exp (- (Rabs (y - m) / b)) / (2 * b))).
  { rewrite Rmin_left, Rmax_right by lra. intros y Y. symmetry. now apply E. }
  fold b in P. set (h := q / 2) in *. assert (H : 0 < h) by (unfold h; lra).
  assert (K : is_RInt (V := R_NormedModule) (fun t => exp (- (t / b)) / (2 * b)) 0 h (1 / 2 - exp (- (h / b)) / 2)).
  { replace (1 / 2 - exp (- (h / b)) / 2) with (minus (- exp (- (h / b)) / 2) (- exp (- (0 / b)) / 2)).
    - apply (is_RInt_derive (V := R_CompleteNormedModule) (fun t => - exp (- (t / b)) / 2)).
      + intros t _. auto_derive; [exact Logic.I|]. match goal with |- ?a = ?b => change (@eq R a b) end. unfold Rdiv. field. lra.
      + intros t _. apply (ex_derive_continuous (V := R_NormedModule)). auto_derive. exact Logic.I.
    - unfold minus, plus, opp; cbn. replace (0 / b) with 0 by (unfold Rdiv; ring). rewrite Ropp_0, exp_0. field. }
  replace (1 - exp (- (h / b))) with (plus (1 / 2 - exp (- (h / b)) / 2) (1 / 2 - exp (- (h / b)) / 2)) by (unfold plus; cbn; field).
  apply (is_RInt_Chasles (V := R_NormedModule) _ (m - h) m (m + h)).
  - assert (X : is_RInt (V := R_NormedModule) (fun y => scal (-1) (exp (- ((-1 * y + m) / b)) / (2 * b))) m (m - h) (1 / 2 - exp (- (h / b)) / 2)).
    { apply (is_RInt_comp_lin (V := R_NormedModule) (fun t => exp (- (t / b)) / (2 * b))). replace (-1 * m + m) with 0 by ring. replace (-1 * (m - h) + m) with h by ring. exact K. }
    apply (is_RInt_swap (V := R_NormedModule)) in X. apply (is_RInt_opp (V := R_NormedModule)) in X. rewrite opp_opp in X.
    apply (is_RInt_ext (V := R_NormedModule)) with (2 := X). intros x Hx. rewrite Rmin_left, Rmax_right in Hx by lra. unfold opp, scal; cbn; unfold mult; cbn.
    rewrite Rabs_left by lra. replace (-1 * x + m) with (- (x - m)) by ring. ring.
  - assert (X : is_RInt (V := R_NormedModule) (fun y => scal 1 (exp (- ((1 * y + - m) / b)) / (2 * b))) m (m + h) (1 / 2 - exp (- (h / b)) / 2)).
    { apply (is_RInt_comp_lin (V := R_NormedModule) (fun t => exp (- (t / b)) / (2 * b))). replace (1 * m + - m) with 0 by ring. replace (1 * (m + h) + - m) with h by ring. exact K. }
    apply (is_RInt_ext (V := R_NormedModule)) with (2 := X). intros x Hx. rewrite Rmin_left, Rmax_right in Hx by lra. unfold scal; cbn; unfold mult; cbn.
    rewrite Rabs_right by lra. replace (1 * x + - m) with (x - m) by ring. ring.
Qed.

(** ** Cases *)
Definition drow : row := mkRow 2 1 (1/2) (fun q => nth 0 q 0) (fun _ _ => 1).
Definition dprob (a : accuracy) : problem := mkProblem [drow] false a None 1.

Example C69_plain_example : plain (dprob AArray) /\ length [3] = npars (dprob AArray) /\ 0 < 2 * 2 + varyy (dprob AArray) drow /\ 0 < noise (dprob AArray) drow 2 /\
  varyy (dprob AArray) drow = 1 / 4 /\ r_f drow [3] = 3.
Proof. unfold plain, varyy, noise. cbn. repeat split; lra. Qed.

Lemma gamma_one : isGamma 1 1.
Proof.
  replace 1 with (0 - -1) at 2 by ring. apply (isGamma_intro (fun u => exp (- u)) (fun u => - exp (- u))).
  - intros u U. replace (1 - 1) with 0 by ring. rewrite Rpower_O by exact U. ring.
  - intro u. auto_derive; [exact Logic.I | ring].
  - intro u. apply (ex_derive_continuous (V := R_NormedModule)). auto_derive. exact Logic.I.
  - rewrite Ropp_0, exp_0. reflexivity.
  - apply (lim_zero _ 1 0). intros t T. rewrite Rabs_Ropp, Rabs_right by (apply Rle_ge, Rlt_le, exp_pos). rewrite exp_Ropp. unfold Rdiv. rewrite Rmult_1_l.
    apply Rinv_le_contravar; [exact T|]. generalize (exp_ineq1_le t). lra.
Qed.

Lemma gamma_three : isGamma 3 2.
Proof.
  replace 2 with (0 - -2) by ring. apply (isGamma_intro (fun u => u * u * exp (- u)) (fun u => - (u * u + 2 * u + 2) * exp (- u))).
  - intros u U. replace (3 - 1) with (INR 2) by (cbn; ring). rewrite Rpower_pow by exact U. cbn. ring.
  - intro u. auto_derive; [exact Logic.I | ring].
  - intro u. apply (ex_derive_continuous (V := R_NormedModule)). auto_derive. exact Logic.I.
  - rewrite Ropp_0, exp_0. ring.
  - apply (lim_zero _ (5 * 27) 1). intros t T. rewrite <- (Rabs_Ropp (_ * _)). replace (- (- (t * t + 2 * t + 2) * exp (- t))) with ((t * t + 2 * t + 2) * exp (- t)) by ring.
    rewrite Rabs_right by (apply Rle_ge, Rmult_le_pos; [nra | apply Rlt_le, exp_pos]). rewrite exp_Ropp.
    assert (X := exp_cube t ltac:(lra)). assert (T3 : 0 < t * t * t) by (repeat (apply Rmult_lt_0_compat; [|lra]); lra).
    apply Rinv_le_contravar in X; [|lra]. replace (/ (t * t * t / 27)) with (27 / (t * t * t)) in X by (field; lra).
    replace (5 * 27 / t) with (5 * (t * t) * (27 / (t * t * t))) by (field; lra). apply Rmult_le_compat; [nra | apply Rlt_le, Rinv_0_lt_compat, exp_pos | nra | exact X].
Qed.

(** power 1: the exponential distribution is that of Laplace *)
Example C69_exponential_example : exists gl gamma, isGamma (1 / 1) (gamma (1 / 1)) /\ gl (1 / 1) = ln (gamma (1 / 1)) /\ 0 < gamma (1 / 1) /\ isGamma (3 / 1) (gamma (3 / 1)) /\ 0 <= gamma (3 / 1) /\
  expoSigma gamma 2 1 = laplaceSigma 2.
Proof.
  exists (fun _ => 0), (fun a => if Req_EM_T a 1 then 1 else 2). replace (1 / 1) with 1 by field. replace (3 / 1) with 3 by field.
  destruct (Req_EM_T 1 1) as [_|]; [|lra]. destruct (Req_EM_T 3 1); [lra|]. rewrite ln_1. repeat split; try lra; [apply gamma_one | apply gamma_three|].
  unfold expoSigma, laplaceSigma. replace (1 / 1) with 1 by field. replace (3 / 1) with 3 by field. destruct (Req_EM_T 1 1) as [_|]; [|lra]. destruct (Req_EM_T 3 1); [lra|].
  replace (2 / 1) with 2 by field. reflexivity.
Qed.

Example C69_mixed_example : normalised (density (mixed gauss cauchy) (dprob ANone) ([3] ++ [2; 1/2; 1/3]) drow).
Proof.
  apply (proj2 (C69_mixed gauss cauchy (dprob ANone) [3] 2 (1/2) (1/3) drow eq_refl eq_refl ltac:(lra))).
  - apply (C69_gauss (dprob ANone) [3] 2 drow); [split; reflexivity | reflexivity | unfold varyy; cbn; lra].
  - apply (C69_cauchy (dprob ANone) [3] (1/2) drow); [reflexivity | unfold noise; cbn; lra].
Qed.

Print Assumptions C69_gauss.
Print Assumptions C69_laplace.
Print Assumptions C69_cauchy.
Print Assumptions C69_cauchy_sigma_refuted.
Print Assumptions C69_uniform.
Print Assumptions C69_exponential.
Print Assumptions C69_poisson.
Print Assumptions C69_bernoulli.
Print Assumptions C69_bernoulli_refuted.
Print Assumptions C69_mixed.
Print Assumptions C69_cyclic_refuted.
