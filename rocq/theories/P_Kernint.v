(** Integrals, squared forms and widths of the kernels. *)
From Coquelicot Require Import Coquelicot.
From Coq Require Import Reals Lra Lia List.
From Verif Require Import M_Elem M_Kernel S_Kernel P_Kernel P_Tophat P_Kernels P_Elem L_Erf.
Import ListNotations.
Local Open Scope R_scope.

Lemma whole_finite (f : R -> R) (m I : R) : 0 <= m -> (forall x, f (- x) = f x) ->
  (forall a, m <= a -> is_RInt f 0 a I) -> whole_integral f (2 * I).
Proof.
  intros M E H. split; [|apply total_intro with m; assumption].
  intros a. apply (ex_RInt_inside (V := R_CompleteNormedModule)) with (x := 0) (e := m + Rabs a).
  - exists (2 * I). rewrite Rminus_0_l, Rplus_0_l. assert (Q := Rabs_pos a). apply even_RInt; [lra|exact E|apply H; lra].
  - rewrite Rminus_0_r, Rabs_Ropp. lra.
  - rewrite Rminus_0_r. lra.
Qed.

Lemma radial_int K r r' cs m (I : R) : radial K r r' cs m -> (forall a, m <= a -> is_RInt r 0 a (I / 2)) ->
  whole_integral (k_result K) I.
Proof.
  intros Rd H. replace I with (2 * (I / 2)) by field.
  assert (M := rad_m _ _ _ _ _ Rd).
  apply whole_finite with m; [lra|apply (radial_even _ _ _ _ _ Rd)|].
  intros a A. apply is_RInt_ext with r; [|apply H; exact A].
  intros x. rewrite Rmin_left by lra. intros X. rewrite (rad_res _ _ _ _ _ Rd), Rabs_pos_eq by lra. reflexivity.
Qed.

Ltac int1 F := intros a A;
  lazymatch goal with |- is_RInt _ _ _ ?v => replace v with (v + 0) by ring end;
  apply (ite_RInt 1); [lra| |apply zero_RInt]; prim F.

Lemma biweight_int : whole_integral (k_result biweight) (16/15).
Proof. apply (radial_int _ _ _ _ _ _ biweight_radial). int1 (fun x : R => x - 2/3*x*x*x + x*x*x*x*x/5). Qed.

Lemma triweight_int : whole_integral (k_result triweight) (32/35).
Proof. apply (radial_int _ _ _ _ _ _ triweight_radial). int1 (fun x : R => x - x*x*x + 3/5*x*x*x*x*x - x*x*x*x*x*x*x/7). Qed.

Lemma tricube_int : whole_integral (k_result tricube) (81/70).
Proof. apply (radial_int _ _ _ _ _ _ tricube_radial). int1 (fun x : R => x - 3/4*x*x*x*x + 3/7*x*x*x*x*x*x*x - x*x*x*x*x*x*x*x*x*x/10). Qed.

Lemma parabola_int : whole_integral (k_result parabola) (4/3).
Proof. apply (radial_int _ _ _ _ _ _ parabola_radial). int1 (fun x : R => x - x*x*x/3). Qed.

Lemma triangle_int : whole_integral (k_result triangle) 1.
Proof. apply (radial_int _ _ _ _ _ _ triangle_radial). int1 (fun x : R => x - x*x/2). Qed.

Lemma box_int (c a : R) : 0 < c <= a -> is_RInt (box c) 0 a c.
Proof.
  intros [P A]. replace c with (c + 0) at 2 by ring.
  apply (is_RInt_Chasles (V := R_NormedModule)) with c.
  - apply is_RInt_ext with (fun _ => 1).
    + intros x. rewrite Rmin_left, Rmax_right by lra. intros X. unfold box, where_. cases. reflexivity.
    + prim (fun x : R => x).
  - apply is_RInt_ext with (fun _ => 0); [|apply zero_RInt].
    intros x. rewrite Rmin_left, Rmax_right by lra. intros X. unfold box, where_. cases. reflexivity.
Qed.

Lemma uniform_int : whole_integral (k_result uniformk) 2.
Proof. apply (radial_int _ _ _ _ _ _ uniform_radial). intros a A. replace (2 / 2) with 1 by field. apply box_int; lra. Qed.

Lemma cosine_int : whole_integral (k_result cosine) (4 / PI).
Proof.
  assert (Q := PI_RGT_0).
  apply (radial_int _ _ _ _ _ _ cosine_radial). intros a A.
  replace (4 / PI / 2) with (2 / PI + 0) by (field; lra).
  apply (ite_RInt 1); [lra| |apply zero_RInt].
  apply (poly_RInt (fun x => 2 / PI * sin (PI / 2 * x))).
  - intros t. auto_derive; [lra|]. field; lra.
  - intros t. apply (ex_derive_continuous (V := R_NormedModule)). auto_derive. exact I.
  - rewrite Rmult_1_r, Rmult_0_r, sin_PI2, sin_0. ring.
Qed.

Lemma cossquare_int : whole_integral (k_result cossquare) 1.
Proof.
  assert (Q := PI_RGT_0).
  apply (radial_int _ _ _ _ _ _ cossquare_radial). intros a A.
  replace (1 / 2) with (1 / 2 + 0) by ring.
  apply (ite_RInt 1); [lra| |apply zero_RInt].
  apply (poly_RInt (fun x => x / 2 + 1 / PI * (sin (PI / 2 * x) * cos (PI / 2 * x)))).
  - intros t. auto_derive; [lra|].
    assert (C := sin2_cos2 (PI / 2 * t)). unfold Rsqr in C.
    replace (1 * / 2) with ((sin (PI / 2 * t) * sin (PI / 2 * t) + cos (PI / 2 * t) * cos (PI / 2 * t)) / 2) by (rewrite C; field).
    unfold Rdiv in *. field. lra.
  - intros t. apply (ex_derive_continuous (V := R_NormedModule)). auto_derive. exact I.
  - rewrite Rmult_1_r, Rmult_0_r, sin_PI2, sin_0, cos_PI2. field. lra.
Qed.

(** Kernels without end. *)
Lemma whole_prim (f F : R -> R) (L : Rbar) : (forall x, f (- x) = f x) -> F 0 = 0 ->
  (forall t, is_derive F t (f t)) -> (forall t, continuous f t) -> is_lim (fun a => 2 * F a) p_infty L -> whole_integral f L.
Proof.
  intros E Z D C H. assert (Q : forall a, is_RInt f (- a) a (F a - F (- a))).
  { intros a. apply (is_RInt_derive F f); intros; [apply D|apply C]. }
  split; [intros a; exists (F a - F (- a)); apply Q|].
  apply is_lim_ext_loc with (2 := H). exists 0. intros a A. symmetry. apply is_RInt_unique.
  apply even_RInt; [lra|exact E|]. evar_last; [apply (is_RInt_derive F f); intros; [apply D|apply C]|].
  unfold minus, plus, opp; cbn. rewrite Z. ring.
Qed.

Lemma lim_sup (F : R -> R) (l : R) : (forall x, F x <= l) -> (forall x y, x < y -> F x <= F y) ->
  (forall e, 0 < e -> exists x, l - e < F x) -> is_lim F p_infty l.
Proof.
  intros B I H. apply is_lim_spec. intros e. destruct (H e (cond_pos e)) as [x X].
  exists x. intros y Y. assert (P := I _ _ Y). assert (Q := B y). apply Rabs_def1; lra.
Qed.

Lemma gi_lim : is_lim gi p_infty (sqrt PI / 2).
Proof.
  assert (S := sqrtPI_pos). apply lim_sup.
  - intros x. generalize (gi_bound x); lra.
  - intros x y H. left. apply gi_incr; exact H.
  - intros e E. destruct (Rle_lt_dec (sqrt PI / 2) e) as [L|L].
    + exists 1. assert (Q := gi_incr 0 1). rewrite gi_0 in Q. lra.
    + destruct (gi_large (sqrt PI / 2 - e)) as [x [_ X]]; [lra|]. exists x; exact X.
Qed.

Lemma atan_lim : is_lim atan p_infty (PI / 2).
Proof.
  assert (P := PI_RGT_0). apply lim_sup.
  - intros x. generalize (atan_bound x); lra.
  - intros x y H. left. apply atan_increasing; exact H.
  - intros e E. destruct (Rle_lt_dec (PI / 2) e) as [L|L].
    + exists 1. assert (Q := atan_increasing 0 1). rewrite atan_0 in Q. lra.
    + exists (tan (PI / 2 - e / 2)). rewrite atan_tan; lra.
Qed.

Lemma gauss_int : whole_integral (k_result gaussk) (sqrt (2 * PI)).
Proof.
  assert (S2 : 0 < sqrt 2) by (apply sqrt_lt_R0; lra).
  assert (SS : sqrt 2 * sqrt 2 = 2) by (apply sqrt_sqrt; lra).
  apply (whole_prim _ (fun x => sqrt 2 * gi (x / sqrt 2))); cbn [k_result gaussk].
  - intros x. f_equal. ring.
  - unfold Rdiv. rewrite Rmult_0_l, gi_0. ring.
  - intros t. evar_last.
    { apply (is_derive_scal (fun x => gi (x / sqrt 2))). apply (is_derive_comp gi (fun x : R => x / sqrt 2)).
      - apply gi_derive.
      - apply (is_derive_scal_l (fun x : R => x) t 1 (/ sqrt 2)). apply (is_derive_id (K := R_AbsRing)). }
    unfold scal, gs; cbn; unfold mult; cbn. replace (t / sqrt 2 * (t / sqrt 2)) with (1 / 2 * (t * t)).
    + rewrite Rmult_1_l. rewrite <- Rmult_assoc, Rinv_r, Rmult_1_l by lra. f_equal. ring.
    + replace (1 / 2) with (/ (sqrt 2 * sqrt 2)) by (rewrite SS; field). field. lra.
  - intros t. apply (ex_derive_continuous (V := R_NormedModule)). auto_derive. exact I.
  - evar_last.
    { apply (is_lim_scal_l (fun x => sqrt 2 * gi (x / sqrt 2)) 2). apply (is_lim_scal_l (fun x => gi (x / sqrt 2)) (sqrt 2)).
      apply (is_lim_comp gi (fun x => x / sqrt 2) p_infty (sqrt PI / 2) p_infty).
      - apply gi_lim.
      - unfold Rdiv. evar_last; [apply (is_lim_scal_r (fun x : R => x) (/ sqrt 2) p_infty p_infty); apply is_lim_id|].
        cbn. assert (V : 0 < / sqrt 2) by (apply Rinv_0_lt_compat; exact S2).
        destruct (Rle_dec 0 (/ sqrt 2)) as [L|L]; [|lra]. destruct (Rle_lt_or_eq_dec _ _ L); [reflexivity|lra].
      - exists 0. intros y Y. discriminate. }
    cbn. f_equal. rewrite sqrt_mult by (generalize PI_RGT_0; lra). field.
Qed.

Lemma lorentz_int : whole_integral (k_result lorentzk) PI.
Proof.
  apply (whole_prim _ atan); cbn [k_result lorentzk].
  - intros x. replace (- x * - x) with (x * x) by ring. reflexivity.
  - apply atan_0.
  - intros t. evar_last; [apply is_derive_Reals; apply derivable_pt_lim_atan|]. unfold Rdiv, Rsqr. cbn. f_equal; try ring.
    replace (t * (t * 1)) with (t * t) by ring. ring.
  - intros t. apply (ex_derive_continuous (V := R_NormedModule)). auto_derive. apply one_sq.
  - evar_last; [apply (is_lim_scal_l atan 2); apply atan_lim|]. cbn. f_equal. field.
Qed.
