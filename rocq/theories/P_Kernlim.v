(** Huber and Sinc; squared forms and widths. *)
From Coquelicot Require Import Coquelicot.
From Coq Require Import Reals Lra Lia List.
From Verif Require Import M_Elem M_Kernel S_Kernel P_Kernel P_Tophat P_Kernels P_Kernint P_Elem L_Erf L_Dirichlet.
Import ListNotations.
Local Open Scope R_scope.

Definition hr (ax : R) : R := where_ (Rlt_dec ax 1) 1 (1 / ax).
Definition hp (ax : R) : R := where_ (Rlt_dec ax 1) 0 (-1 / (ax * ax)).

Lemma hr_d (t : R) : t <> 1 -> is_derive hr t (hp t).
Proof.
  intros N. unfold hp, where_. destruct (Rlt_dec t 1) as [L|L].
  - apply d_ext_loc with (fun _ => 1); [|apply (is_derive_const (K := R_AbsRing) (V := R_NormedModule))].
    apply filter_imp with (2 := loc_lt _ _ L). intros y Y. unfold hr, where_. cases. reflexivity.
  - assert (G : 1 < t) by lra. apply d_ext_loc with (fun y => 1 / y).
    + apply filter_imp with (2 := loc_gt _ _ G). intros y Y. unfold hr, where_. cases. reflexivity.
    + auto_derive; [lra|]. field. lra.
Qed.

Lemma huber_partial (x : R) : Rabs x <> 1 -> is_derive (k_result huber) x (k_partial huber x).
Proof.
  intros N. cbn [k_result k_partial huber].
  replace (where_ (Rlt_dec (Rabs x) 1) 0 (-1 / (x * Rabs x))) with (nsign x * hp (Rabs x)).
  - apply (even_derive hr hp).
    + intros t T ->. apply hr_d. exact N.
    + intros _. unfold hp, where_. cases. reflexivity.
  - unfold hp, nsign, where_. destruct (Rlt_dec (Rabs x) 1) as [L|L]; [ring|].
    unfold Rabs in *. destruct (Rcase_abs x); cases; field; lra.
Qed.

Lemma inv_falls (s t : R) : 0 < s -> s <= t -> / t <= / s.
Proof. intros A B. apply Rinv_le_contravar; assumption. Qed.

Lemma hr_falls (s t : R) : 0 <= s -> s <= t -> 0 <= hr t <= hr s.
Proof.
  intros A B. unfold hr, where_.
  assert (I1 : forall u, 1 <= u -> 0 < 1 / u <= 1).
  { intros u U. split; [apply Rdiv_lt_0_compat; lra|]. apply Rmult_le_reg_r with u; [lra|].
    unfold Rdiv. rewrite Rmult_assoc, Rinv_l; lra. }
  cases; try lra.
  - generalize (I1 t ltac:(lra)); lra.
  - split; [generalize (I1 t ltac:(lra)); lra|]. unfold Rdiv. rewrite !Rmult_1_l. apply inv_falls; lra.
Qed.

Lemma hr_pos (t : R) : 0 <= t -> 0 < hr t.
Proof. intros A. unfold hr, where_. cases; [lra|apply Rdiv_lt_0_compat; lra]. Qed.

Lemma hr_int (a : R) : 1 <= a -> is_RInt hr 0 a (1 + ln a).
Proof.
  intros A. apply (is_RInt_Chasles (V := R_NormedModule)) with 1.
  - apply is_RInt_ext with (fun _ => 1).
    + intros x. rewrite Rmin_left, Rmax_right by lra. intros X. unfold hr, where_. cases. reflexivity.
    + prim (fun x : R => x).
  - apply is_RInt_ext with (fun t => 1 / t).
    + intros x. rewrite Rmin_left, Rmax_right by lra. intros X. unfold hr, where_. cases. reflexivity.
    + evar_last.
      { apply (is_RInt_derive ln (fun t => 1 / t)).
        - intros x. rewrite Rmin_left, Rmax_right by lra. intros X. auto_derive; [lra|reflexivity].
        - intros x. rewrite Rmin_left, Rmax_right by lra. intros X.
          apply (ex_derive_continuous (V := R_NormedModule)). auto_derive. lra. }
      unfold minus, plus, opp; cbn. rewrite ln_1. ring.
Qed.

Lemma huber_int : whole_integral (k_result huber) p_infty.
Proof.
  assert (Q : forall a, 1 <= a -> is_RInt (k_result huber) (- a) a (2 * (1 + ln a))).
  { intros a A. apply even_RInt; [lra|intros x; cbn; rewrite Rabs_Ropp; reflexivity|].
    apply is_RInt_ext with hr; [|apply hr_int; exact A].
    intros x. rewrite Rmin_left, Rmax_right by lra. intros X. cbn. rewrite Rabs_pos_eq by lra. reflexivity. }
  split.
  - intros a. apply (ex_RInt_inside (V := R_CompleteNormedModule)) with (x := 0) (e := 1 + Rabs a).
    + rewrite Rminus_0_l, Rplus_0_l. eexists. apply Q. generalize (Rabs_pos a); lra.
    + rewrite Rminus_0_r, Rabs_Ropp. lra.
    + rewrite Rminus_0_r. lra.
  - apply is_lim_ext_loc with (fun a => 2 * (1 + ln a)).
    + exists 1. intros a A. symmetry. apply is_RInt_unique. apply Q. lra.
    + evar_last.
      { apply (is_lim_scal_l (fun a => 1 + ln a) 2). eapply (is_lim_plus (fun _ => 1) ln _ 1 p_infty).
        - apply is_lim_const.
        - apply is_lim_ln_p.
        - reflexivity. }
      cbn. destruct (Rle_dec 0 2) as [L|L]; [|lra]. destruct (Rle_lt_or_eq_dec 0 2 L); [reflexivity|lra].
Qed.

Lemma PI_neq : PI <> 0.
Proof. apply Rgt_not_eq. apply PI_RGT_0. Qed.

Lemma sinc_sc (x : R) : k_result sinc x = sc (PI * x).
Proof.
  assert (P := PI_neq). cbn. unfold sc, where_. destruct (Req_EM_T x 0) as [-> |N].
  - rewrite Rmult_0_r. cases; reflexivity.
  - destruct (Req_EM_T (PI * x) 0) as [Z|Z].
    + apply Rmult_integral in Z. tauto.
    + rewrite (Rmult_comm x PI). reflexivity.
Qed.

Lemma sinc_partial (x : R) : is_derive (k_result sinc) x (k_partial sinc x).
Proof.
  assert (P := PI_neq).
  apply (is_derive_ext (fun y => sc (PI * y))); [intros t; symmetry; apply sinc_sc|].
  cbn. unfold where_. destruct (Req_EM_T x 0) as [-> |N].
  - evar_last.
    { apply (is_derive_comp sc (fun y : R => PI * y)); [rewrite Rmult_0_r; apply sc_derive_0|auto_derive; [exact I|reflexivity]]. }
    unfold scal; cbn; unfold mult; cbn. ring.
  - assert (N' : PI * x <> 0) by (apply Rmult_integral_contrapositive; split; assumption).
    evar_last.
    { apply (is_derive_comp sc (fun y : R => PI * y)); [apply sc_derive; exact N'|auto_derive; [exact I|reflexivity]]. }
    unfold scal; cbn; unfold mult; cbn. rewrite (Rmult_comm x PI). field. split; assumption.
Qed.

Lemma sinc_even (x : R) : k_result sinc (- x) = k_result sinc x.
Proof.
  cbn. unfold where_. destruct (Req_EM_T x 0) as [-> |N].
  - rewrite Ropp_0. cases; reflexivity.
  - destruct (Req_EM_T (- x) 0) as [Z|Z]; [exfalso; apply N; lra|].
    replace (- x * PI) with (- (x * PI)) by ring. rewrite sin_neg. field. split; [exact PI_neq|exact N].
Qed.

Lemma sinc_int : whole_integral (k_result sinc) 1.
Proof.
  assert (P := PI_neq). assert (PP := PI_RGT_0).
  apply (whole_prim _ (fun x => 1 / PI * (PI / 2 - df (PI * x)))).
  - apply sinc_even.
  - rewrite Rmult_0_r, df_0. ring.
  - intros t. rewrite sinc_sc. evar_last.
    { apply (is_derive_scal (fun x => PI / 2 - df (PI * x)) t (1 / PI)).
      apply (is_derive_minus (fun _ => PI / 2) (fun x => df (PI * x))).
      - apply (is_derive_const (K := R_AbsRing) (V := R_NormedModule)).
      - apply (is_derive_comp df (fun y : R => PI * y)); [apply df_derive|auto_derive; [exact I|reflexivity]]. }
    unfold scal, minus, plus, opp, zero; cbn; unfold mult; cbn. field. exact P.
  - intros t. apply (ex_derive_continuous (V := R_NormedModule)). eexists. apply sinc_partial.
  - evar_last.
    { apply (is_lim_scal_l (fun x => 1 / PI * (PI / 2 - df (PI * x))) 2).
      apply (is_lim_scal_l (fun x => PI / 2 - df (PI * x)) (1 / PI)).
      apply (is_lim_minus' (fun _ => PI / 2) (fun x => df (PI * x)) p_infty (PI / 2) 0).
      - apply is_lim_const.
      - apply (is_lim_comp df (fun x => PI * x) p_infty 0 p_infty).
        + apply df_lim.
        + evar_last; [apply (is_lim_scal_l (fun x : R => x) PI p_infty p_infty); apply is_lim_id|].
          cbn. destruct (Rle_dec 0 PI) as [L|L]; [|lra]. destruct (Rle_lt_or_eq_dec _ _ L); [reflexivity|lra].
        + exists 0. intros y Y. discriminate. }
    cbn. f_equal. field. exact P.
Qed.

Lemma sinc_bound (x : R) : Rabs (k_result sinc x) <= 1.
Proof.
  rewrite sinc_sc. unfold sc. destruct (Req_EM_T (PI * x) 0) as [_|N]; [rewrite Rabs_R1; lra|].
  set (y := PI * x) in *. clearbody y.
  destruct (MVT_gen sin 0 y cos) as [c [_ Q]].
  - intros u _. auto_derive; [exact I|ring].
  - intros u _. apply continuity_sin.
  - rewrite sin_0, !Rminus_0_r in Q. rewrite Q. replace (cos c * y / y) with (cos c) by (field; exact N).
    apply Rabs_le. generalize (COS_bound c); lra.
Qed.

Lemma sqrt_sq (x : R) : sqrt (x * x) = Rabs x.
Proof. change (x * x) with (Rsqr x). apply sqrt_Rsqr_abs. Qed.

Lemma uniform_sq (x : R) : uniform_r (x * x) = uniform_r x.
Proof.
  unfold uniform_r, where_. absx x.
  rewrite (Rabs_pos_eq (x * x)) by (rewrite <- Rabs_ss; apply Rmult_le_pos; lra). rewrite <- Rabs_ss.
  set (a := Rabs x) in *. clearbody a.
  destruct (Rlt_dec a 1) as [L|L].
  - assert (a * a < 1) by nra. cases. reflexivity.
  - destruct (Req_EM_T a 1) as [-> |N].
    + rewrite Rmult_1_l. cases; reflexivity.
    + assert (1 < a * a) by (apply sq_gt1; lra). cases. reflexivity.
Qed.

Lemma gauss_half : half_width gaussk.
Proof.
  unfold half_width. cbn.
  assert (L : 0 < ln 2) by (rewrite <- ln_1; apply ln_increasing; lra).
  replace (- (1 / 2) * (2 * sqrt (2 * ln 2) / 2 * (2 * sqrt (2 * ln 2) / 2))) with (- ln 2).
  - rewrite exp_Ropp, exp_ln by lra. field.
  - replace (2 * sqrt (2 * ln 2) / 2) with (sqrt (2 * ln 2)) by field. rewrite sqrt_sqrt by lra. field.
Qed.

Lemma parabola_half : half_width parabola.
Proof.
  unfold half_width. cbn. replace (2 * sqrt (1 / 2) / 2) with (sqrt (1 / 2)) by field.
  rewrite sqrt_sqrt by lra. unfold where_. cases. field.
Qed.

Lemma cosine_half : half_width cosine.
Proof.
  unfold half_width. cbn. unfold cosine_r, where_. rewrite Rabs_pos_eq by lra. cases.
  replace (PI / 2 * (4 / 3 / 2)) with (PI / 3) by field. apply cos_PI3.
Qed.

Lemma cossquare_half : half_width cossquare.
Proof.
  unfold half_width. cbn. unfold cossquare_r, cosine_r, where_. rewrite Rabs_pos_eq by lra. cases.
  replace (PI / 2 * (1 / 2)) with (PI / 4) by field. rewrite cos_PI4.
  assert (S2 : sqrt 2 <> 0) by (apply Rgt_not_eq; apply sqrt_lt_R0; lra).
  replace (1 / sqrt 2 * (1 / sqrt 2)) with (/ (sqrt 2 * sqrt 2)) by (field; exact S2). rewrite sqrt_sqrt by lra. field.
Qed.
