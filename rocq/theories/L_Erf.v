(** The error function: derivative, bounds and limits. *)
From Coquelicot Require Import Coquelicot.
From Coq Require Import Reals Lra Lia.
Local Open Scope R_scope.

Definition gs (t : R) : R := exp (- (t * t)).
Definition gi (z : R) : R := RInt gs 0 z.

Lemma gs_cont t : continuous gs t.
Proof. apply (ex_derive_continuous gs). unfold gs. auto_derive. auto. Qed.

Lemma gs_int a b : ex_RInt gs a b.
Proof. apply (ex_RInt_continuous (V := R_CompleteNormedModule)). intros; apply gs_cont. Qed.

Lemma gi_derive (z : R) : is_derive gi z (gs z).
Proof.
  unfold gi. apply (is_derive_RInt gs (fun z => RInt gs 0 z) 0 z).
  - apply filter_forall. intro x. apply (RInt_correct gs 0 x). apply gs_int.
  - apply gs_cont.
Qed.

Lemma gi_0 : gi 0 = 0.
Proof. unfold gi. rewrite RInt_point. reflexivity. Qed.

(** second part *)
Definition hh (x t : R) : R := exp (- (x * x * (1 + t * t))) / (1 + t * t).
Definition hi2 (x : R) : R := RInt (hh x) 0 1.

Lemma one_sq t : 1 + t * t <> 0.
Proof. nra. Qed.

Lemma hh_derive (x t : R) : is_derive (fun x => hh x t) x (- 2 * x * exp (- (x * x * (1 + t * t)))).
Proof. unfold hh. auto_derive; [auto using one_sq|]. field. apply one_sq. Qed.

Lemma hh_int x a b : ex_RInt (hh x) a b.
Proof.
  apply (ex_RInt_continuous (V := R_CompleteNormedModule)). intros t _. apply (ex_derive_continuous (hh x)). unfold hh.
  auto_derive. auto using one_sq.
Qed.

Lemma hi2_derive (x : R) : is_derive hi2 x (- 2 * gs x * gi x).
Proof.
  unfold hi2.
  evar_last.
  { apply (is_derive_RInt_param hh 0 1 x).
    - apply filter_forall. intros y t _. eexists. apply hh_derive.
    - intros t _.
      apply continuity_2d_pt_ext with (f := fun u v => - 2 * u * exp (- (u * u * (1 + v * v)))).
      + intros u v. symmetry. apply (is_derive_unique (fun z => hh z v) u). apply hh_derive.
      + apply continuity_2d_pt_mult.
        * apply continuity_2d_pt_mult; [apply continuity_2d_pt_const|apply continuity_2d_pt_id1].
        * apply (continuity_1d_2d_pt_comp exp (fun u v => - (u * u * (1 + v * v)))).
          { apply derivable_continuous_pt. apply derivable_pt_exp. }
          apply continuity_2d_pt_opp. apply continuity_2d_pt_mult.
          { apply continuity_2d_pt_mult; apply continuity_2d_pt_id1. }
          apply continuity_2d_pt_plus; [apply continuity_2d_pt_const|].
          apply continuity_2d_pt_mult; apply continuity_2d_pt_id2.
    - apply filter_forall. intro y. apply hh_int. }
  etransitivity; [apply (RInt_ext _ (fun t => scal (- 2 * gs x) (scal x (gs (x * t + 0)))))|].
  { intros t _. rewrite (is_derive_unique (fun u : R => hh u t) x _ (hh_derive x t)).
      unfold scal; cbn; unfold mult; cbn. unfold gs.
      replace (- (x * x * (1 + t * t))) with (- (x * x) + - ((x * t + 0) * (x * t + 0))) by ring.
      rewrite exp_plus. ring. }
  etransitivity; [apply (RInt_scal (V := R_CompleteNormedModule) (fun t => scal x (gs (x * t + 0))) 0 1 (- 2 * gs x))|].
  { apply (ex_RInt_comp_lin gs x 0 0 1). apply gs_int. }
  change (scal (- 2 * gs x) (RInt (fun t : R => scal x (gs (x * t + 0))) 0 1) = - 2 * gs x * gi x).
  transitivity (- 2 * gs x * RInt gs (x * 0 + 0) (x * 1 + 0)).
  { apply (f_equal (Rmult (- 2 * gs x))). apply (RInt_comp_lin (V := R_CompleteNormedModule) gs x 0 0 1). apply gs_int. }
  replace (x * 0 + 0) with 0 by ring. replace (x * 1 + 0) with x by ring. reflexivity.
Qed.

Lemma hi2_0 : hi2 0 = PI / 4.
Proof.
  unfold hi2. rewrite <- atan_1.
  rewrite (RInt_ext _ (fun t => / (1 + t ^ 2))).
  2:{ intros t _. unfold hh. replace (- (0 * 0 * (1 + t * t))) with 0 by ring. rewrite exp_0.
      unfold Rdiv. rewrite Rmult_1_l. f_equal. ring. }
  assert (E : is_RInt (fun t => / (1 + t ^ 2)) 0 1 (minus (atan 1) (atan 0))).
  { apply (is_RInt_derive atan (fun t => / (1 + t ^ 2))).
    - intros t _. auto_derive; [auto|]. field. nra.
    - intros t _. apply (ex_derive_continuous (fun t => / (1 + t ^ 2))). auto_derive. nra. }
  rewrite (is_RInt_unique _ _ _ _ E). rewrite atan_0. unfold minus, plus, opp; cbn. ring.
Qed.

(** gi^2 + hi2 is constant *)
Lemma gauss_id x : gi x * gi x + hi2 x = PI / 4.
Proof.
  rewrite <- hi2_0. replace (hi2 0) with (gi 0 * gi 0 + hi2 0) by (rewrite gi_0; ring).
  assert (D : forall t, is_derive (fun x => gi x * gi x + hi2 x) t 0).
  { intro t. evar_last.
    { apply (is_derive_plus (fun x => gi x * gi x) hi2 t).
      - apply (is_derive_mult gi gi t); [apply gi_derive|apply gi_derive|intros; apply Rmult_comm].
      - apply hi2_derive. }
    unfold plus, mult; cbn. ring. }
  destruct (MVT_gen (fun x => gi x * gi x + hi2 x) 0 x (fun _ => 0)) as [c [_ H]].
  - intros; apply D.
  - intros t _. apply continuity_pt_filterlim. apply (ex_derive_continuous (fun x => gi x * gi x + hi2 x)). eexists. apply D.
  - cbn beta in H. lra.
Qed.

Lemma hi2_pos x : 0 < hi2 x.
Proof.
  unfold hi2. apply RInt_gt_0; [lra| |].
  - intros t _. unfold hh. apply Rdiv_lt_0_compat; [apply exp_pos|nra].
  - intros t _. apply (ex_derive_continuous (hh x)). unfold hh. auto_derive. auto using one_sq.
Qed.

Lemma hi2_le x : hi2 x <= gs x.
Proof.
  unfold hi2. replace (gs x) with (RInt (fun _ => gs x) 0 1).
  2:{ rewrite RInt_const. unfold scal; cbn; unfold mult; cbn. ring. }
  apply RInt_le; [lra|apply hh_int|apply ex_RInt_const|].
  intros t _. unfold hh, gs.
  apply Rle_trans with (exp (- (x * x * (1 + t * t)))).
  - assert (P := exp_pos (- (x * x * (1 + t * t)))).
    apply Rmult_le_reg_r with (1 + t * t); [nra|].
    unfold Rdiv. rewrite Rmult_assoc, Rinv_l by apply one_sq. nra.
  - destruct (Req_dec (x * t) 0) as [Z|Z].
    + right. f_equal. replace (x * x * (1 + t * t)) with (x * x + (x * t) * (x * t)) by ring. rewrite Z. ring.
    + left. apply exp_increasing. assert (0 < (x * t) * (x * t)) by nra. nra.
Qed.

Lemma gi_sq_lt x : gi x * gi x < PI / 4.
Proof. pose proof (gauss_id x). pose proof (hi2_pos x). lra. Qed.

Lemma sqrt_PI_half : sqrt PI / 2 * (sqrt PI / 2) = PI / 4.
Proof. pose proof PI_RGT_0. replace (sqrt PI / 2 * (sqrt PI / 2)) with (sqrt PI * sqrt PI / 4) by field. rewrite sqrt_sqrt by lra. reflexivity. Qed.

Lemma sqrtPI_pos : 0 < sqrt PI.
Proof. apply sqrt_lt_R0. apply PI_RGT_0. Qed.

Lemma gi_bound x : - (sqrt PI / 2) < gi x < sqrt PI / 2.
Proof.
  pose proof (gi_sq_lt x) as H. rewrite <- sqrt_PI_half in H. pose proof sqrtPI_pos. split; nra.
Qed.

Lemma gi_incr x y : x < y -> gi x < gi y.
Proof.
  intro H. apply (incr_function gi m_infty p_infty gs); cbn; auto.
  - intros; apply gi_derive.
  - intros; apply exp_pos.
Qed.

Lemma gi_nonneg x : 0 <= x -> 0 <= gi x.
Proof. intros [H|<-]; [|rewrite gi_0; lra]. rewrite <- gi_0. left. apply gi_incr. exact H. Qed.

Lemma gi_opp x : gi (- x) = - gi x.
Proof.
  assert (D : forall t, is_derive (fun x => gi (- x) + gi x) t 0).
  { intro t. evar_last.
    { apply (is_derive_plus (fun x => gi (- x)) gi t).
      - apply (is_derive_comp gi Ropp). apply gi_derive. auto_derive; [auto|reflexivity].
      - apply gi_derive. }
    unfold plus, scal; cbn; unfold mult; cbn. unfold gs. replace (- t * - t) with (t * t) by ring. ring. }
  destruct (MVT_gen (fun x => gi (- x) + gi x) 0 x (fun _ => 0)) as [c [_ H]].
  - intros; apply D.
  - intros t _. apply continuity_pt_filterlim. apply (ex_derive_continuous (fun x => gi (- x) + gi x)). eexists. apply D.
  - cbn beta in H. rewrite Ropp_0, gi_0 in H. lra.
Qed.

(** every value below the bound is passed *)
Lemma gi_large y : 0 <= y < sqrt PI / 2 -> exists x, 0 < x /\ y < gi x.
Proof.
  intros [Y0 Y1]. pose proof sqrtPI_pos as SP.
  set (e := PI / 4 - y * y).
  assert (E : 0 < e) by (unfold e; rewrite <- sqrt_PI_half; nra).
  set (x := 1 + 1 / e).
  assert (X : 1 < x) by (unfold x; assert (0 < 1 / e) by (apply Rdiv_lt_0_compat; lra); lra).
  exists x. split; [lra|].
  assert (G : gs x < e).
  { unfold gs. rewrite exp_Ropp.
    assert (Ex : 1 + x * x <= exp (x * x)) by apply exp_ineq1_le.
    assert (x < exp (x * x)) by nra.
    assert (1 / e < x) by (unfold x; lra).
    apply Rmult_lt_reg_r with (exp (x * x)); [apply exp_pos|].
    rewrite Rinv_l by (apply Rgt_not_eq, exp_pos).
    assert (e * (1 / e) = 1) by (field; lra). nra. }
  pose proof (gauss_id x). pose proof (hi2_le x). pose proof (gi_nonneg x ltac:(lra)).
  assert (y * y < gi x * gi x) by (unfold e in *; lra). nra.
Qed.
