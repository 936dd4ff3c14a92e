(** The Dirichlet integral: a primitive of sin x / x with a known limit. *)
From Coquelicot Require Import Coquelicot.
From Coq Require Import Reals Lra.
Local Open Scope R_scope.

Definition sc (x : R) : R := if Req_EM_T x 0 then 1 else sin x / x.

Definition dk (x t : R) : R := exp (- (x * cos t)) * cos (x * sin t).
Definition dk' (x t : R) : R := - (cos t * (exp (- (x * cos t)) * cos (x * sin t)) + sin t * (exp (- (x * cos t)) * sin (x * sin t))).
Definition df (x : R) : R := RInt (dk x) 0 (PI / 2).

Lemma dk_derive (x t : R) : is_derive (fun x => dk x t) x (dk' x t).
Proof. unfold dk, dk'. auto_derive; [exact I|]. ring. Qed.

Lemma dk_int x a b : ex_RInt (dk x) a b.
Proof.
  apply (ex_RInt_continuous (V := R_CompleteNormedModule)). intros t _. apply (ex_derive_continuous (dk x)). unfold dk.
  auto_derive. exact I.
Qed.

Lemma c2_sin (x t : R) : continuity_2d_pt (fun u v => sin (u * sin v)) x t.
Proof.
  apply (continuity_1d_2d_pt_comp sin (fun u v => u * sin v)); [apply continuity_sin|].
  apply continuity_2d_pt_mult; [apply continuity_2d_pt_id1|].
  apply (continuity_1d_2d_pt_comp sin (fun u v => v)); [apply continuity_sin|apply continuity_2d_pt_id2].
Qed.
Lemma c2_cos (x t : R) : continuity_2d_pt (fun u v => cos (u * sin v)) x t.
Proof.
  apply (continuity_1d_2d_pt_comp cos (fun u v => u * sin v)); [apply continuity_cos|].
  apply continuity_2d_pt_mult; [apply continuity_2d_pt_id1|].
  apply (continuity_1d_2d_pt_comp sin (fun u v => v)); [apply continuity_sin|apply continuity_2d_pt_id2].
Qed.
Lemma c2_exp (x t : R) : continuity_2d_pt (fun u v => exp (- (u * cos v))) x t.
Proof.
  apply (continuity_1d_2d_pt_comp exp (fun u v => - (u * cos v))).
  { apply derivable_continuous_pt. apply derivable_pt_exp. }
  apply continuity_2d_pt_opp. apply continuity_2d_pt_mult; [apply continuity_2d_pt_id1|].
  apply (continuity_1d_2d_pt_comp cos (fun u v => v)); [apply continuity_cos|apply continuity_2d_pt_id2].
Qed.
Lemma c2_scos (x t : R) : continuity_2d_pt (fun u v => cos v) x t.
Proof. apply (continuity_1d_2d_pt_comp cos (fun u v => v)); [apply continuity_cos|apply continuity_2d_pt_id2]. Qed.
Lemma c2_ssin (x t : R) : continuity_2d_pt (fun u v => sin v) x t.
Proof. apply (continuity_1d_2d_pt_comp sin (fun u v => v)); [apply continuity_sin|apply continuity_2d_pt_id2]. Qed.

Lemma dk'_cont x t : continuity_2d_pt dk' x t.
Proof.
  unfold dk'. apply continuity_2d_pt_opp. apply continuity_2d_pt_plus;
  (apply continuity_2d_pt_mult; [|apply continuity_2d_pt_mult]);
  auto using c2_sin, c2_cos, c2_exp, c2_scos, c2_ssin.
Qed.

Lemma dk'_RInt (x : R) : is_RInt (dk' x) 0 (PI / 2) (- sc x).
Proof.
  unfold sc. destruct (Req_EM_T x 0) as [-> |N].
  - apply is_RInt_ext with (fun t => - cos t).
    + intros t _. unfold dk'. rewrite !Rmult_0_l, Ropp_0, exp_0, cos_0, sin_0.
      match goal with |- ?a = ?b => change (@eq R a b) end. ring.
    + evar_last.
      { apply (is_RInt_derive (fun t => - sin t) (fun t => - cos t)).
        - intros t _. auto_derive; [exact I|ring].
        - intros t _. apply (ex_derive_continuous (fun t => - cos t)). auto_derive. exact I. }
      unfold minus, plus, opp; cbn. rewrite sin_PI2, sin_0. ring.
  - evar_last.
    { apply (is_RInt_derive (fun t => - / x * (exp (- (x * cos t)) * sin (x * sin t))) (dk' x)).
      - intros t _. unfold dk'. auto_derive; [exact I|]. field. exact N.
      - intros t _. apply (ex_derive_continuous (dk' x)). unfold dk'. auto_derive. exact I. }
    unfold minus, plus, opp; cbn.
    rewrite sin_PI2, sin_0, cos_PI2, !Rmult_0_r, Ropp_0, exp_0, sin_0, Rmult_1_r. field. exact N.
Qed.

Lemma df_derive (x : R) : is_derive df x (- sc x).
Proof.
  unfold df. evar_last.
  { apply (is_derive_RInt_param dk 0 (PI / 2) x).
    - apply filter_forall. intros y t _. eexists. apply dk_derive.
    - intros t _. apply continuity_2d_pt_ext with (f := dk').
      + intros u v. symmetry. apply (is_derive_unique (fun z => dk z v) u). apply dk_derive.
      + apply dk'_cont.
    - apply filter_forall. intro y. apply dk_int. }
  etransitivity; [apply (RInt_ext _ (dk' x))|].
  { intros t _. apply (is_derive_unique (fun u : R => dk u t) x _ (dk_derive x t)). }
  apply is_RInt_unique. apply dk'_RInt.
Qed.

Lemma df_0 : df 0 = PI / 2.
Proof.
  unfold df. rewrite (RInt_ext _ (fun _ => 1)).
  - rewrite RInt_const. unfold scal; cbn; unfold mult; cbn. match goal with |- ?a = ?b => change (@eq R a b) end. ring.
  - intros t _. unfold dk. rewrite !Rmult_0_l, Ropp_0, exp_0, cos_0. match goal with |- ?a = ?b => change (@eq R a b) end. ring.
Qed.

(** sin t >= t - t^3/6 *)
Lemma one_cos (t : R) : 1 - cos t <= t * t / 2.
Proof.
  assert (H : forall u, 0 <= u -> sin u * sin u <= u * u).
  { intros u U. destruct (Req_dec u 0) as [-> |N]; [rewrite sin_0; lra|].
    assert (A : sin u < u) by (apply sin_lt_x; lra).
    assert (B : - u < sin u).
    { destruct (Rle_lt_dec u 1) as [L|L].
      - assert (0 < sin u) by (apply sin_gt_0; generalize PI2_1; lra). lra.
      - generalize (SIN_bound u); lra. }
    assert (0 <= (u - sin u) * (u + sin u)) by (apply Rmult_le_pos; lra). lra. }
  assert (G : forall u, sin u * sin u <= u * u).
  { intros u. destruct (Rle_lt_dec 0 u) as [L|L]; [apply H; exact L|].
    replace (sin u * sin u) with (sin (- u) * sin (- u)) by (rewrite sin_neg; ring).
    replace (u * u) with (- u * - u) by ring. apply H; lra. }
  replace t with (2 * (t / 2)) at 1 by field. rewrite cos_2a_sin. generalize (G (t / 2)); lra.
Qed.

Lemma sin_low (t : R) : 0 <= t -> t - t * t * t / 6 <= sin t.
Proof.
  intros T.
  destruct (MVT_gen (fun u => u - u * u * u / 6 - sin u) 0 t (fun u => 1 - u * u / 2 - cos u)) as [c [Hc E]].
  - intros u _. auto_derive; [exact I|field].
  - intros u _. apply continuity_pt_filterlim.
    apply (ex_derive_continuous (fun u => u - u * u * u / 6 - sin u)). auto_derive. exact I.
  - rewrite Rmin_left, Rmax_right in Hc by exact T. rewrite sin_0 in E.
    assert (Q := one_cos c). assert (0 <= - (1 - c * c / 2 - cos c) * (t - 0)) by (apply Rmult_le_pos; lra). lra.
Qed.

Lemma cos_low (t : R) : 0 <= t <= PI / 2 -> (PI / 2 - t) / 3 <= cos t.
Proof.
  intros [A B]. rewrite <- sin_shift. set (u := PI / 2 - t).
  assert (U : 0 <= u <= 2) by (unfold u; generalize PI_4; lra).
  apply Rle_trans with (u - u * u * u / 6); [|apply sin_low; lra].
  assert (0 <= u * (2 - u) * (2 + u)) by (repeat apply Rmult_le_pos; lra). lra.
Qed.

Lemma df_bound (x : R) : 0 < x -> Rabs (df x) <= 3 / x.
Proof.
  intros X. assert (P := PI_RGT_0).
  set (g := fun t => exp (- (x * ((PI / 2 - t) / 3)))).
  assert (G : is_RInt g 0 (PI / 2) (3 / x * (1 - exp (- (x * (PI / 6)))))).
  { evar_last.
    { apply (is_RInt_derive (fun t => 3 / x * exp (- (x * ((PI / 2 - t) / 3)))) g).
      - intros t _. unfold g. auto_derive; [lra|]. unfold Rdiv, Rminus. field. lra.
      - intros t _. apply (ex_derive_continuous g). unfold g. auto_derive. exact I. }
    unfold minus, plus, opp; cbn.
    replace (- (x * ((PI / 2 - PI / 2) / 3))) with 0 by field. rewrite exp_0.
    replace (- (x * ((PI / 2 - 0) / 3))) with (- (x * (PI / 6))) by field. ring. }
  assert (N : forall t, 0 <= t <= PI / 2 -> Rabs (dk x t) <= g t).
  { intros t T. unfold dk, g. rewrite Rabs_mult, (Rabs_pos_eq (exp _)) by (left; apply exp_pos).
    rewrite <- (Rmult_1_r (exp (- (x * ((PI / 2 - t) / 3))))).
    apply Rmult_le_compat; [left; apply exp_pos|apply Rabs_pos| |].
    - destruct (Rle_lt_or_eq_dec _ _ (cos_low t T)) as [L|L].
      + left. apply exp_increasing. apply Ropp_lt_contravar. apply Rmult_lt_compat_l; assumption.
      + right. rewrite L. reflexivity.
    - apply Rabs_le. generalize (COS_bound (x * sin t)); lra. }
  apply Rle_trans with (RInt g 0 (PI / 2)).
  - unfold df. apply Rle_trans with (RInt (fun t => Rabs (dk x t)) 0 (PI / 2)).
    + apply abs_RInt_le; [lra|apply dk_int].
    + apply RInt_le; [lra| |exists (3 / x * (1 - exp (- (x * (PI / 6))))); exact G|intros t T; apply N; lra].
      apply (ex_RInt_continuous (V := R_CompleteNormedModule)). intros t _.
      apply (continuous_comp (dk x) Rabs).
      * apply (ex_derive_continuous (dk x)). unfold dk. auto_derive. exact I.
      * apply (continuous_abs (K := R_AbsRing) (dk x t)).
  - rewrite (is_RInt_unique _ _ _ _ G). assert (E := exp_pos (- (x * (PI / 6)))).
    assert (V : 0 < 3 / x) by (apply Rdiv_lt_0_compat; lra).
    rewrite <- (Rmult_1_r (3 / x)) at 2. apply Rmult_le_compat_l; lra.
Qed.

Lemma df_lim : is_lim df p_infty 0.
Proof.
  apply is_lim_spec. intros e. assert (E := cond_pos e). exists (3 / e). intros x X.
  assert (0 < 3 / e) by (apply Rdiv_lt_0_compat; lra).
  rewrite Rminus_0_r. apply Rle_lt_trans with (3 / x); [apply df_bound; lra|].
  apply Rmult_lt_reg_r with x; [lra|]. unfold Rdiv. rewrite Rmult_assoc, Rinv_l, Rmult_1_r by lra.
  apply Rmult_lt_compat_l with (r := e) in X; [|exact E].
  replace (e * (3 / e)) with 3 in X by (field; lra). exact X.
Qed.

(** slope of sin x / x *)
Lemma sc_derive_0 : is_derive sc 0 0.
Proof.
  apply is_derive_Reals. intros e E.
  exists (mkposreal e E). intros h N B. cbn in B. unfold sc. rewrite Rplus_0_l.
  destruct (Req_EM_T h 0) as [Z|_]; [contradiction|]. destruct (Req_EM_T 0 0) as [_|Z]; [|contradiction Z; reflexivity].
  destruct (MVT_gen sin 0 h cos) as [c [Hc Q]].
  - intros u _. auto_derive; [exact I|ring].
  - intros u _. apply continuity_sin.
  - rewrite sin_0, !Rminus_0_r in Q. rewrite Q.
    replace ((cos c * h / h - 1) / h - 0) with ((cos c - 1) / h) by (field; exact N).
    assert (C : c * c <= h * h).
    { revert Hc. unfold Rmin, Rmax. destruct (Rle_dec 0 h); nra. }
    assert (K := one_cos c). assert (K' := COS_bound c).
    unfold Rdiv. rewrite Rabs_mult, Rabs_inv. rewrite Rabs_left1 by lra.
    assert (P : 0 < Rabs h) by (apply Rabs_pos_lt; exact N).
    apply Rmult_lt_reg_r with (Rabs h); [exact P|]. rewrite Rmult_assoc, Rinv_l, Rmult_1_r by lra.
    assert (HH : Rabs h * Rabs h = h * h) by (unfold Rabs; destruct (Rcase_abs h); ring).
    assert (Rabs h * Rabs h < e * Rabs h) by (apply Rmult_lt_compat_r; assumption).
    lra.
Qed.

Lemma sc_derive (x : R) : x <> 0 -> is_derive sc x ((x * cos x - sin x) / (x * x)).
Proof.
  intros N. apply is_derive_ext_loc with (fun y => sin y / y).
  - assert (P : 0 < Rabs x) by (apply Rabs_pos_lt; exact N). exists (mkposreal _ P). intros y B.
    assert (B' : Rabs (y - x) < Rabs x) by exact B.
    unfold sc. destruct (Req_EM_T y 0) as [-> |_]; [|reflexivity].
    rewrite Rminus_0_l, Rabs_Ropp in B'. lra.
  - auto_derive; [exact N|]. field. exact N.
Qed.
