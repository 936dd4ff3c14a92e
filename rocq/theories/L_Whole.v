(** Integrals over the real line of functions that are even around a point. *)
From Coquelicot Require Import Coquelicot.
From Coq Require Import Reals Lia Lra.
From Verif Require Import S_Evidence P_Evidence.
Local Open Scope R_scope.

(** integral over the positive numbers *)
Definition half (f : R -> R) (l : R) : Prop :=
  forall eps, 0 < eps -> exists M, 0 <= M /\ forall b, M < b -> exists i, is_RInt f 0 b i /\ Rabs (i - l) < eps.

Lemma whole_intro (f : R -> R) (l : R) :
  (forall eps, 0 < eps -> exists M, forall a b, a < - M -> M < b -> exists i, is_RInt f a b i /\ Rabs (i - l) < eps) -> whole f l.
Proof.
  intros H P [eps Q]. destruct (H eps (cond_pos eps)) as (M & HM).
  exists (fun a => a < - M) (fun b => M < b).
  - exists (- M). intros x X. exact X.
  - exists M. intros x X. exact X.
  - intros a b A B. cbn. destruct (HM a b A B) as (i & I & E). exists i. split; [exact I|]. apply Q. exact E.
Qed.

Lemma whole_elim (f : R -> R) (l : R) : whole f l ->
  forall eps, 0 < eps -> exists M, forall a b, a < - M -> M < b -> exists i, is_RInt f a b i /\ Rabs (i - l) < eps.
Proof.
  intros H eps E. assert (L : locally l (fun y => Rabs (y - l) < eps)) by (exists (mkposreal eps E); intros y Y; exact Y).
  destruct (H _ L) as [U V HU HV K]. destruct HU as [M1 H1]. destruct HV as [M2 H2].
  exists (Rmax (- M1) M2). intros a b A B.
  assert (A1 : a < M1) by (generalize (Rmax_l (- M1) M2); lra). assert (B1 : M2 < b) by (generalize (Rmax_r (- M1) M2); lra).
  destruct (K a b (H1 a A1) (H2 b B1)) as (i & I & J). exists i. split; assumption.
Qed.

(** even around mu *)
Lemma whole_even (g : R -> R) (l mu : R) : half g l -> whole (fun y => g (Rabs (y - mu))) (2 * l).
Proof.
  intro H. apply whole_intro. intros eps E. destruct (H (eps / 2) ltac:(lra)) as (M & M0 & HM).
  exists (M + Rabs mu). intros a b A B. assert (U := Rle_abs mu). assert (V := Rle_abs (- mu)). rewrite Rabs_Ropp in V.
  destruct (HM (b - mu) ltac:(lra)) as (i & I & Ei). destruct (HM (mu - a) ltac:(lra)) as (j & J & Ej).
  exists (j + i). split.
  - apply (is_RInt_Chasles (V := R_NormedModule) _ a mu b j i).
    + assert (K : is_RInt (V := R_NormedModule) (fun y => scal (-1) (g (-1 * y + mu))) mu a j).
      { apply (is_RInt_comp_lin (V := R_NormedModule)). replace (-1 * mu + mu) with 0 by ring. replace (-1 * a + mu) with (mu - a) by ring. exact J. }
      apply (is_RInt_swap (V := R_NormedModule)) in K. apply (is_RInt_opp (V := R_NormedModule)) in K.
      rewrite opp_opp in K. apply (is_RInt_ext (V := R_NormedModule)) with (2 := K).
      intros x X. rewrite Rmin_left, Rmax_right in X by lra. unfold opp, scal; cbn; unfold mult; cbn.
      rewrite Rabs_left by lra. replace (-1 * x + mu) with (- (x - mu)) by ring. ring.
    + assert (K : is_RInt (V := R_NormedModule) (fun y => scal 1 (g (1 * y + - mu))) mu b i).
      { apply (is_RInt_comp_lin (V := R_NormedModule)). replace (1 * mu + - mu) with 0 by ring. replace (1 * b + - mu) with (b - mu) by ring. exact I. }
      apply (is_RInt_ext (V := R_NormedModule)) with (2 := K).
      intros x X. rewrite Rmin_left, Rmax_right in X by lra. unfold scal; cbn; unfold mult; cbn.
      rewrite Rabs_right by lra. replace (1 * x + - mu) with (x - mu) by ring. ring.
  - replace (j + i - 2 * l) with ((j - l) + (i - l)) by ring. generalize (Rabs_triang (j - l) (i - l)). lra.
Qed.

Lemma half_derive (F f : R -> R) (L : R) :
  (forall t, 0 <= t -> is_derive F t (f t)) -> (forall t, 0 <= t -> continuous f t) -> is_lim F p_infty L -> half f (L - F 0).
Proof.
  intros D C LB eps E.
  assert (Q : Rbar_locally p_infty (fun t => Rabs (F t - L) < eps)) by (apply (LB (fun y => Rabs (y - L) < eps)); exists (mkposreal eps E); intros y Y; exact Y).
  destruct Q as [M HM]. exists (Rmax M 0). split; [apply Rmax_r|]. intros b B.
  generalize (Rmax_l M 0) (Rmax_r M 0). intros B1 B2.
  exists (F b - F 0). split.
  - apply (is_RInt_derive (V := R_CompleteNormedModule)); rewrite Rmin_left, Rmax_right by lra; intros x X; [apply D | apply C]; lra.
  - replace (F b - F 0 - (L - F 0)) with (F b - L) by ring. apply HM. lra.
Qed.

Lemma half_ext (f g : R -> R) (l : R) : (forall t, 0 < t -> f t = g t) -> half f l -> half g l.
Proof.
  intros X H eps E. destruct (H eps E) as (M & M0 & HM). exists M. split; [exact M0|]. intros b B.
  destruct (HM b B) as (i & I & J). exists i. split; [|exact J]. apply (is_RInt_ext (V := R_NormedModule)) with (2 := I).
  intros x Y. apply X. rewrite Rmin_left in Y; lra.
Qed.

(** a function that stops at m *)
Lemma half_stop (f g : R -> R) (m l : R) : 0 < m -> is_RInt f 0 m l -> (forall t, 0 < t < m -> g t = f t) -> (forall t, m <= t -> g t = 0) -> half g l.
Proof.
  intros M H A B eps E. exists m. split; [lra|]. intros b Hb. exists l. split.
  - replace l with (plus l (scal (b - m) 0)) by (unfold plus, scal; cbn; unfold mult; cbn; ring).
    apply (is_RInt_Chasles (V := R_NormedModule) _ 0 m b).
    + apply (is_RInt_ext (V := R_NormedModule)) with (2 := H). rewrite Rmin_left, Rmax_right by lra. intros x X. symmetry. now apply A.
    + apply (is_RInt_ext (V := R_NormedModule)) with (2 := is_RInt_const (V := R_NormedModule) m b 0). rewrite Rmin_left, Rmax_right by lra.
      intros x X. symmetry. apply B. lra.
  - rewrite Rminus_eq_0, Rabs_R0. exact E.
Qed.

(** decay at infinity *)
Lemma lim_zero (f : R -> R) (K m : R) : (forall t, m < t -> Rabs (f t) <= K / t) -> is_lim f p_infty 0.
Proof.
  intros H. apply (is_lim_le_le_loc (fun t => - (K / t)) (fun t => K / t)).
  - exists m. intros t T. specialize (H t T). apply Rabs_le_between in H. exact H.
  - assert (X : is_lim (fun t => / t) p_infty 0) by (evar_last; [apply is_lim_inv; [apply is_lim_id | discriminate] | reflexivity]).
    apply (is_lim_scal_l _ (- K)) in X. cbn in X. rewrite Rmult_0_r in X. apply (is_lim_ext (fun t => - K * / t)); [intro; unfold Rdiv; ring | exact X].
  - assert (X : is_lim (fun t => / t) p_infty 0) by (evar_last; [apply is_lim_inv; [apply is_lim_id | discriminate] | reflexivity]).
    apply (is_lim_scal_l _ K) in X. cbn in X. rewrite Rmult_0_r in X. exact X.
Qed.

Lemma exp_cube u : 0 <= u -> u * u * u / 27 <= exp u.
Proof.
  intro U. replace (exp u) with (exp (u / 3) * exp (u / 3) * exp (u / 3)) by (rewrite <- !exp_plus; f_equal; field).
  assert (A : 0 <= u / 3 <= exp (u / 3)) by (generalize (exp_ineq1_le (u / 3)); lra).
  replace (u * u * u / 27) with (u / 3 * (u / 3) * (u / 3)) by field.
  set (v := u / 3) in *. set (e := exp v) in *. assert (v * v <= e * e) by nra. nra.
Qed.

(** scale and sum *)
Lemma whole_scal (f : R -> R) (c l : R) : whole f l -> whole (fun y => c * f y) (c * l).
Proof. intro H. exact (is_RInt_gen_scal (V := R_NormedModule) f c l H). Qed.
Lemma whole_plus (f g : R -> R) (k l : R) : whole f k -> whole g l -> whole (fun y => f y + g y) (k + l).
Proof. intros A B. exact (is_RInt_gen_plus (V := R_NormedModule) f g k l A B). Qed.
Lemma whole_ext (f g : R -> R) (l : R) : (forall y, f y = g y) -> whole f l -> whole g l.
Proof. intros E H. apply (is_RInt_gen_ext (V := R_NormedModule) f); [apply filter_forall; intros [u v] t _; apply E | exact H]. Qed.
Lemma half_scal (f : R -> R) (c l : R) : half f l -> half (fun y => c * f y) (c * l).
Proof.
  intros H eps E. destruct (H (eps / (Rabs c + 1))) as (M & M0 & HM); [apply Rdiv_lt_0_compat; [exact E | generalize (Rabs_pos c); lra]|].
  exists M. split; [exact M0|]. intros b B. destruct (HM b B) as (i & I & J). exists (c * i). split; [exact (is_RInt_scal (V := R_NormedModule) f 0 b c i I)|].
  replace (c * i - c * l) with (c * (i - l)) by ring. rewrite Rabs_mult. generalize (Rabs_pos c) (Rabs_pos (i - l)). intros.
  apply (Rmult_lt_compat_l (Rabs c + 1)) in J; [|lra]. replace ((Rabs c + 1) * (eps / (Rabs c + 1))) with eps in J by (field; lra). nra.
Qed.

Lemma whole_even2 (d g : R -> R) (mu l L : R) : half g l -> (forall y, d y = g (Rabs (y - mu))) -> L = 2 * l -> whole d L.
Proof. intros H E ->. apply (whole_ext (fun y => g (Rabs (y - mu)))); [intro; now rewrite E | now apply whole_even]. Qed.

(** another unit *)
Lemma whole_unit (f : R -> R) (s l : R) : 0 < s -> whole f l -> whole (fun t => f (t / s) / s) l.
Proof.
  intros P H. apply whole_intro. intros eps E. destruct (whole_elim f l H eps E) as (M & HM). exists (M * s). intros a b A B.
  assert (A1 : a / s < - M) by (apply Rmult_lt_reg_r with s; [exact P|]; unfold Rdiv; rewrite Rmult_assoc, Rinv_l, Rmult_1_r by lra; lra).
  assert (B1 : M < b / s) by (apply Rmult_lt_reg_r with s; [exact P|]; unfold Rdiv; rewrite Rmult_assoc, Rinv_l, Rmult_1_r by lra; lra).
  destruct (HM _ _ A1 B1) as (i & I & J). exists i. split; [|exact J].
  assert (K : is_RInt (V := R_NormedModule) (fun y => scal (/ s) (f (/ s * y + 0))) a b i).
  { apply (is_RInt_comp_lin (V := R_NormedModule)). replace (/ s * a + 0) with (a / s) by (field; lra). replace (/ s * b + 0) with (b / s) by (field; lra). exact I. }
  apply (is_RInt_ext (V := R_NormedModule)) with (2 := K). intros x _. unfold scal; cbn; unfold mult; cbn. replace (/ s * x + 0) with (x / s) by (field; lra). unfold Rdiv. apply Rmult_comm.
Qed.
