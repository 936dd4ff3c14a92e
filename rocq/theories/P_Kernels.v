(** The other kernels. *)
From Coquelicot Require Import Coquelicot.
From Coq Require Import Reals Lra Lia List.
From Verif Require Import M_Elem M_Kernel P_Kernel P_Tophat P_Elem L_Erf.
Import ListNotations.
Local Open Scope R_scope.

Ltac absx x := assert (Rabs_nn := Rabs_pos x);
  assert (Rabs_ss : Rabs x * Rabs x = x * x) by (unfold Rabs; destruct (Rcase_abs x); ring);
  assert (Rabs_sg : nsign x * Rabs x = x)
    by (unfold nsign, Rabs; destruct (Rcase_abs x); destruct (Rlt_dec 0 x); try destruct (Rlt_dec x 0); lra).

Ltac cases := repeat match goal with
  | |- context [Rlt_dec ?a ?b] => destruct (Rlt_dec a b); try (exfalso; lra)
  | |- context [Rle_dec ?a ?b] => destruct (Rle_dec a b); try (exfalso; lra)
  | |- context [Req_EM_T ?a ?b] => destruct (Req_EM_T a b); try (exfalso; lra)
  end.

Lemma sq_le1 (a : R) : 0 <= a -> a <= 1 -> a * a <= 1.
Proof. intros. nra. Qed.
Lemma sq_gt1 (a : R) : 1 < a -> 1 < a * a.
Proof. intros. nra. Qed.

(** sq x*x as a function of |x| *)
Lemma wsq (x : R) : where_ (Rle_dec (x * x) 1) (1 - x * x) 0 = ite 1 (fun t => 1 - t * t) (fun _ => 0) (Rabs x).
Proof.
  absx x. unfold ite, where_. rewrite <- Rabs_ss. set (a := Rabs x) in *. clearbody a.
  destruct (Rle_dec (a * a) 1) as [L|L], (Rlt_dec a 1) as [M|M]; try reflexivity.
  - assert (~ 1 < a) by (intros Q; apply sq_gt1 in Q; lra). assert (a = 1) as -> by lra. ring.
  - exfalso. apply L. apply sq_le1; lra.
Qed.

Definition w1 := ite 1 (fun t => 1 - t * t) (fun _ => 0).

Lemma w1_falls b : falls 0 b w1.
Proof.
  apply falls_ite; [|apply falls_const|lra|lra].
  intros s t A B C. nra.
Qed.

Lemma w1_pos (t : R) : 0 <= w1 t \/ t < 0.
Proof.
  destruct (Rlt_le_dec t 0) as [L|L]; [right; exact L|left].
  unfold w1, ite, where_. destruct (Rlt_dec t 1); [nra|lra].
Qed.

Lemma w1_in (t : R) : 0 <= t < 1 -> 0 < w1 t.
Proof. intros T. unfold w1. rewrite ite_lt by lra. nra. Qed.

Lemma biweight_radial : radial biweight (ite 1 (fun t => (1-t*t)*(1-t*t)) (fun _ => 0)) (ite 1 (fun t => -4*(1-t*t)*t) (fun _ => 0)) [] 1.
Proof.
  split; cbn [k_result k_partial k_range biweight]; try reflexivity; try lra.
  - intros x. rewrite wsq. unfold ite, where_. cases; ring.
  - intros x _. absx x. unfold ite, where_. cases; try ring.
    + rewrite Rabs_ss. transitivity (-4 * (1 - x * x) * (nsign x * Rabs x)); [rewrite Rabs_sg|]; ring.
    + replace (x * x) with 1 by (rewrite <- Rabs_ss; replace (Rabs x) with 1 by lra; ring). ring.
  - intros t _ _. apply ite_derive; [auto_derive; [exact I|ring]..|lra|lra].
  - intros _. rewrite ite_lt by lra. ring.
  - intros b. apply falls_ite; [|apply falls_const|lra|lra].
    intros s t A B C. apply Rmult_le_compat; nra.
  - rewrite ite_lt by lra. ring.
  - intros t T. apply ite_ge; lra.
  - exists 0. split; [lra|]. intros t T. rewrite ite_lt by lra. apply Rmult_lt_0_compat; nra.
Qed.

Lemma triweight_radial : radial triweight (ite 1 (fun t => (1-t*t)*(1-t*t)*(1-t*t)) (fun _ => 0)) (ite 1 (fun t => -6*(1-t*t)*(1-t*t)*t) (fun _ => 0)) [] 1.
Proof.
  split; cbn [k_result k_partial k_range triweight]; try reflexivity; try lra.
  - intros x. rewrite wsq. unfold ite, where_. cases; ring.
  - intros x _. absx x. unfold ite, where_. cases; try ring.
    + rewrite Rabs_ss. transitivity (-6 * (1 - x * x) * (1 - x * x) * (nsign x * Rabs x)); [rewrite Rabs_sg|]; ring.
    + replace (x * x) with 1 by (rewrite <- Rabs_ss; replace (Rabs x) with 1 by lra; ring). ring.
  - intros t _ _. apply ite_derive; [auto_derive; [exact I|ring]..|lra|lra].
  - intros _. rewrite ite_lt by lra. ring.
  - intros b. apply falls_ite; [|apply falls_const|lra|lra].
    intros s t A B C. assert (0 <= 1 - t * t <= 1 - s * s) by nra.
    apply Rmult_le_compat; try apply Rmult_le_compat; try lra. apply Rmult_le_pos; lra.
  - rewrite ite_lt by lra. ring.
  - intros t T. apply ite_ge; lra.
  - exists 0. split; [lra|]. intros t T. rewrite ite_lt by lra. repeat apply Rmult_lt_0_compat; nra.
Qed.

Lemma cube_le (s t : R) : 0 <= s -> s <= t -> s * s * s <= t * t * t.
Proof. intros. assert (0 <= s * s <= t * t) by nra. apply Rmult_le_compat; nra. Qed.

Lemma tricube_radial : radial tricube (ite 1 (fun t => (1-t*t*t)*(1-t*t*t)*(1-t*t*t)) (fun _ => 0))
  (ite 1 (fun t => -9*(1-t*t*t)*(1-t*t*t)*t*t) (fun _ => 0)) [] 1.
Proof.
  split; cbn [k_result k_partial k_range tricube]; try reflexivity; try lra.
  - intros x. absx x. unfold ite, where_. cases; try ring.
    replace (Rabs x) with 1 by lra. ring.
  - intros x _. absx x. unfold ite, where_. cases; try ring.
    replace (Rabs x) with 1 by lra. ring.
  - intros t _ _. apply ite_derive; [auto_derive; [exact I|ring]..|lra|lra].
  - intros _. rewrite ite_lt by lra. ring.
  - intros b. apply falls_ite; [|apply falls_const|lra|lra].
    intros s t A B C. assert (Q := cube_le s t A B). assert (Q1 := cube_le t 1 ltac:(lra) C).
    assert (Q0 := cube_le 0 s ltac:(lra) A).
    apply Rmult_le_compat; try apply Rmult_le_compat; try lra. apply Rmult_le_pos; lra.
  - rewrite ite_lt by lra. ring.
  - intros t T. apply ite_ge; lra.
  - exists 0. split; [lra|]. intros t T. rewrite ite_lt by lra.
    assert (t * t * t < 1) by (assert (0 <= t * t < 1) by nra; nra). repeat apply Rmult_lt_0_compat; lra.
Qed.

Lemma parabola_radial : radial parabola w1 (ite 1 (fun t => -2*t) (fun _ => 0)) [1] 1.
Proof.
  split; cbn [k_result k_partial k_range parabola]; try reflexivity; try lra.
  - intros x. apply wsq.
  - intros x N. absx x. unfold ite, where_. cases; try ring.
    + transitivity (-2 * (nsign x * Rabs x)); [rewrite Rabs_sg|]; ring.
    + exfalso. apply N. left. lra.
  - intros t _ N. apply (ite_derive_ne 1 (fun t => 1 - t * t) (fun _ => 0) (fun t => -2*t) (fun _ => 0)).
    + intros ->. apply N. left; reflexivity.
    + auto_derive; [exact I|ring].
    + auto_derive; [exact I|ring].
  - intros _. rewrite ite_lt by lra. ring.
  - apply w1_falls.
  - unfold w1. rewrite ite_lt by lra. ring.
  - intros t T. apply ite_ge; lra.
  - exists 0. split; [lra|]. intros t T. apply w1_in; lra.
Qed.

Lemma triangle_radial : radial triangle c1_r c1_p [0; 1] 1.
Proof.
  split; cbn [k_result k_partial k_range triangle]; try reflexivity; try lra.
  - intros x. unfold c1_r, where_. cases; try reflexivity. lra.
  - intros x N. unfold c1_p, where_. cases; try ring. exfalso. apply N. right; left. lra.
  - intros t _ N. apply (ite_derive_ne 1 (fun t => 1 - t) (fun _ => 0) (fun t => -1) (fun _ => 0)).
    + intros ->. apply N. right; left; reflexivity.
    + auto_derive; [exact I|ring].
    + auto_derive; [exact I|ring].
  - intros N. exfalso. apply N. left; reflexivity.
  - intros b. change c1_r with (ite 1 (fun t => 1 - t) (fun _ => 0)).
    apply falls_ite; [|apply falls_const|lra|lra]. intros s t A B C. lra.
  - unfold c1_r, where_. cases. ring.
  - intros t T. unfold c1_r, where_. cases. reflexivity.
  - exists 0. split; [lra|]. intros t T. unfold c1_r, where_. cases. lra.
Qed.

Lemma tophat1_radial : radial (tophat_of c1_r c1_p 1 1 1) c1_r c1_p [0; 1] 1.
Proof.
  destruct triangle_radial as [H1 H2 H3 H4 H5 H6 H7 H8 H9 H10].
  split; cbn [k_result k_partial k_range tophat_of]; try reflexivity; try assumption.
Qed.

Definition box (c : R) (t : R) : R := where_ (Rlt_dec t c) 1 (where_ (Req_EM_T t c) (1/2) 0).

Lemma box_d (c t : R) : t <> c -> is_derive (box c) t 0.
Proof.
  intros N. destruct (Rtotal_order t c) as [L|[-> |L]]; [|contradiction N; reflexivity|].
  - apply d_ext_loc with (fun _ => 1); [|apply (is_derive_const (K := R_AbsRing) (V := R_NormedModule))].
    apply filter_imp with (2 := loc_lt _ _ L). intros y Y. unfold box, where_. cases. reflexivity.
  - apply d_ext_loc with (fun _ => 0); [|apply (is_derive_const (K := R_AbsRing) (V := R_NormedModule))].
    apply filter_imp with (2 := loc_gt _ _ L). intros y Y. unfold box, where_. cases. reflexivity.
Qed.

Lemma box_falls (c a b : R) : falls a b (box c).
Proof. intros s t A B C. unfold box, where_. cases; lra. Qed.

Lemma box_int (c a : R) : 0 < c <= a -> is_RInt (box c) 0 a c.
Proof.
  intros [P A]. replace c with (c + 0) at 2 by ring.
  apply is_RInt_ext with (ite c (fun _ => 1) (fun _ => 0)).
Abort.

Lemma uniform_radial : radial uniformk (box 1) (fun _ => 0) [1] 1.
Proof.
  split; cbn [k_result k_partial k_range uniformk]; try reflexivity; try lra.
  - intros x _. ring.
  - intros t _ N. apply box_d. intros ->; apply N; left; reflexivity.
  - intros b. apply box_falls.
  - unfold box, where_. cases. reflexivity.
  - intros t T. unfold box, where_. cases. reflexivity.
  - exists 0. split; [lra|]. intros t T. unfold box, where_. cases. lra.
Qed.

Lemma tophat0_radial : radial (tophat_of c0_r (fun _ => 0) 1 1 (1/2)) (box (1/2)) (fun _ => 0) [1/2] (1/2).
Proof.
  split; cbn [k_result k_partial k_range tophat_of]; try reflexivity; try lra.
  - intros t _ N. apply box_d. intros ->; apply N; left; reflexivity.
  - intros b. apply box_falls.
  - unfold box, where_. cases. reflexivity.
  - intros t T. unfold box, where_. cases. reflexivity.
  - exists 0. split; [lra|]. intros t T. unfold box, where_. cases. lra.
Qed.

Lemma cos_half1 : cos (PI / 2 * 1) = 0.
Proof. rewrite Rmult_1_r. apply cos_PI2. Qed.

Definition cr := ite 1 (fun t => cos (PI / 2 * t)) (fun _ => 0).
Definition cp := ite 1 (fun t => - (PI / 2) * sin (PI / 2 * t)) (fun _ => 0).

Lemma cosine_abs (x : R) : cosine_r x = cr (Rabs x).
Proof.
  unfold cosine_r, cr, ite, where_. assert (E : cos (PI / 2 * x) = cos (PI / 2 * Rabs x)).
  { unfold Rabs; destruct (Rcase_abs x); [|reflexivity]. rewrite <- cos_neg. f_equal; ring. }
  rewrite E. cases; try reflexivity. replace (Rabs x) with 1 by lra. apply cos_half1.
Qed.

Lemma cosine_pabs (x : R) : Rabs x <> 1 -> cosine_p x = nsign x * cp (Rabs x).
Proof.
  intros N. unfold cosine_p, cp, ite, where_.
  assert (E : sin (PI / 2 * x) = nsign x * sin (PI / 2 * Rabs x)).
  { unfold nsign, Rabs; destruct (Rcase_abs x); cases; try ring.
    - replace (PI / 2 * - x) with (- (PI / 2 * x)) by ring. rewrite sin_neg. ring.
    - replace x with 0 by lra. rewrite Rmult_0_r, sin_0. ring. }
  rewrite E. cases; try ring; exfalso; apply N; lra.
Qed.

Lemma cr_falls b : falls 0 b cr.
Proof.
  apply falls_ite; [|apply falls_const|lra|rewrite cos_half1; lra].
  intros s t A B C. assert (P := PI_RGT_0).
  apply cos_decr_1; nra.
Qed.

Lemma cr_in (t : R) : 0 <= t < 1 -> 0 < cr t.
Proof. intros T. unfold cr. rewrite ite_lt by lra. assert (P := PI_RGT_0). apply cos_gt_0; nra. Qed.

Lemma cr_out (t : R) : 1 <= t -> cr t = 0.
Proof. intros T. unfold cr. apply ite_ge; lra. Qed.

Lemma cr_0 : cr 0 = 1.
Proof. unfold cr. rewrite ite_lt by lra. rewrite Rmult_0_r. apply cos_0. Qed.

Lemma cp_0 : cp 0 = 0.
Proof. unfold cp. rewrite ite_lt by lra. rewrite Rmult_0_r, sin_0. ring. Qed.

Lemma cr_d (t : R) : t <> 1 -> is_derive cr t (cp t).
Proof.
  intros N. apply ite_derive_ne; [exact N| |].
  - auto_derive; [exact I|ring].
  - auto_derive; [exact I|ring].
Qed.

Lemma cosine_radial : radial cosine cr cp [1] 1.
Proof.
  split; cbn [k_result k_partial k_range cosine]; try reflexivity; try lra.
  - apply cosine_abs.
  - intros x N. apply cosine_pabs. intros E; apply N; left; symmetry; exact E.
  - intros t _ N. apply cr_d. intros ->; apply N; left; reflexivity.
  - intros _. apply cp_0.
  - apply cr_falls.
  - apply cr_0.
  - intros t T. apply cr_out; lra.
  - exists 0. split; [lra|]. intros t T. apply cr_in; lra.
Qed.

Lemma cr_nonneg (t : R) : 0 <= t -> 0 <= cr t.
Proof. intros T. destruct (Rlt_le_dec t 1) as [L|L]; [left; apply cr_in; lra|rewrite cr_out by exact L; lra]. Qed.

Definition sr := ite 1 (fun t => cos (PI / 2 * t) * cos (PI / 2 * t)) (fun _ => 0).
Definition sp := ite 1 (fun t => 2 * cos (PI / 2 * t) * (- (PI / 2) * sin (PI / 2 * t))) (fun _ => 0).

Lemma sr_cr t : sr t = cr t * cr t.
Proof. unfold sr, cr, ite, where_. cases; ring. Qed.
Lemma sp_cr t : sp t = 2 * cr t * cp t.
Proof. unfold sp, cr, cp, ite, where_. cases; ring. Qed.

Lemma cossquare_radial : radial cossquare sr sp [] 1.
Proof.
  split; cbn [k_result k_partial k_range cossquare]; try reflexivity; try lra.
  - intros x. unfold cossquare_r. rewrite cosine_abs, sr_cr. reflexivity.
  - intros x _. rewrite cosine_abs, sp_cr. destruct (Req_dec (Rabs x) 1) as [E|E].
    + rewrite E, cr_out by lra. ring.
    + rewrite cosine_pabs by exact E. ring.
  - intros t _ _. apply ite_derive.
    + auto_derive; [exact I|ring].
    + auto_derive; [exact I|ring].
    + rewrite cos_half1; ring.
    + rewrite cos_half1; ring.
  - intros _. rewrite sp_cr, cp_0. ring.
  - intros b s t A B C. rewrite !sr_cr. assert (Q := cr_falls b s t A B C). assert (Q0 := cr_nonneg t ltac:(lra)).
    apply Rmult_le_compat; assumption.
  - rewrite sr_cr, cr_0. ring.
  - intros t T. rewrite sr_cr, cr_out by lra. ring.
  - exists 0. split; [lra|]. intros t T. rewrite sr_cr. apply Rmult_lt_0_compat; apply cr_in; lra.
Qed.
