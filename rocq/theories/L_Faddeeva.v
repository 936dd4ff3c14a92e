(** The Faddeeva function w( z ) = exp( -z^2 ) ( 1 + 2i / sqrt( pi ) int_0^z exp( t^2 ) dt ) at z = a + ib, as two real functions of a and b. *)
From Coquelicot Require Import Coquelicot.
From Coq Require Import Reals Lra Lia.
From Verif Require Import L_Erf.
Local Open Scope R_scope.
Ltac rr := match goal with |- ?a = ?b => change (@eq R a b) end; unfold Rminus; ring.

(** exp( (s^2 - 1) z^2 ), with P + iQ = z^2 *)
Definition Er (P Q s : R) : R := exp ((s * s - 1) * P) * cos ((s * s - 1) * Q).
Definition Ei (P Q s : R) : R := exp ((s * s - 1) * P) * sin ((s * s - 1) * Q).
Lemma Er_cont P Q s : continuous (Er P Q) s.
Proof. apply (ex_derive_continuous (Er P Q)). unfold Er. now auto_derive. Qed.
Lemma Ei_cont P Q s : continuous (Ei P Q) s.
Proof. apply (ex_derive_continuous (Ei P Q)). unfold Ei. now auto_derive. Qed.
Lemma Er_int P Q : ex_RInt (Er P Q) 0 1.
Proof. apply (ex_RInt_continuous (V := R_CompleteNormedModule)). intros. apply Er_cont. Qed.
Lemma Ei_int P Q : ex_RInt (Ei P Q) 0 1.
Proof. apply (ex_RInt_continuous (V := R_CompleteNormedModule)). intros. apply Ei_cont. Qed.
Definition Ir (P Q : R) : R := RInt (Er P Q) 0 1.
Definition Ii (P Q : R) : R := RInt (Ei P Q) 0 1.
Definition Jr (P Q : R) : R := RInt (fun s => (s * s - 1) * Er P Q s) 0 1.
Definition Ji (P Q : R) : R := RInt (fun s => (s * s - 1) * Ei P Q s) 0 1.
Lemma Jr_int P Q : ex_RInt (fun s => (s * s - 1) * Er P Q s) 0 1.
Proof. apply (ex_RInt_continuous (V := R_CompleteNormedModule)). intros s _. apply (ex_derive_continuous (fun s => (s * s - 1) * Er P Q s)). unfold Er. now auto_derive. Qed.
Lemma Ji_int P Q : ex_RInt (fun s => (s * s - 1) * Ei P Q s) 0 1.
Proof. apply (ex_RInt_continuous (V := R_CompleteNormedModule)). intros s _. apply (ex_derive_continuous (fun s => (s * s - 1) * Ei P Q s)). unfold Ei. now auto_derive. Qed.

(** the derivative of s exp( (s^2 - 1) z^2 ) integrates to 1 *)
Lemma lin3 (f g h : R -> R) (k l m : R) : ex_RInt f 0 1 -> ex_RInt g 0 1 -> ex_RInt h 0 1 ->
  RInt (fun s => k * f s + l * g s + m * h s) 0 1 = k * RInt f 0 1 + l * RInt g 0 1 + m * RInt h 0 1.
Proof.
  intros F G H. apply is_RInt_unique.
  apply (is_RInt_plus (V := R_NormedModule) (fun s => k * f s + l * g s) (fun s => m * h s)); [apply (is_RInt_plus (V := R_NormedModule) (fun s => k * f s) (fun s => l * g s))|];
  apply (is_RInt_scal (V := R_NormedModule)); now apply (RInt_correct (V := R_CompleteNormedModule)).
Qed.
Lemma parts_r P Q : Ir P Q + 2 * (P * (Jr P Q + Ir P Q) - Q * (Ji P Q + Ii P Q)) = 1.
Proof.
  assert (D : forall s, is_derive (fun s => s * Er P Q s) s (Er P Q s + 2 * (P * ((s * s - 1) * Er P Q s + Er P Q s) - Q * ((s * s - 1) * Ei P Q s + Ei P Q s)))).
  { intro s. unfold Er, Ei. auto_derive; trivial. rr. }
  assert (I := is_RInt_derive (V := R_CompleteNormedModule) (fun s => s * Er P Q s) _ 0 1 (fun s _ => D s)).
  assert (C : forall s, continuous (fun s => Er P Q s + 2 * (P * ((s * s - 1) * Er P Q s + Er P Q s) - Q * ((s * s - 1) * Ei P Q s + Ei P Q s))) s).
  { intro s. apply (ex_derive_continuous (V := R_NormedModule)). unfold Er, Ei. now auto_derive. }
  specialize (I (fun s _ => C s)). apply is_RInt_unique in I.
  assert (E : forall u, u = minus (1 * Er P Q 1) (0 * Er P Q 0) -> u = 1).
  { intros u ->. unfold minus, plus, opp, Er. cbn. replace (1 * 1 - 1) with 0 by ring. rewrite !Rmult_0_l, exp_0, cos_0. ring. }
  apply E in I. clear E.
  refine (eq_trans _ I). clear I C D. unfold Ir, Ii, Jr, Ji.
  transitivity (1 * RInt (Er P Q) 0 1 + 1 * RInt (fun s => 2 * P * ((s * s - 1) * Er P Q s) + 2 * P * Er P Q s + - (2 * Q) * ((s * s - 1) * Ei P Q s)) 0 1 + - (2 * Q) * RInt (Ei P Q) 0 1).
  - rewrite lin3; [rr|apply Jr_int|apply Er_int|apply Ji_int].
  - rewrite <- lin3; [|apply Er_int| |apply Ei_int].
    + apply RInt_ext. intros s _. match goal with |- ?a = ?b => change (@eq R a b) end. ring.
    + apply (ex_RInt_continuous (V := R_CompleteNormedModule)). intros s _. apply (ex_derive_continuous (V := R_NormedModule)). unfold Er, Ei. now auto_derive.
Qed.
Lemma parts_i P Q : Ii P Q + 2 * (P * (Ji P Q + Ii P Q) + Q * (Jr P Q + Ir P Q)) = 0.
Proof.
  assert (D : forall s, is_derive (fun s => s * Ei P Q s) s (Ei P Q s + 2 * (P * ((s * s - 1) * Ei P Q s + Ei P Q s) + Q * ((s * s - 1) * Er P Q s + Er P Q s)))).
  { intro s. unfold Er, Ei. auto_derive; trivial. rr. }
  assert (I := is_RInt_derive (V := R_CompleteNormedModule) (fun s => s * Ei P Q s) _ 0 1 (fun s _ => D s)).
  assert (C : forall s, continuous (fun s => Ei P Q s + 2 * (P * ((s * s - 1) * Ei P Q s + Ei P Q s) + Q * ((s * s - 1) * Er P Q s + Er P Q s))) s).
  { intro s. apply (ex_derive_continuous (V := R_NormedModule)). unfold Er, Ei. now auto_derive. }
  specialize (I (fun s _ => C s)). apply is_RInt_unique in I.
  assert (E : forall u, u = minus (1 * Ei P Q 1) (0 * Ei P Q 0) -> u = 0).
  { intros u ->. unfold minus, plus, opp, Ei. cbn. replace (1 * 1 - 1) with 0 by ring. rewrite !Rmult_0_l, exp_0, sin_0. ring. }
  apply E in I. clear E.
  refine (eq_trans _ I). clear I C D. unfold Ir, Ii, Jr, Ji.
  transitivity (1 * RInt (Ei P Q) 0 1 + 1 * RInt (fun s => 2 * P * ((s * s - 1) * Ei P Q s) + 2 * P * Ei P Q s + (2 * Q) * ((s * s - 1) * Er P Q s)) 0 1 + (2 * Q) * RInt (Er P Q) 0 1).
  - rewrite lin3; [rr|apply Ji_int|apply Ei_int|apply Jr_int].
  - rewrite <- lin3; [|apply Ei_int| |apply Er_int].
    + apply RInt_ext. intros s _. match goal with |- ?a = ?b => change (@eq R a b) end. ring.
    + apply (ex_RInt_continuous (V := R_CompleteNormedModule)). intros s _. apply (ex_derive_continuous (V := R_NormedModule)). unfold Er, Ei. now auto_derive.
Qed.

(** along a straight line *)
Section Line.
Variables a0 a1 b0 b1 : R.
Let a (t : R) : R := a0 + a1 * t.
Let b (t : R) : R := b0 + b1 * t.
Let P (t : R) : R := a t * a t - b t * b t.
Let Q (t : R) : R := 2 * (a t * b t).
Let dP (t : R) : R := 2 * (a t * a1 - b t * b1).
Let dQ (t : R) : R := 2 * (a t * b1 + b t * a1).
Lemma Er_der s (t : R) : is_derive (fun t => Er (P t) (Q t) s) t ((s * s - 1) * (dP t * Er (P t) (Q t) s - dQ t * Ei (P t) (Q t) s)).
Proof. unfold P, Q, dP, dQ, a, b, Er, Ei. auto_derive; trivial. rr. Qed.
Lemma Ei_der s (t : R) : is_derive (fun t => Ei (P t) (Q t) s) t ((s * s - 1) * (dP t * Ei (P t) (Q t) s + dQ t * Er (P t) (Q t) s)).
Proof. unfold P, Q, dP, dQ, a, b, Er, Ei. auto_derive; trivial. rr. Qed.
Ltac c2 := repeat first
  [ apply continuity_2d_pt_id1 | apply continuity_2d_pt_id2 | apply continuity_2d_pt_const
  | apply continuity_2d_pt_mult | apply continuity_2d_pt_minus | apply continuity_2d_pt_plus | apply continuity_2d_pt_opp
  | apply (continuity_1d_2d_pt_comp exp); [apply derivable_continuous_pt, derivable_pt_exp|]
  | apply (continuity_1d_2d_pt_comp cos); [apply derivable_continuous_pt, derivable_pt_cos|]
  | apply (continuity_1d_2d_pt_comp sin); [apply derivable_continuous_pt, derivable_pt_sin|] ].
Lemma Ir_der (t : R) : is_derive (fun t => Ir (P t) (Q t)) t (dP t * Jr (P t) (Q t) - dQ t * Ji (P t) (Q t)).
Proof.
  unfold Ir. evar_last.
  { apply (is_derive_RInt_param (fun t s => Er (P t) (Q t) s) 0 1 t).
    - apply filter_forall. intros y s _. eexists. apply Er_der.
    - intros s _. apply continuity_2d_pt_ext with (f := fun u v => (v * v - 1) * (dP u * Er (P u) (Q u) v - dQ u * Ei (P u) (Q u) v)).
      + intros u v. symmetry. apply is_derive_unique. apply Er_der.
      + unfold P, Q, dP, dQ, a, b, Er, Ei. c2.
    - apply filter_forall. intro y. apply Er_int. }
  unfold Jr, Ji. transitivity (dP t * RInt (fun s : R => (s * s - 1) * Er (P t) (Q t) s) 0 1 + - dQ t * RInt (fun s : R => (s * s - 1) * Ei (P t) (Q t) s) 0 1 + 0 * RInt (Er 0 0) 0 1); [|ring].
  rewrite <- lin3; [|apply Jr_int|apply Ji_int|apply Er_int]. apply RInt_ext. intros s _. etransitivity; [apply is_derive_unique; apply Er_der|]. match goal with |- ?a = ?b => change (@eq R a b) end. ring.
Qed.
Lemma Ii_der (t : R) : is_derive (fun t => Ii (P t) (Q t)) t (dP t * Ji (P t) (Q t) + dQ t * Jr (P t) (Q t)).
Proof.
  unfold Ii. evar_last.
  { apply (is_derive_RInt_param (fun t s => Ei (P t) (Q t) s) 0 1 t).
    - apply filter_forall. intros y s _. eexists. apply Ei_der.
    - intros s _. apply continuity_2d_pt_ext with (f := fun u v => (v * v - 1) * (dP u * Ei (P u) (Q u) v + dQ u * Er (P u) (Q u) v)).
      + intros u v. symmetry. apply is_derive_unique. apply Ei_der.
      + unfold P, Q, dP, dQ, a, b, Er, Ei. c2.
    - apply filter_forall. intro y. apply Ei_int. }
  unfold Jr, Ji. transitivity (dP t * RInt (fun s : R => (s * s - 1) * Ei (P t) (Q t) s) 0 1 + dQ t * RInt (fun s : R => (s * s - 1) * Er (P t) (Q t) s) 0 1 + 0 * RInt (Er 0 0) 0 1); [|ring].
  rewrite <- lin3; [|apply Ji_int|apply Jr_int|apply Er_int]. apply RInt_ext. intros s _. etransitivity; [apply is_derive_unique; apply Ei_der|]. match goal with |- ?a = ?b => change (@eq R a b) end. ring.
Qed.
End Line.

(** w = wr + i wi *)
Definition wr (a b : R) : R := exp (b * b - a * a) * cos (2 * (a * b)) - 2 / sqrt PI * (a * Ii (a * a - b * b) (2 * (a * b)) + b * Ir (a * a - b * b) (2 * (a * b))).
Definition wi (a b : R) : R := - (exp (b * b - a * a) * sin (2 * (a * b))) + 2 / sqrt PI * (a * Ir (a * a - b * b) (2 * (a * b)) - b * Ii (a * a - b * b) (2 * (a * b))).

(** w' = 2i / sqrt( pi ) - 2 z w *)
Definition dwr (a b : R) : R := - 2 * (a * wr a b - b * wi a b).
Definition dwi (a b : R) : R := 2 / sqrt PI - 2 * (a * wi a b + b * wr a b).
Lemma wr_der a0 a1 b0 b1 (t : R) : is_derive (fun t => wr (a0 + a1 * t) (b0 + b1 * t)) t (a1 * dwr (a0 + a1 * t) (b0 + b1 * t) - b1 * dwi (a0 + a1 * t) (b0 + b1 * t)).
Proof.
  unfold wr. set (II := fun t => Ii ((a0 + a1 * t) * (a0 + a1 * t) - (b0 + b1 * t) * (b0 + b1 * t)) (2 * ((a0 + a1 * t) * (b0 + b1 * t)))).
  set (RR := fun t => Ir ((a0 + a1 * t) * (a0 + a1 * t) - (b0 + b1 * t) * (b0 + b1 * t)) (2 * ((a0 + a1 * t) * (b0 + b1 * t)))).
  apply (is_derive_ext (fun t => exp ((b0 + b1 * t) * (b0 + b1 * t) - (a0 + a1 * t) * (a0 + a1 * t)) * cos (2 * ((a0 + a1 * t) * (b0 + b1 * t))) - 2 / sqrt PI * ((a0 + a1 * t) * II t + (b0 + b1 * t) * RR t))).
  { reflexivity. }
  assert (D1 := Ii_der a0 a1 b0 b1 t). cbv beta in D1. fold II in D1. assert (D2 := Ir_der a0 a1 b0 b1 t). cbv beta in D2. fold RR in D2.
  assert (S := sqrtPI_pos). auto_derive.
  - repeat split; eexists; eassumption.
  - replace (Derive (fun x : R => II x) t) with (2 * ((a0 + a1 * t) * a1 - (b0 + b1 * t) * b1) * Ji ((a0 + a1 * t) * (a0 + a1 * t) - (b0 + b1 * t) * (b0 + b1 * t)) (2 * ((a0 + a1 * t) * (b0 + b1 * t)))
       + 2 * ((a0 + a1 * t) * b1 + (b0 + b1 * t) * a1) * Jr ((a0 + a1 * t) * (a0 + a1 * t) - (b0 + b1 * t) * (b0 + b1 * t)) (2 * ((a0 + a1 * t) * (b0 + b1 * t)))) by (symmetry; apply is_derive_unique; exact D1).
    replace (Derive (fun x : R => RR x) t) with (2 * ((a0 + a1 * t) * a1 - (b0 + b1 * t) * b1) * Jr ((a0 + a1 * t) * (a0 + a1 * t) - (b0 + b1 * t) * (b0 + b1 * t)) (2 * ((a0 + a1 * t) * (b0 + b1 * t)))
       - 2 * ((a0 + a1 * t) * b1 + (b0 + b1 * t) * a1) * Ji ((a0 + a1 * t) * (a0 + a1 * t) - (b0 + b1 * t) * (b0 + b1 * t)) (2 * ((a0 + a1 * t) * (b0 + b1 * t)))) by (symmetry; apply is_derive_unique; exact D2).
    unfold II, RR, dwr, dwi, wr, wi. clear D1 D2 II RR. set (a := a0 + a1 * t). set (b := b0 + b1 * t).
    assert (E1 := parts_r (a * a - b * b) (2 * (a * b))). assert (E2 := parts_i (a * a - b * b) (2 * (a * b))).
    change (b * b + - (a * a)) with (b * b - a * a).
    set (i1 := Ir (a * a - b * b) (2 * (a * b))) in *. set (i2 := Ii (a * a - b * b) (2 * (a * b))) in *. set (j1 := Jr (a * a - b * b) (2 * (a * b))) in *. set (j2 := Ji (a * a - b * b) (2 * (a * b))) in *.
    set (k := 2 / sqrt PI). set (ee := exp (b * b - a * a)). set (cc := cos (2 * (a * b))). set (ss := sin (2 * (a * b))).
    clearbody a b i1 i2 j1 j2 k ee cc ss.
    match goal with |- ?u = ?v => change (@eq R u v) end. apply Rminus_diag_uniq.
    transitivity (- k * (a1 * (i2 + 2 * ((a * a - b * b) * (j2 + i2) + 2 * (a * b) * (j1 + i1))) + b1 * (i1 + 2 * ((a * a - b * b) * (j1 + i1) - 2 * (a * b) * (j2 + i2)) - 1))); [ring|rewrite E1, E2; ring].
Qed.
Lemma wi_der a0 a1 b0 b1 (t : R) : is_derive (fun t => wi (a0 + a1 * t) (b0 + b1 * t)) t (a1 * dwi (a0 + a1 * t) (b0 + b1 * t) + b1 * dwr (a0 + a1 * t) (b0 + b1 * t)).
Proof.
  unfold wi. set (II := fun t => Ii ((a0 + a1 * t) * (a0 + a1 * t) - (b0 + b1 * t) * (b0 + b1 * t)) (2 * ((a0 + a1 * t) * (b0 + b1 * t)))).
  set (RR := fun t => Ir ((a0 + a1 * t) * (a0 + a1 * t) - (b0 + b1 * t) * (b0 + b1 * t)) (2 * ((a0 + a1 * t) * (b0 + b1 * t)))).
  apply (is_derive_ext (fun t => - (exp ((b0 + b1 * t) * (b0 + b1 * t) - (a0 + a1 * t) * (a0 + a1 * t)) * sin (2 * ((a0 + a1 * t) * (b0 + b1 * t)))) + 2 / sqrt PI * ((a0 + a1 * t) * RR t - (b0 + b1 * t) * II t))).
  { reflexivity. }
  assert (D1 := Ii_der a0 a1 b0 b1 t). cbv beta in D1. fold II in D1. assert (D2 := Ir_der a0 a1 b0 b1 t). cbv beta in D2. fold RR in D2.
  assert (S := sqrtPI_pos). auto_derive.
  - repeat split; eexists; eassumption.
  - replace (Derive (fun x : R => II x) t) with (2 * ((a0 + a1 * t) * a1 - (b0 + b1 * t) * b1) * Ji ((a0 + a1 * t) * (a0 + a1 * t) - (b0 + b1 * t) * (b0 + b1 * t)) (2 * ((a0 + a1 * t) * (b0 + b1 * t)))
       + 2 * ((a0 + a1 * t) * b1 + (b0 + b1 * t) * a1) * Jr ((a0 + a1 * t) * (a0 + a1 * t) - (b0 + b1 * t) * (b0 + b1 * t)) (2 * ((a0 + a1 * t) * (b0 + b1 * t)))) by (symmetry; apply is_derive_unique; exact D1).
    replace (Derive (fun x : R => RR x) t) with (2 * ((a0 + a1 * t) * a1 - (b0 + b1 * t) * b1) * Jr ((a0 + a1 * t) * (a0 + a1 * t) - (b0 + b1 * t) * (b0 + b1 * t)) (2 * ((a0 + a1 * t) * (b0 + b1 * t)))
       - 2 * ((a0 + a1 * t) * b1 + (b0 + b1 * t) * a1) * Ji ((a0 + a1 * t) * (a0 + a1 * t) - (b0 + b1 * t) * (b0 + b1 * t)) (2 * ((a0 + a1 * t) * (b0 + b1 * t)))) by (symmetry; apply is_derive_unique; exact D2).
    unfold II, RR, dwr, dwi, wr, wi. clear D1 D2 II RR. set (a := a0 + a1 * t). set (b := b0 + b1 * t).
    assert (E1 := parts_r (a * a - b * b) (2 * (a * b))). assert (E2 := parts_i (a * a - b * b) (2 * (a * b))).
    change (b * b + - (a * a)) with (b * b - a * a).
    set (i1 := Ir (a * a - b * b) (2 * (a * b))) in *. set (i2 := Ii (a * a - b * b) (2 * (a * b))) in *. set (j1 := Jr (a * a - b * b) (2 * (a * b))) in *. set (j2 := Ji (a * a - b * b) (2 * (a * b))) in *.
    set (k := 2 / sqrt PI). set (ee := exp (b * b - a * a)). set (cc := cos (2 * (a * b))). set (ss := sin (2 * (a * b))).
    clearbody a b i1 i2 j1 j2 k ee cc ss.
    match goal with |- ?u = ?v => change (@eq R u v) end. apply Rminus_diag_uniq.
    transitivity (k * (a1 * (i1 + 2 * ((a * a - b * b) * (j1 + i1) - 2 * (a * b) * (j2 + i2)) - 1) - b1 * (i2 + 2 * ((a * a - b * b) * (j2 + i2) + 2 * (a * b) * (j1 + i1))))); [ring|rewrite E1, E2; ring].
Qed.

(** on the real axis, and on the imaginary axis *)
Lemma Ii_real P : Ii P 0 = 0.
Proof.
  unfold Ii. transitivity (RInt (fun _ => 0) 0 1). { apply RInt_ext. intros s _. unfold Ei. rewrite Rmult_0_r, sin_0. apply Rmult_0_r. }
  rewrite RInt_const. apply Rmult_0_r.
Qed.
Lemma wr_real a : wr a 0 = exp (- (a * a)).
Proof. unfold wr. rewrite !Rmult_0_r, cos_0, Ii_real. replace (0 - a * a) with (- (a * a)) by ring. ring. Qed.
Lemma w_even a b : wr (- a) b = wr a b /\ wi (- a) b = - wi a b.
Proof.
  assert (R1 : forall P Q, Ir P (- Q) = Ir P Q). { intros P Q. apply RInt_ext. intros s _. unfold Er. replace ((s * s - 1) * - Q) with (- ((s * s - 1) * Q)) by ring. now rewrite cos_neg. }
  assert (R2 : forall P Q, Ii P (- Q) = - Ii P Q).
  { intros P Q. unfold Ii. transitivity (RInt (fun s => opp (Ei P Q s)) 0 1).
    - apply RInt_ext. intros s _. unfold Ei, opp. cbn. replace ((s * s - 1) * - Q) with (- ((s * s - 1) * Q)) by ring. rewrite sin_neg. rr.
    - apply (RInt_opp (V := R_CompleteNormedModule)). apply Ei_int. }
  unfold wr, wi. replace (- a * - a) with (a * a) by ring. replace (2 * (- a * b)) with (- (2 * (a * b))) by ring. rewrite R1, R2, cos_neg, sin_neg. split; ring.
Qed.
Lemma wr_imag b : wr 0 b = exp (b * b) * (1 - 2 / sqrt PI * gi b).
Proof.
  unfold wr. rewrite !Rmult_0_l, !Rmult_0_r, cos_0. replace (b * b - 0) with (b * b) by ring. replace (0 - b * b) with (- (b * b)) by ring.
  assert (E : b * Ir (- (b * b)) 0 = exp (b * b) * gi b).
  { unfold Ir, gi. transitivity (RInt (fun s => scal (exp (b * b)) (scal b (gs (b * s + 0)))) 0 1).
    - transitivity (RInt (fun s => scal b (Er (- (b * b)) 0 s)) 0 1). { symmetry. apply (RInt_scal (V := R_CompleteNormedModule)). apply Er_int. }
      apply RInt_ext. intros s _. unfold Er, gs, scal. cbn. unfold mult. cbn. rewrite Rmult_0_r, cos_0.
      replace ((s * s - 1) * - (b * b)) with (b * b + - ((b * s + 0) * (b * s + 0))) by ring. rewrite exp_plus. rr.
    - rewrite (RInt_scal (V := R_CompleteNormedModule) (fun s => scal b (gs (b * s + 0)))) by (apply (ex_RInt_comp_lin gs b 0 0 1), gs_int).
      apply (f_equal (Rmult (exp (b * b)))). etransitivity; [apply (RInt_comp_lin (V := R_CompleteNormedModule) gs b 0 0 1), gs_int|]. f_equal; ring. }
  rewrite E. ring.
Qed.
Lemma wr_imag_pos b : 0 < wr 0 b.
Proof.
  rewrite wr_imag. apply Rmult_lt_0_compat; [apply exp_pos|]. assert (S := sqrtPI_pos). destruct (gi_bound b) as [_ H].
  apply Rmult_lt_compat_l with (r := 2 / sqrt PI) in H; [|apply Rdiv_lt_0_compat; lra].
  replace (2 / sqrt PI * (sqrt PI / 2)) with 1 in H by (field; lra). lra.
Qed.
