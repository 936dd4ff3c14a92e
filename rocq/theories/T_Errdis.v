(** C25 (gradient of the log-likelihood) and C26 (alternative implementations). *)
From Coquelicot Require Import Coquelicot.
From Coq Require Import Reals List ZArith Bool Lra Lia.
From Verif Require Import M_Order P_Order M_Errdis S_Errdis P_Errdis P_Erralt.
Import ListNotations.
Local Open Scope R_scope.

(** an index of a model parameter, or the hyper parameter -1 *)
Definition par_or_scale (p : problem) (k : Z) : Prop := (0 <= k < Z.of_nat (npars p))%Z \/ k = (-1)%Z.
Definition is_par (p : problem) (k : Z) : Prop := (0 <= k < Z.of_nat (npars p))%Z.
(** the scale is only a parameter of the likelihood when the problem has no accuracy *)
Definition par_or_free_scale (p : problem) (k : Z) : Prop := is_par p k \/ k = (-1)%Z /\ acc p = ANone.

(** *** C25 *)
Theorem C25_gauss : forall p par s fi,
  length par = npars p -> Forall (row_ok p par) (rows p) -> Forall (offcut p par) (rows p) ->
  Forall (fun r => 0 < s * s + varyy p r) (rows p) -> Forall (par_or_scale p) fi ->
  gradient_ok gauss p (par ++ [s]) fi.
Proof.
  intros p par s fi LP RO OC S2 FI. apply (gradient_sum gauss p (par ++ [s]) (par_or_scale p) anyfi); [|exact I|exact FI].
  rewrite Forall_forall in *. intros r Hr. apply gauss_rgrad; auto.
Qed.

Theorem C25_laplace : forall p par s fi,
  length par = npars p -> Forall (row_ok p par) (rows p) -> Forall (offcut p par) (rows p) ->
  Forall (fun r => 0 < noise p r s /\ residual p par r <> 0 /\ 0 <= wgt p r) (rows p) -> Forall (par_or_free_scale p) fi ->
  gradient_ok laplace p (par ++ [s]) fi.
Proof.
  intros p par s fi LP RO OC S2 FI. apply (gradient_sum laplace p (par ++ [s]) (par_or_free_scale p) anyfi); [|exact I|exact FI].
  rewrite Forall_forall in *. intros r Hr. destruct (S2 r Hr) as (A & B & C). apply laplace_rgrad; auto.
Qed.

Theorem C25_cauchy : forall p par s fi,
  length par = npars p -> Forall (row_ok p par) (rows p) -> Forall (offcut p par) (rows p) ->
  Forall (fun r => 0 < noise p r s) (rows p) -> Forall (par_or_free_scale p) fi ->
  gradient_ok cauchy p (par ++ [s]) fi.
Proof.
  intros p par s fi LP RO OC S2 FI. apply (gradient_sum cauchy p (par ++ [s]) (par_or_free_scale p) anyfi); [|exact I|exact FI].
  rewrite Forall_forall in *. intros r Hr. apply cauchy_rgrad; auto.
Qed.

Theorem C25_uniform : forall p par s fi,
  length par = npars p -> Forall (row_ok p par) (rows p) ->
  Forall (fun r => Rabs (r_y r - r_f r par) < noise p r s) (rows p) -> Forall (par_or_free_scale p) fi ->
  gradient_ok uniform p (par ++ [s]) fi.
Proof.
  intros p par s fi LP RO S2 FI. apply (gradient_sum uniform p (par ++ [s]) (par_or_free_scale p) anyfi); [|exact I|exact FI].
  rewrite Forall_forall in *. intros r Hr. apply uniform_rgrad; auto.
Qed.

(** [gl] stands for the logarithm of the gamma function and [psi] for its derivative. *)
Theorem C25_exponential : forall (gl psi : R -> R) p par s w fi,
  (forall x : R, 0 < x -> is_derive gl x (psi x)) ->
  length par = npars p -> Forall (row_ok p par) (rows p) -> Forall (offcut p par) (rows p) ->
  0 < w -> Forall (fun r => 0 < noise p r s /\ residual p par r <> 0) (rows p) ->
  Forall (fun k => is_par p k \/ k = (-1)%Z \/ k = (-2)%Z /\ acc p = ANone) fi ->
  gradient_ok (expo gl psi) p (par ++ [s; w]) fi.
Proof.
  intros gl psi p par s w fi GL LP RO OC W S2 FI.
  apply (gradient_sum (expo gl psi) p (par ++ [s; w]) (fun k => is_par p k \/ k = (-1)%Z \/ k = (-2)%Z /\ acc p = ANone) anyfi); [|exact I|exact FI].
  rewrite Forall_forall in *. intros r Hr. destruct (S2 r Hr) as (A & B). apply expo_rgrad; auto.
Qed.

Theorem C25_poisson : forall lf p par fi,
  length par = npars p -> Forall (row_ok p par) (rows p) -> Forall (fun r => 0 < r_f r par) (rows p) ->
  Forall (is_par p) fi -> gradient_ok (poisson lf) p par fi.
Proof.
  intros lf p par fi LP RO S2 FI. apply (gradient_sum (poisson lf) p par (is_par p) anyfi); [|exact I|exact FI].
  rewrite Forall_forall in *. intros r Hr. apply poisson_rgrad; auto.
Qed.

Theorem C25_bernoulli : forall p par fi,
  length par = npars p -> Forall (row_ok p par) (rows p) -> Forall (fun r => 0 < r_f r par < 1) (rows p) ->
  Forall (is_par p) fi -> gradient_ok bernoulli p par fi.
Proof.
  intros p par fi LP RO S2 FI. apply (gradient_sum bernoulli p par (is_par p) anyfi); [|exact I|exact FI].
  rewrite Forall_forall in *. intros r Hr. apply bernoulli_rgrad; auto.
Qed.

(** The mixture: both components from the distributions with one scale. *)
Definition smooth_at (e : errdis) (p : problem) (par : list R) (s : R) (r : row) : Prop :=
  e = gauss /\ 0 < s * s + varyy p r /\ offcut p par r \/
  e = laplace /\ 0 < noise p r s /\ offcut p par r /\ residual p par r <> 0 /\ 0 <= wgt p r \/
  e = cauchy /\ 0 < noise p r s /\ offcut p par r \/
  e = uniform /\ Rabs (r_y r - r_f r par) < noise p r s.

Definition scale_free (e : errdis) (p : problem) : Prop := e = gauss \/ acc p = ANone.

Lemma rgrad_sub e p ap r (ok ok' : Z -> Prop) fiok : (forall k, ok' k -> ok k) -> rgrad e p ap r ok fiok -> rgrad e p ap r ok' fiok.
Proof. intros S (g & A & B). exists g. split; [exact A|]. intros k K. apply B. apply S. exact K. Qed.

Lemma smooth_rgrad e p par s r : length par = npars p -> row_ok p par r -> smooth_at e p par s r ->
  rgrad e p (par ++ [s]) r (fun k => okpar p k \/ k = (-1)%Z /\ scale_free e p) anyfi /\ e_nh e = 1%nat /\ e_ll e p (par ++ [s]) r <> None.
Proof.
  intros LP RO H. unfold scale_free.
  destruct H as [(-> & A & B)|[(-> & A & B & C & D)|[(-> & A & B)|(-> & A)]]]; (split; [|split; [reflexivity|]]).
  - apply (rgrad_sub _ _ _ _ (fun k => okpar p k \/ k = (-1)%Z)); [tauto|]. apply gauss_rgrad; assumption.
  - discriminate.
  - apply (rgrad_sub _ _ _ _ (fun k => okpar p k \/ k = (-1)%Z /\ acc p = ANone)); [|apply laplace_rgrad; assumption].
    intros k [K|[K [E|E]]]; auto. exfalso.
    assert (X : forall q, e_ll laplace (mkProblem [] false ANone None 0) [q] (mkRow 0 0 0 (fun _ => 0) (fun _ _ => 0)) = e_ll gauss (mkProblem [] false ANone None 0) [q] (mkRow 0 0 0 (fun _ => 0) (fun _ _ => 0))) by (intro; rewrite E; reflexivity).
    specialize (X 1). cbn in X. unfold laplace_ll, gauss_ll, residual, wgt, varyy, noise in X. cbn in X. injection X as X.
    rewrite !Rminus_0_r, Rabs_R0, Rmult_1_l, !Rplus_0_r, ln_1 in X. unfold LOG2PI in X. rewrite ln_mult in X by (try apply PI_RGT_0; lra).
    assert (L2 : ln 2 < ln PI). { apply ln_increasing; [lra|]. pose proof PI2_3_2. unfold PI2 in *. lra. }
    rewrite Rmult_1_r in X. lra.
  - discriminate.
  - apply (rgrad_sub _ _ _ _ (fun k => okpar p k \/ k = (-1)%Z /\ acc p = ANone)); [|apply cauchy_rgrad; assumption].
    intros k [K|[K [E|E]]]; auto. exfalso.
    assert (X : forall q, e_ll cauchy (mkProblem [] false ANone None 0) [q] (mkRow 0 0 0 (fun _ => 0) (fun _ _ => 0)) = e_ll gauss (mkProblem [] false ANone None 0) [q] (mkRow 0 0 0 (fun _ => 0) (fun _ _ => 0))) by (intro; rewrite E; reflexivity).
    specialize (X 1). cbn in X. unfold cauchy_ll, gauss_ll, residual, wgt, varyy, noise in X. cbn in X. injection X as X.
    rewrite !Rminus_0_r, !Rmult_0_l, Rmult_1_l, !Rplus_0_r, Rplus_0_l, ln_1 in X. unfold LOG2PI in X. rewrite ln_mult in X by (try apply PI_RGT_0; lra).
    assert (L2 : ln 2 < ln PI). { apply ln_increasing; [lra|]. pose proof PI2_3_2. unfold PI2 in *. lra. }
    lra.
  - discriminate.
  - apply (rgrad_sub _ _ _ _ (fun k => okpar p k \/ k = (-1)%Z /\ acc p = ANone)); [|apply uniform_rgrad; assumption].
    intros k [K|[K [E|E]]]; auto. exfalso.
    assert (X : forall q, e_ll uniform (mkProblem [] false ANone None 0) [q] (mkRow 0 0 0 (fun _ => 0) (fun _ _ => 0)) = e_ll gauss (mkProblem [] false ANone None 0) [q] (mkRow 0 0 0 (fun _ => 0) (fun _ _ => 0))) by (intro; rewrite E; reflexivity).
    specialize (X 0). cbn in X. unfold uniform_ll, gauss_ll, residual, wgt, varyy, noise in X. cbn in X.
    destruct (Rlt_dec _ _) as [Y|Y]; [|discriminate]. rewrite Rminus_0_r, Rabs_R0 in Y. lra.
  - cbn [e_ll uniform]. unfold uniform_ll. rewrite fromEnd_1, dropEnd_1. destruct (Rlt_dec _ _); [discriminate|contradiction].
Qed.

Theorem C25_mixed : forall e1 e2 p par s1 s2 f fp hy,
  length par = npars p -> Forall (row_ok p par) (rows p) ->
  Forall (smooth_at e1 p par s1) (rows p) -> Forall (smooth_at e2 p par s2) (rows p) -> 0 < f < 1 ->
  Forall (fun r => fmin < f * expO (e_ll e1 p (par ++ [s1]) r) + (1 - f) * expO (e_ll e2 p (par ++ [s2]) r)) (rows p) ->
  Forall (is_par p) fp ->
  Forall (fun k => k = (-1)%Z \/ k = (-2)%Z /\ scale_free e2 p \/ k = (-3)%Z /\ scale_free e1 p) hy -> NoDup hy ->
  gradient_ok (mixed e1 e2) p (par ++ [s1; s2; f]) (fp ++ hy).
Proof.
  intros e1 e2 p par s1 s2 f fp hy LP RO S1 S2 F FM FP HY ND.
  apply (gradient_sum (mixed e1 e2) p (par ++ [s1; s2; f])
    (fun k => okpar p k \/ k = (-1)%Z \/ k = (-2)%Z /\ scale_free e2 p \/ k = (-3)%Z /\ scale_free e1 p) mixfi).
  - rewrite Forall_forall in RO, S1, S2, FM |- *. intros r Hr.
    destruct (smooth_rgrad e1 p par s1 r LP (RO r Hr) (S1 r Hr)) as (G1 & N1 & V1).
    destruct (smooth_rgrad e2 p par s2 r LP (RO r Hr) (S2 r Hr)) as (G2 & N2 & V2).
    eapply rgrad_sub; [|refine (mixed_rgrad e1 e2 p par s1 s2 f r (fun k => okpar p k \/ k = (-1)%Z /\ scale_free e1 p)
      (fun k => okpar p k \/ k = (-1)%Z /\ scale_free e2 p) N1 N2 LP F _ _ G1 G2 V1 V2 (FM r Hr))]; cbn; intros k K; tauto.
  - exists fp, hy. refine (conj eq_refl (conj _ (conj _ ND))).
    + revert FP. apply Forall_impl. unfold is_par. intros; lia.
    + revert HY. apply Forall_impl. unfold hyidx. tauto.
  - apply Forall_app. split.
    + revert FP. apply Forall_impl. intros k K. left. exact K.
    + revert HY. apply Forall_impl. tauto.
Qed.

(** A small problem: the model is a constant, y = (1/2), one or more points. *)
Definition crow (y w a : R) : row := mkRow y w a (fun q => nth 0 q 0) (fun _ _ => 1).
Definition cprob (l : list row) (w : bool) (a : accuracy) (per : option R) : problem := mkProblem l w a per 1.

Lemma crow_ok l w a per y v b q : row_ok (cprob l w a per) [q] (crow y v b).
Proof.
  intros k K. cbn in K. replace k with 0%nat by lia. cbn. apply (is_derive_id (K := R_AbsRing)).
Qed.

(** A straight line through two points with weights. *)
Definition lrow (x y w : R) : row := mkRow y w 1 (fun q => nth 0 q 0 + nth 1 q 0 * x) (fun _ k => match k with O => 1 | _ => x end).
Definition lprob (a : accuracy) : problem := mkProblem [lrow 0 1 2; lrow 1 5 3] true a None 2.
Lemma lrow_ok a x y w q0 q1 : row_ok (lprob a) [q0; q1] (lrow x y w).
Proof.
  intros k K. cbn in K. destruct k as [|[|k]]; [| |lia]; cbn; auto_derive; auto; ring.
Qed.

Ltac fa := repeat (apply Forall_cons || apply Forall_nil).
Ltac rok := fa; try apply lrow_ok; try apply crow_ok.
Ltac calc := unfold varyy, noise, residual, wgt; cbn -[Rabs]; try lra.

Example C25_line_gauss : gradient_ok gauss (lprob ANone) ([0; 1] ++ [2]) [0%Z; 1%Z; (-1)%Z].
Proof.
  apply C25_gauss; [reflexivity|rok|fa; exact I|fa; calc|fa; unfold par_or_scale; cbn; lia].
Qed.
Example C25_line_laplace : gradient_ok laplace (lprob (AScalar true 3)) ([0; 1] ++ [2]) [1%Z; 0%Z].
Proof.
  apply C25_laplace; [reflexivity|rok|fa; exact I| |fa; left; unfold is_par; cbn; lia].
  fa; calc; repeat split; try lra; apply Rgt_not_eq; lra.
Qed.
Example C25_line_cauchy : gradient_ok cauchy (lprob ANone) ([0; 1] ++ [2]) [0%Z; (-1)%Z].
Proof.
  apply C25_cauchy; [reflexivity|rok|fa; exact I|fa; calc|fa; unfold par_or_free_scale, is_par; cbn; [left; lia|right; split; reflexivity]].
Qed.
Example C25_line_uniform : gradient_ok uniform (lprob ANone) ([0; 1] ++ [10]) [0%Z; (-1)%Z].
Proof.
  apply C25_uniform; [reflexivity|rok| |fa; unfold par_or_free_scale, is_par; cbn; [left; lia|right; split; reflexivity]].
  fa; calc; apply Rabs_def1; lra.
Qed.
Example C25_line_exponential : gradient_ok (expo ln Rinv) (lprob ANone) ([0; 1] ++ [2; 3/2]) [0%Z; (-2)%Z; (-1)%Z].
Proof.
  apply C25_exponential; [|reflexivity|rok|fa; exact I|lra| |].
  - intros x X. auto_derive; [exact X|apply Rmult_1_l].
  - fa; calc; split; try lra; apply Rgt_not_eq; lra.
  - fa; unfold is_par; cbn; [left; lia|right; right; split; reflexivity|right; left; reflexivity].
Qed.
Example C25_line_poisson : gradient_ok (poisson (fun _ => 0)) (lprob ANone) [1; 1] [0%Z; 1%Z].
Proof. apply C25_poisson; [reflexivity|rok|fa; calc|fa; unfold is_par; cbn; lia]. Qed.
Example C25_line_bernoulli : gradient_ok bernoulli (lprob ANone) [1/2; 1/4] [0%Z; 1%Z].
Proof. apply C25_bernoulli; [reflexivity|rok|fa; calc|fa; unfold is_par; cbn; lia]. Qed.

Lemma fmin_small : fmin < / 128.
Proof.
  unfold fmin. apply Rinv_lt_contravar; [apply Rmult_lt_0_compat; [lra|apply pow_lt; lra]|].
  apply (Rlt_le_trans _ (2 ^ 8)); [lra|]. apply Rle_pow; [lra|]. apply Nat.leb_le. vm_compute. reflexivity.
Qed.

Example C25_line_mixed : gradient_ok (mixed gauss cauchy) (lprob ANone) ([0; 1] ++ [2; 3; 1/2]) ([0%Z; 1%Z] ++ [(-3)%Z; (-1)%Z; (-2)%Z]).
Proof.
  apply C25_mixed; [reflexivity|rok| | |lra| |fa; unfold is_par; cbn; lia| |].
  - fa; left; (split; [reflexivity|]); split; [calc|exact I|calc|exact I].
  - fa; right; right; left; (split; [reflexivity|]); split; [calc|exact I|calc|exact I].
  - assert (G : forall r, 0 < expO (e_ll gauss (lprob ANone) ([0; 1] ++ [2]) r)) by (intro; cbn [e_ll gauss expO gauss_ll]; unfold gauss_ll; apply exp_pos).
    assert (C : forall r, residual (lprob ANone) [0; 1] r * residual (lprob ANone) [0; 1] r <= 16 -> / 64 < expO (e_ll cauchy (lprob ANone) ([0; 1] ++ [3]) r)).
    { intros r H. cbn [e_ll cauchy]. rewrite cauchy_val by reflexivity. cbn [expO]. unfold noise. cbn [acc lprob].
      set (q := residual (lprob ANone) [0; 1] r * residual (lprob ANone) [0; 1] r) in *.
      assert (Q : 0 <= q) by (unfold q; apply Rle_0_sqr). pose proof PI_RGT_0 as PP. pose proof PI_4 as P4.
      rewrite <- (exp_ln (/ 64)) by lra. apply exp_increasing. rewrite <- ln_div, <- ln_div by (try apply Rdiv_lt_0_compat; lra).
      apply ln_increasing; [lra|]. unfold Rdiv. rewrite Rmult_assoc, <- Rinv_mult.
      apply (Rlt_le_trans _ (3 * / (4 * 25))); [lra|]. apply Rmult_le_compat_l; [lra|]. apply Rinv_le_contravar; nra. }
    pose proof fmin_small. fa.
    + specialize (G (lrow 0 1 2)). specialize (C (lrow 0 1 2)). assert (E : residual (lprob ANone) [0; 1] (lrow 0 1 2) = 1) by calc. rewrite E in C. lra.
    + specialize (G (lrow 1 5 3)). specialize (C (lrow 1 5 3)). assert (E : residual (lprob ANone) [0; 1] (lrow 1 5 3) = 4) by calc. rewrite E in C. lra.
  - fa; [right; right|left; reflexivity|right; left]; (split; [reflexivity|]); [left; reflexivity|right; reflexivity].
  - repeat constructor; cbn; intuition discriminate.
Qed.

(** With an accuracy in the problem the scale is not used, yet its partial is not zero. *)
Theorem C25_unused_scale_refuted : exists p par s,
  (forall t, logLhood laplace p (par ++ [t]) = logLhood laplace p (par ++ [s])) /\
  (forall t, logLhood cauchy p (par ++ [t]) = logLhood cauchy p (par ++ [s])) /\
  (forall t, logLhood uniform p (par ++ [t]) = logLhood uniform p (par ++ [s])) /\
  logLhood uniform p (par ++ [s]) <> None /\
  ~ gradient_ok laplace p (par ++ [s]) [(-1)%Z] /\ ~ gradient_ok cauchy p (par ++ [s]) [(-1)%Z] /\ ~ gradient_ok uniform p (par ++ [s]) [(-1)%Z].
Proof.
  exists (cprob [crow (1/2) 1 1] false (AScalar true 1) None), [0], 1.
  assert (IL : forall t, logLhood laplace (cprob [crow (1/2) 1 1] false (AScalar true 1) None) ([0] ++ [t]) = logLhood laplace (cprob [crow (1/2) 1 1] false (AScalar true 1) None) ([0] ++ [1])) by reflexivity.
  assert (IC : forall t, logLhood cauchy (cprob [crow (1/2) 1 1] false (AScalar true 1) None) ([0] ++ [t]) = logLhood cauchy (cprob [crow (1/2) 1 1] false (AScalar true 1) None) ([0] ++ [1])) by reflexivity.
  assert (IU : forall t, logLhood uniform (cprob [crow (1/2) 1 1] false (AScalar true 1) None) ([0] ++ [t]) = logLhood uniform (cprob [crow (1/2) 1 1] false (AScalar true 1) None) ([0] ++ [1])) by reflexivity.
  assert (K : forall e d, (forall t, logLhood e (cprob [crow (1/2) 1 1] false (AScalar true 1) None) ([0] ++ [t]) = logLhood e (cprob [crow (1/2) 1 1] false (AScalar true 1) None) ([0] ++ [1])) ->
     partialLogL e (cprob [crow (1/2) 1 1] false (AScalar true 1) None) ([0] ++ [1]) [(-1)%Z] = Some [d] -> d <> 0 ->
     ~ gradient_ok e (cprob [crow (1/2) 1 1] false (AScalar true 1) None) ([0] ++ [1]) [(-1)%Z]).
  { intros e d IE PD ND (dL & E & _ & _ & D). rewrite PD in E. injection E as <-. specialize (D 0%nat (-1)%Z eq_refl). cbn [nth] in D.
    apply ND. rewrite <- (is_derive_unique _ _ _ D). apply is_derive_unique.
    apply (is_derive_ext (fun _ => val (logLhood e (cprob [crow (1/2) 1 1] false (AScalar true 1) None) ([0] ++ [1])))); [|apply d_const].
    intro t. exact (f_equal val (eq_sym (IE t))). }
  refine (conj IL (conj IC (conj IU (conj _ (conj _ (conj _ _)))))).
  - unfold logLhood. cbn. unfold uniform_ll, noise. cbn. destruct (Rlt_dec _ _) as [_|N]; [discriminate|]. exfalso. apply N. apply Rabs_def1; lra.
  - apply (K laplace (- (1/2)) IL); [|lra]. unfold partialLogL. cbn -[Rabs]. f_equal. f_equal. unfold residual, copysign, wgt, noise. cbn -[Rabs].
    rewrite Rabs_R1. destruct (Rlt_dec _ _); lra.
  - apply (K cauchy (- (3/5)) IC); [|lra]. unfold partialLogL. cbn. f_equal. f_equal. unfold residual. cbn. field.
  - apply (K uniform (- 1) IU); [|lra]. unfold partialLogL. cbn. f_equal. f_equal. unfold wgt. cbn. field.
Qed.

(** *** C26 *)
Theorem C26_gauss : forall p par s fp hy, length par = npars p -> Forall (fun k => (0 <= k)%Z) fp -> hy = [] \/ hy = [(-1)%Z] ->
  logLhood gauss p (par ++ [s]) = Some (gauss_alt p (par ++ [s])) /\
  partialLogL gauss p (par ++ [s]) (fp ++ hy) = Some (gauss_palt p (par ++ [s]) (fp ++ hy)).
Proof. intros. split; [apply gauss_alt_eq|apply gauss_palt_eq]; assumption. Qed.

(** the accuracy is a float, or an array, or there are weights *)
Definition float_accuracy (p : problem) : Prop := acc p <> AArray -> isfloat (acc p) = true \/ hasW p = true.

Theorem C26_laplace : forall p par s fp, length par = npars p -> Forall (fun k => (0 <= k)%Z) fp -> float_accuracy p ->
  Forall (fun r => 0 < noise p r s /\ 0 <= wgt p r) (rows p) ->
  logLhood laplace p (par ++ [s]) = Some (laplace_alt p (par ++ [s])) /\
  partialLogL laplace p (par ++ [s]) fp = Some (laplace_palt p (par ++ [s]) fp).
Proof. intros. split; [apply laplace_alt_eq|apply laplace_palt_eq]; assumption. Qed.

Theorem C26_cauchy : forall p par s fp hy, length par = npars p -> Forall (fun k => (0 <= k)%Z) fp ->
  hy = [] \/ hy = [(-1)%Z] /\ acc p <> AArray -> Forall (fun r => 0 < noise p r s) (rows p) ->
  logLhood cauchy p (par ++ [s]) = Some (cauchy_alt p (par ++ [s])) /\
  partialLogL cauchy p (par ++ [s]) (fp ++ hy) = Some (cauchy_palt p (par ++ [s]) (fp ++ hy)).
Proof. intros. split; [apply cauchy_alt_eq|apply cauchy_palt_eq]; assumption. Qed.

Theorem C26_uniform : forall p par s fp hy, length par = npars p -> Forall (fun k => (0 <= k)%Z) fp -> hy = [] \/ hy = [(-1)%Z] ->
  float_accuracy p -> period p = None ->
  logLhood uniform p (par ++ [s]) = uniform_alt p (par ++ [s]) /\
  partialLogL uniform p (par ++ [s]) (fp ++ hy) = Some (uniform_palt p (par ++ [s]) (fp ++ hy)).
Proof. intros. split; [apply uniform_alt_eq|apply uniform_palt_eq]; assumption. Qed.

Theorem C26_exponential : forall gl psi p par s w fp hy, length par = npars p -> Forall (fun k => (0 <= k)%Z) fp ->
  hy = [] \/ hy = [(-1)%Z] \/ hy = [(-2)%Z; (-1)%Z] /\ acc p <> AArray ->
  float_accuracy p -> Forall (fun r => 0 < noise p r s) (rows p) ->
  logLhood (expo gl psi) p (par ++ [s; w]) = Some (expo_alt gl p (par ++ [s; w])) /\
  partialLogL (expo gl psi) p (par ++ [s; w]) (fp ++ hy) = Some (expo_palt psi p (par ++ [s; w]) (fp ++ hy)).
Proof. intros. split; [apply expo_alt_eq|apply expo_palt_eq]; assumption. Qed.

Theorem C26_poisson : forall lf p par fi,
  logLhood (poisson lf) p par = poisson_alt lf p par /\ partialLogL (poisson lf) p par fi = Some (poisson_palt p par fi).
Proof. intros. split; [apply poisson_alt_eq|apply poisson_palt_eq]. Qed.

Example C26_line : logLhood laplace (lprob ANone) ([0; 1] ++ [2]) = Some (laplace_alt (lprob ANone) ([0; 1] ++ [2])) /\
  partialLogL (expo ln Rinv) (lprob ANone) ([0; 1] ++ [2; 3/2]) ([1%Z; 0%Z] ++ [(-2)%Z; (-1)%Z]) =
  Some (expo_palt Rinv (lprob ANone) ([0; 1] ++ [2; 3/2]) ([1%Z; 0%Z] ++ [(-2)%Z; (-1)%Z])) /\
  partialLogL cauchy (lprob (AScalar true 3)) ([0; 1] ++ [2]) ([1%Z] ++ [(-1)%Z]) = Some (cauchy_palt (lprob (AScalar true 3)) ([0; 1] ++ [2]) ([1%Z] ++ [(-1)%Z])).
Proof.
  split; [|split].
  - apply (C26_laplace _ [0; 1] 2 []); [reflexivity|constructor|intros _; left; reflexivity|fa; calc].
  - apply C26_exponential; [reflexivity|fa; lia|right; right; split; [reflexivity|discriminate]|intros _; left; reflexivity|fa; calc].
  - apply C26_cauchy; [reflexivity|fa; lia|right; split; [reflexivity|discriminate]|fa; calc].
Qed.

(** Laplace.partialLogL_alt: the scale component misses a division by the scale. *)
Theorem C26_laplace_scale_refuted : exists p par s,
  partialLogL laplace p (par ++ [s]) [(-1)%Z] <> Some (laplace_palt p (par ++ [s]) [(-1)%Z]) /\ gradient_ok laplace p (par ++ [s]) [(-1)%Z].
Proof.
  exists (cprob [crow 4 1 1] false ANone None), [0], 2. split.
  - unfold partialLogL, laplace_palt, getSumRes. cbn -[Rabs]. intro E. injection E as E. revert E.
    unfold residual, copysign, wgt, noise, sumweight. cbn -[Rabs]. rewrite Rabs_R1.
    replace ((4 - 0) / 2 * 1) with 2 by lra. rewrite (Rabs_right 2) by lra. destruct (Rlt_dec _ _); lra.
  - apply C25_laplace; [reflexivity|rok|fa; exact I| |fa; right; split; reflexivity].
    fa; calc; repeat split; try lra; apply Rgt_not_eq; lra.
Qed.

(** A cyclic model: logLdata of the uniform distribution does not wrap the residuals. *)
Theorem C26_uniform_cyclic_refuted : exists p par s, logLhood uniform p (par ++ [s]) = None /\ uniform_alt p (par ++ [s]) <> None.
Proof.
  exists (cprob [crow (9/10) 1 1] false ANone (Some 1)), [0], (2/10). split.
  - unfold logLhood, sumO. cbn -[Rabs]. unfold uniform_ll. cbn -[Rabs]. destruct (Rlt_dec _ _) as [L|_]; [|reflexivity].
    exfalso. apply Rabs_def2 in L. unfold noise in L. cbn in L. lra.
  - unfold uniform_alt. cbn -[Rabs]. destruct (Rlt_dec _ _) as [_|N]; [discriminate|]. exfalso. apply N. unfold residual, cyclize, noise. cbn -[Rabs].
    destruct (Rlt_dec _ _); [lra|]. destruct (Rlt_dec _ _); [|lra]. apply Rabs_def1; lra.
Qed.

(** An accuracy that is an integer: the norm is counted once, not once per data point. *)
Theorem C26_integer_accuracy_refuted : exists p par s,
  logLhood laplace p (par ++ [s]) <> Some (laplace_alt p (par ++ [s])) /\ logLhood uniform p (par ++ [s]) <> uniform_alt p (par ++ [s]).
Proof.
  exists (cprob [crow 0 1 1; crow 0 1 1] false (AScalar false 1) None), [0], 1. split.
  - unfold logLhood, laplace_alt, getSumRes, normsum. cbn -[Rabs]. unfold laplace_ll, residual, noise, noise0, wgt. cbn -[Rabs].
    rewrite Rminus_0_r. unfold Rdiv. rewrite !Rmult_0_l, Rabs_R0, ln_1. intro E. injection E as E. pose proof ln_lt_2. lra.
  - unfold logLhood, uniform_alt. cbn -[Rabs]. unfold uniform_ll, residual, noise, noise0. cbn -[Rabs].
    rewrite Rminus_0_r, Rabs_R0. destruct (Rlt_dec 0 1); [|lra]. cbn. intro E. injection E as E. pose proof ln_lt_2. rewrite Rmult_1_r in E. lra.
Qed.

(** Bernoulli.partialLogL_alt has the wrong sign for the data that are not zero. *)
Theorem C26_bernoulli_refuted : exists p par,
  partialLogL bernoulli p par [0%Z] <> Some (bernoulli_palt p par [0%Z]) /\ gradient_ok bernoulli p par [0%Z].
Proof.
  exists (cprob [crow 1 1 1] false ANone None), [1/2]. split.
  - unfold partialLogL, bernoulli_palt. cbn. destruct (Req_EM_T 1 0); [lra|]. intro E. injection E as E. lra.
  - apply C25_bernoulli; [reflexivity|rok|fa; calc|fa; unfold is_par; cbn; lia].
Qed.

(** Exponential.partialLogL_alt with the power kept fixed: the scale component is written over that of the parameter. *)
Theorem C26_exponential_fixed_power_refuted : exists gl psi p par s w a b,
  partialLogL (expo gl psi) p (par ++ [s; w]) [0%Z; (-2)%Z] = Some [a; b] /\
  expo_palt psi p (par ++ [s; w]) [0%Z; (-2)%Z] = [b; 0] /\ a <> b /\ b <> 0.
Proof.
  exists ln, Rinv, (cprob [crow 1 1 1] false ANone None), [0], 1, 3, 3, 2.
  assert (A : npow (Rabs ((1 - 0) / 1)) 3 = 1).
  { replace ((1 - 0) / 1) with 1 by lra. rewrite Rabs_R1, npow_pos by lra. rewrite ln_1, Rmult_0_r. apply exp_0. }
  split; [|split; [|lra]].
  - unfold partialLogL. cbn -[Rabs]. unfold residual, noise, wgt. cbn -[Rabs]. rewrite A. f_equal. f_equal; [field|]. f_equal. field.
  - unfold expo_palt, fill, sumweight. cbn -[Rabs]. unfold residual, noise, noise0, wgt. cbn -[Rabs]. rewrite A. f_equal. field.
Qed.

Print Assumptions C25_gauss.
Print Assumptions C25_laplace.
Print Assumptions C25_cauchy.
Print Assumptions C25_uniform.
Print Assumptions C25_exponential.
Print Assumptions C25_poisson.
Print Assumptions C25_bernoulli.
Print Assumptions C25_mixed.
Print Assumptions C25_unused_scale_refuted.
Print Assumptions C26_gauss.
Print Assumptions C26_laplace.
Print Assumptions C26_cauchy.
Print Assumptions C26_uniform.
Print Assumptions C26_exponential.
Print Assumptions C26_poisson.
Print Assumptions C26_laplace_scale_refuted.
Print Assumptions C26_uniform_cyclic_refuted.
Print Assumptions C26_integer_accuracy_refuted.
Print Assumptions C26_bernoulli_refuted.
Print Assumptions C26_exponential_fixed_power_refuted.
