(** C105: the three methods for the eccentric anomaly: convergence, and what they converge to. *)
From Coquelicot Require Import Coquelicot.
From Coq Require Import Reals Lra Lia List Bool.
From Verif Require Import L_Kepler M_Kepler P_Kepler T_Kepler M_Anomaly.
Import ListNotations.
Local Open Scope R_scope.

(** ** Sine and cosine near 0 *)
Lemma mono0 : forall F F' : R -> R, (forall t, is_derive F t (F' t)) -> (forall t, 0 <= t -> 0 <= F' t) -> forall t, 0 <= t -> F 0 <= F t.
Proof.
  intros F F' D P t T. destruct (MVT_gen F 0 t F') as (c & C & E).
  - intros; apply D.
  - intros x _. apply derivable_continuous_pt. exists (F' x). apply is_derive_Reals, D.
  - rewrite Rmin_left, Rmax_right in C by lra. specialize (P c ltac:(lra)). nra.
Qed.
Lemma sin_up : forall t, 0 <= t -> sin t <= t.
Proof.
  intros t T. pose proof (mono0 (fun t => t - sin t) (fun t => 1 - cos t)) as H. cbv beta in H. rewrite sin_0 in H.
  specialize (H ltac:(intros; auto_derive; [trivial|ring]) ltac:(intros u U; pose proof (COS_bound u); lra) t T). lra.
Qed.
Lemma cos_low : forall t, 0 <= t -> 1 - t * t / 2 <= cos t.
Proof.
  intros t T. pose proof (mono0 (fun t => cos t - 1 + t * t / 2) (fun t => t - sin t)) as H. cbv beta in H. rewrite cos_0 in H.
  specialize (H ltac:(intros; auto_derive; [trivial|field]) ltac:(intros u U; pose proof (sin_up u U); lra) t T). lra.
Qed.
Lemma sin_low : forall t, 0 <= t -> t - t * t * t / 6 <= sin t.
Proof.
  intros t T. pose proof (mono0 (fun t => sin t - t + t * t * t / 6) (fun t => cos t - 1 + t * t / 2)) as H. cbv beta in H. rewrite sin_0 in H.
  specialize (H ltac:(intros; auto_derive; [trivial|field]) ltac:(intros u U; pose proof (cos_low u U); lra) t T). lra.
Qed.
Lemma cos_up : forall t, 0 <= t -> cos t <= 1 - t * t / 2 + t * t * t * t / 24.
Proof.
  intros t T. pose proof (mono0 (fun t => 1 - t * t / 2 + t * t * t * t / 24 - cos t) (fun t => sin t - t + t * t * t / 6)) as H. cbv beta in H. rewrite cos_0 in H.
  specialize (H ltac:(intros; auto_derive; [trivial|field]) ltac:(intros u U; pose proof (sin_low u U); lra) t T). lra.
Qed.
Lemma near0 : forall d, let a := Rabs d in Rabs (sin d - d) <= a * a * a / 6 /\ 0 <= 1 - cos d <= a * a / 2 /\ 0 <= cos d - 1 + d * d / 2 <= a * a * a * a / 24.
Proof.
  intros d a. assert (A : 0 <= a) by apply Rabs_pos.
  assert (S : Rabs (sin d - d) = a - sin a /\ cos d = cos a /\ d * d = a * a).
  { unfold a, Rabs. pose proof (sin_up (Rabs d) (Rabs_pos d)) as U. revert U. unfold Rabs. destruct (Rcase_abs d) as [L|L]; intros U.
    - rewrite sin_neg, cos_neg in *. destruct (Rcase_abs (sin d - d)); repeat split; lra.
    - destruct (Rcase_abs (sin d - d)); repeat split; lra. }
  destruct S as (-> & -> & ->). pose proof (sin_low a A). pose proof (cos_low a A). pose proof (cos_up a A). pose proof (COS_bound a). repeat split; lra.
Qed.
Lemma sin_shift2 : forall a d, Rabs (sin (a + d) - sin a - d * cos a) <= Rabs d * Rabs d / 2 + Rabs d * Rabs d * Rabs d / 6.
Proof.
  intros a d. destruct (near0 d) as (A & B & _). rewrite sin_plus.
  replace (sin a * cos d + cos a * sin d - sin a - d * cos a) with (- (sin a * (1 - cos d)) + cos a * (sin d - d)) by ring.
  eapply Rle_trans; [apply Rabs_triang|]. rewrite Rabs_Ropp, !Rabs_mult. rewrite (Rabs_right (1 - cos d)) by lra.
  assert (SA : Rabs (sin a) <= 1) by (apply Rabs_le; pose proof (SIN_bound a); lra). assert (CA : Rabs (cos a) <= 1) by (apply Rabs_le; pose proof (COS_bound a); lra).
  pose proof (Rabs_pos (sin a)). pose proof (Rabs_pos (cos a)). pose proof (Rabs_pos (sin d - d)). nra.
Qed.
Lemma sin_shift3 : forall a d, Rabs (sin (a + d) - sin a - d * cos a + d * d / 2 * sin a) <= Rabs d * Rabs d * Rabs d / 6 + Rabs d * Rabs d * Rabs d * Rabs d / 24.
Proof.
  intros a d. destruct (near0 d) as (A & _ & B). rewrite sin_plus.
  replace (sin a * cos d + cos a * sin d - sin a - d * cos a + d * d / 2 * sin a) with (sin a * (cos d - 1 + d * d / 2) + cos a * (sin d - d)) by field.
  eapply Rle_trans; [apply Rabs_triang|]. rewrite !Rabs_mult. rewrite (Rabs_right (cos d - 1 + d * d / 2)) by lra.
  assert (SA : Rabs (sin a) <= 1) by (apply Rabs_le; pose proof (SIN_bound a); lra). assert (CA : Rabs (cos a) <= 1) by (apply Rabs_le; pose proof (COS_bound a); lra).
  pose proof (Rabs_pos (sin a)). pose proof (Rabs_pos (cos a)). pose proof (Rabs_pos (sin d - d)). nra.
Qed.

(** ** Halley's method, the one that is used *)
Lemma fp_range : forall e E, 0 <= e <= 2 / 5 -> - (7 / 5) <= efp e E <= - (3 / 5).
Proof. intros e E H. unfold efp. pose proof (COS_bound E). nra. Qed.
Lemma halley : forall e M E F, 0 <= e <= 2 / 5 -> F <= 2 / 5 -> Rabs (efx e M E) <= F ->
  eden e M E <> 0 /\ Rabs (estep e M E - E) <= 11 / 5 * F /\ Rabs (efx e M (estep e M E)) <= 3 / 2 * (F * F * F).
Proof.
  intros e M E F He HF Hx. pose proof (fp_range e E He) as P. set (x := efx e M E) in *. set (p := efp e E) in *. set (s := e * sin E).
  assert (Hs : Rabs s <= 2 / 5). { unfold s. rewrite Rabs_mult, (Rabs_right e) by lra. assert (Rabs (sin E) <= 1) by (apply Rabs_le; pose proof (SIN_bound E); lra). pose proof (Rabs_pos (sin E)). nra. }
  assert (F0 : 0 <= F) by (pose proof (Rabs_pos x); lra).
  assert (Hxs : Rabs (x * s) <= 2 / 5 * F). { rewrite Rabs_mult. pose proof (Rabs_pos x). pose proof (Rabs_pos s). nra. }
  set (D := eden e M E). assert (HD : D = 2 * p * p + x * s) by reflexivity.
  set (q := - p). assert (Hq : 3 / 5 <= q <= 7 / 5) by (unfold q; lra).
  assert (D1 : 2 * (q * q) - 4 / 25 <= D). { rewrite HD. replace (2 * p * p) with (2 * (q * q)) by (unfold q; ring). assert (- (2 / 5 * F) <= x * s) by (pose proof (Rle_abs (- (x * s))); rewrite Rabs_Ropp in *; lra). lra. }
  assert (D2 : 14 / 25 <= D) by nra.
  assert (D3 : 14 / 25 * q <= 3 / 5 * D) by nra.
  split; [lra|].
  set (d := 2 * x * q / D). assert (Ed : estep e M E = E + d) by (unfold estep, d, q; fold x p D; field; lra).
  assert (HdF : Rabs d <= 15 / 7 * F).
  { unfold d. replace (2 * x * q / D) with (x * (2 * (q / D))) by (field; lra). rewrite Rabs_mult.
    assert (Q : 0 <= 2 * (q / D) <= 15 / 7). { split; [apply Rmult_le_pos; [lra|apply Rmult_le_pos; [lra|left; apply Rinv_0_lt_compat; lra]]|]. apply (Rmult_le_reg_r D); [lra|]. replace (2 * (q / D) * D) with (2 * q) by (field; lra). lra. }
    rewrite (Rabs_right (2 * (q / D))) by lra. pose proof (Rabs_pos x). nra. }
  rewrite Ed. replace (E + d - E) with d by ring. split; [lra|].
  set (r := sin (E + d) - sin E - d * cos E + d * d / 2 * sin E).
  assert (Ex : efx e M (E + d) = x * x * x * (s / D * (s / D)) + e * r).
  { unfold efx. replace (sin (E + d)) with (sin E + d * cos E - d * d / 2 * sin E + r) by (unfold r; ring).
    replace (M + e * (sin E + d * cos E - d * d / 2 * sin E + r) - (E + d)) with (x + p * d - s * (d * d) / 2 + e * r) by (unfold x, p, s, efx, efp; field).
    replace p with (- q) by (unfold q; ring). f_equal. unfold d.
    assert (HD' : D = 2 * q * q + x * s) by (rewrite HD; unfold q; ring).
    replace (x + - q * (2 * x * q / D) - s * (2 * x * q / D * (2 * x * q / D)) / 2)
      with ((x * (D * D) - 2 * q * q * x * D - 2 * s * (x * x) * (q * q)) / (D * D)) by (field; lra).
    replace (x * x * x * (s / D * (s / D))) with (x * x * x * (s * s) / (D * D)) by (field; lra). f_equal.
    replace (x * (D * D) - 2 * q * q * x * D - 2 * s * (x * x) * (q * q)) with (x * (D - 2 * q * q) * D - 2 * s * (x * x) * (q * q)) by ring.
    rewrite HD'. ring. }
  rewrite Ex. eapply Rle_trans; [apply Rabs_triang|].
  assert (R1 : Rabs (x * x * x * (s / D * (s / D))) <= F * F * F * (25 / 49)).
  { assert (SD : Rabs (s / D) <= 5 / 7). { unfold Rdiv. rewrite Rabs_mult, Rabs_inv, (Rabs_right D) by lra. apply (Rmult_le_reg_r D); [lra|]. rewrite Rmult_assoc, Rinv_l, Rmult_1_r by lra. lra. }
    rewrite !Rabs_mult. pose proof (Rabs_pos x). pose proof (Rabs_pos (s / D)).
    apply Rmult_le_compat; [apply Rmult_le_pos; nra|nra|apply Rmult_le_compat; nra|nra]. }
  assert (R2 : Rabs (e * r) <= F * F * F * (4 / 5)).
  { rewrite Rabs_mult, (Rabs_right e) by lra. pose proof (sin_shift3 E d) as T. fold r in T. set (a := Rabs d) in *. assert (A0 : 0 <= a) by apply Rabs_pos.
    assert (A1 : a <= 6 / 7) by nra. assert (A3 : a * a * a <= (15 / 7 * F) * (15 / 7 * F) * (15 / 7 * F)) by (apply Rmult_le_compat; nra).
    assert (A4 : a * a * a * a <= 6 / 7 * (a * a * a)) by (rewrite (Rmult_comm (6 / 7)); apply Rmult_le_compat_l; [apply Rmult_le_pos; nra|exact A1]).
    pose proof (Rabs_pos r). apply Rle_trans with (2 / 5 * Rabs r); [nra|].
    assert (C3 : a * a * a <= 3375 / 343 * (F * F * F)) by lra. assert (0 <= F * F * F) by (apply Rmult_le_pos; nra). lra. }
  assert (0 <= F * F * F) by (apply Rmult_le_pos; nra). lra.
Qed.

Definition below (e b : R) (Ms Es : list R) : Prop := Forall2 (fun M E => Rabs (efx e M E) <= b) Ms Es.
Lemma below_step : forall e b Ms Es, 0 <= e <= 2 / 5 -> b <= 2 / 5 -> below e b Ms Es ->
  forallb (fun me => finite e (fst me) (snd me)) (combine Ms Es) = true /\
  below e (3 / 2 * (b * b * b)) Ms (map (fun me => estep e (fst me) (snd me)) (combine Ms Es)) /\
  (11 / 5 * b < / 100000000 -> forallb (fun ee => near (fst ee) (snd ee)) (combine (map (fun me => estep e (fst me) (snd me)) (combine Ms Es)) Es) = true).
Proof.
  intros e b Ms Es He Hb H. induction H as [|M E Ms Es A _ IH]; [repeat split; constructor|].
  destruct IH as (I1 & I2 & I3). destruct (halley e M E b He Hb A) as (B1 & B2 & B3). cbn [combine map forallb fst snd].
  split; [|split].
  - rewrite I1, andb_true_r. unfold finite. destruct (Req_EM_T _ _); [contradiction|reflexivity].
  - constructor; assumption.
  - intros S. rewrite (I3 S), andb_true_r. unfold near. destruct (Rlt_dec _ _); [reflexivity|lra].
Qed.
Lemma below_mono : forall e b c Ms Es, b <= c -> below e b Ms Es -> below e c Ms Es.
Proof. intros e b c Ms Es L H. induction H; constructor; [lra|assumption]. Qed.
Lemma eloop_turn : forall n e b c Ms Es, 0 <= e <= 2 / 5 -> b <= 2 / 5 -> 3 / 2 * (b * b * b) <= c -> below e b Ms Es ->
  (forall Es', below e c Ms Es' -> exists out, eloop n e Ms Es' = Some out) -> exists out, eloop (S n) e Ms Es = Some out.
Proof.
  intros n e b c Ms Es He Hb Hc H K. destruct (below_step e b Ms Es He Hb H) as (A & B & _). cbn [eloop]. rewrite A.
  destruct (forallb _ (combine (map _ _) Es)); [eexists; reflexivity|]. apply K. eapply below_mono; [exact Hc|exact B].
Qed.
(** Up to an eccentricity of 0.4 it converges for all mean anomalies: in five turns at most *)
Lemma five : forall e Ms, 0 <= e <= 2 / 5 -> exists out, eloop 4 e Ms Ms = Some out.
Proof.
  intros e Ms He.
  apply (eloop_turn _ _ (2 / 5) (97 / 1000)); try lra.
  { unfold below. induction Ms as [|M Ms IH]; constructor; [|exact IH]. unfold efx. replace (M + e * sin M - M) with (e * sin M) by ring.
    rewrite Rabs_mult, (Rabs_right e) by lra. assert (Rabs (sin M) <= 1) by (apply Rabs_le; pose proof (SIN_bound M); lra). pose proof (Rabs_pos (sin M)). nra. }
  intros E1 H1. apply (eloop_turn _ _ (97 / 1000) (14 / 10000)); try lra; [exact H1|].
  intros E2 H2. apply (eloop_turn _ _ (14 / 10000) (5 / 1000000000)); try lra; [exact H2|].
  intros E3 H3. apply (eloop_turn _ _ (5 / 1000000000) (/ 1000000000)); try lra; [exact H3|].
  intros E4 H4. destruct (below_step e (/ 1000000000) Ms E4 He ltac:(lra) H4) as (A & _ & B). specialize (B ltac:(lra)). cbn [eloop]. rewrite A, B. eexists. reflexivity.
Qed.
Lemma eloop_more : forall n k e Ms Es out, eloop n e Ms Es = Some out -> eloop (n + k) e Ms Es = Some out.
Proof.
  induction n as [|n IH]; intros k e Ms Es out H.
  - cbn in H. destruct k as [|k]; [exact H|]. cbn. destruct (forallb _ (combine Ms Es)); [|discriminate]. destruct (forallb _ _); [exact H|discriminate].
  - cbn [eloop Nat.add] in *. destruct (forallb _ (combine Ms Es)); [|discriminate]. destruct (forallb _ _); [exact H|]. apply IH. exact H.
Qed.
Theorem C105_halley_converges : forall e Ms, 0 <= e <= 2 / 5 -> exists out, eccentricAnomaly e Ms = Some out /\ eloop 4 e Ms Ms = Some out /\
  Forall2 (fun M t => exists E, E - e * sin E = M /\ Rabs (fst (fst t) - E) <= 4 / 100000000 / (1 - e)) Ms out.
Proof.
  intros e Ms He. destruct (five e Ms He) as (out & H). exists out. pose proof (eloop_more 4 95 e Ms Ms out H) as H'. split; [exact H'|]. split; [exact H|].
  pose proof (C56_converged e Ms out ltac:(lra) H') as C. clear H H'. induction C as [|M t Ms out A _ IH]; constructor; [|exact IH].
  destruct A as (E & A1 & A2 & _). exists E. split; assumption.
Qed.

(** ** The loop of the other two *)
Lemma anomalies_last : forall step n Ms Es out, anomalies step n Ms Es = (out, true) -> length Es = length Ms ->
  Forall2 (fun M E => exists Ep, E = step M Ep /\ Rabs (E - Ep) < / 100000000) Ms out.
Proof.
  intros step. induction n as [|n IH]; intros Ms Es out H L; [discriminate|]. cbn [anomalies] in H.
  destruct (forallb _ _) eqn:B in H.
  - injection H as <-. revert Es L B. induction Ms as [|M Ms IHM]; intros [|E Es] L B; try discriminate; [constructor|].
    cbn in B |- *. apply andb_true_iff in B. destruct B as [B1 B2]. constructor; [|apply IHM; [now injection L|exact B2]].
    exists E. split; [reflexivity|]. unfold near in B1. destruct (Rlt_dec _ _); [assumption|discriminate].
  - eapply IH; [exact H|]. rewrite map_length, combine_length. lia.
Qed.
Lemma step_all : forall step (P Q : R -> R -> Prop) Ms Es, Forall2 P Ms Es -> (forall M E, P M E -> Q M (step M E)) ->
  Forall2 Q Ms (map (fun me => step (fst me) (snd me)) (combine Ms Es)).
Proof. intros step P Q Ms Es F S. induction F; constructor; [apply S; assumption|assumption]. Qed.
Lemma near_all : forall step (P : R -> R -> Prop) Ms Es, Forall2 P Ms Es -> (forall M E, P M E -> Rabs (step M E - E) < / 100000000) ->
  forallb (fun ee => near (fst ee) (snd ee)) (combine (map (fun me => step (fst me) (snd me)) (combine Ms Es)) Es) = true.
Proof.
  intros step P Ms Es F S. induction F as [|M E Ms Es A _ IH]; [reflexivity|]. cbn. rewrite IH, andb_true_r. unfold near. destruct (Rlt_dec _ _); [reflexivity|].
  exfalso. specialize (S M E A). lra.
Qed.
Lemma anomalies_turn : forall step (P Q : R -> R -> Prop) n Ms Es, Forall2 P Ms Es -> (forall M E, P M E -> Q M (step M E)) ->
  (forall Es', Forall2 Q Ms Es' -> snd (anomalies step n Ms Es') = true) -> snd (anomalies step (S n) Ms Es) = true.
Proof.
  intros step P Q n Ms Es F S K. cbn [anomalies]. destruct (forallb _ _); [reflexivity|]. apply K. eapply step_all; eassumption.
Qed.
Lemma anomalies_end : forall step (P : R -> R -> Prop) n Ms Es, Forall2 P Ms Es -> (forall M E, P M E -> Rabs (step M E - E) < / 100000000) ->
  snd (anomalies step (S n) Ms Es) = true.
Proof. intros step P n Ms Es F S. cbn [anomalies]. rewrite (near_all _ _ _ _ F S). reflexivity. Qed.
Lemma same_all : forall (P : R -> R -> Prop) Ms, (forall M, P M M) -> Forall2 P Ms Ms.
Proof. intros P Ms H. induction Ms; constructor; auto. Qed.

(** ** Newton's method *)
Lemma newton : forall e M E F, 0 <= e <= 1 / 2 -> F <= 1 / 2 -> Rabs (efx e M E) <= F ->
  Rabs (step1 e M E - E) <= 2 * F /\ Rabs (efx e M (step1 e M E)) <= F * F + 2 / 3 * (F * F * F).
Proof.
  intros e M E F He HF Hx. assert (F0 : 0 <= F) by (pose proof (Rabs_pos (efx e M E)); lra).
  set (x := efx e M E) in *. set (q := 1 - e * cos E). assert (Hq : 1 / 2 <= q) by (unfold q; pose proof (COS_bound E); nra).
  set (d := x / q). assert (Ed : step1 e M E = E + d) by (unfold step1, d, q, x, efx; unfold q in Hq; field; split; nra).
  assert (Hd : Rabs d <= 2 * F).
  { unfold d, Rdiv. rewrite Rabs_mult, Rabs_inv, (Rabs_right q) by lra. apply (Rmult_le_reg_r q); [lra|]. rewrite Rmult_assoc, Rinv_l, Rmult_1_r by lra. pose proof (Rabs_pos x). nra. }
  rewrite Ed. replace (E + d - E) with d by ring. split; [exact Hd|].
  set (r := sin (E + d) - sin E - d * cos E).
  assert (Ex : efx e M (E + d) = e * r).
  { unfold efx, r. replace (M + e * sin (E + d) - (E + d)) with (x - q * d + e * (sin (E + d) - sin E - d * cos E)) by (unfold x, q, efx; ring).
    unfold d at 1. replace (x - q * (x / q)) with 0 by (field; lra). ring. }
  rewrite Ex, Rabs_mult, (Rabs_right e) by lra. pose proof (sin_shift2 E d) as T. fold r in T. set (a := Rabs d) in *. assert (A0 : 0 <= a) by apply Rabs_pos.
  assert (A2 : a * a <= 4 * (F * F)) by nra. assert (A3 : a * a * a <= 4 * (F * F) * (2 * F)) by (apply Rmult_le_compat; nra).
  pose proof (Rabs_pos r). assert (0 <= F * F) by nra. assert (0 <= F * F * F) by (apply Rmult_le_pos; nra).
  apply Rle_trans with (1 / 2 * Rabs r); [nra|]. lra.
Qed.
Lemma newton_turn : forall e b c M E, 0 <= e <= 1 / 2 -> b <= 1 / 2 -> b * b + 2 / 3 * (b * b * b) <= c -> Rabs (efx e M E) <= b -> Rabs (efx e M (step1 e M E)) <= c.
Proof. intros e b c M E He Hb Hc H. destruct (newton e M E b He Hb H) as [_ A]. lra. Qed.
(** Up to an eccentricity of a half it converges too *)
Theorem C105_newton_converges : forall e Ms, 0 <= e <= 1 / 2 -> snd (eccentricAnomaly1 e Ms) = true.
Proof.
  intros e Ms He. unfold eccentricAnomaly1. change 100%nat with (S (S (S (S (S (S (S (S 92)))))))).
  apply (anomalies_turn _ (fun M E => Rabs (efx e M E) <= 1 / 2) (fun M E => Rabs (efx e M E) <= 34 / 100)); [|intros M E; apply newton_turn; lra|].
  { apply same_all. intros M. unfold efx. replace (M + e * sin M - M) with (e * sin M) by ring.
    rewrite Rabs_mult, (Rabs_right e) by lra. assert (Rabs (sin M) <= 1) by (apply Rabs_le; pose proof (SIN_bound M); lra). pose proof (Rabs_pos (sin M)). nra. }
  intros E1 H1. apply (anomalies_turn _ _ (fun M E => Rabs (efx e M E) <= 15 / 100) _ _ _ H1); [intros M E; apply newton_turn; lra|].
  intros E2 H2. apply (anomalies_turn _ _ (fun M E => Rabs (efx e M E) <= 3 / 100) _ _ _ H2); [intros M E; apply newton_turn; lra|].
  intros E3 H3. apply (anomalies_turn _ _ (fun M E => Rabs (efx e M E) <= / 1000) _ _ _ H3); [intros M E; apply newton_turn; lra|].
  intros E4 H4. apply (anomalies_turn _ _ (fun M E => Rabs (efx e M E) <= 2 / 1000000) _ _ _ H4); [intros M E; apply newton_turn; lra|].
  intros E5 H5. apply (anomalies_turn _ _ (fun M E => Rabs (efx e M E) <= / 100000000000) _ _ _ H5); [intros M E; apply newton_turn; lra|].
  intros E6 H6. apply (anomalies_end _ _ _ _ _ H6). intros M E A. destruct (newton e M E (/ 100000000000) He ltac:(lra) A) as [B _]. lra.
Qed.
(** For all eccentricities below 1: if it converges, it is to the exact anomaly *)
Theorem C105_newton : forall e Ms out, 0 <= e < 1 -> eccentricAnomaly1 e Ms = (out, true) ->
  Forall2 (fun M E => exists E0, E0 - e * sin E0 = M /\ Rabs (E - E0) <= 3 / 100000000 / (1 - e)) Ms out.
Proof.
  intros e Ms out He H. pose proof (anomalies_last _ _ _ _ _ H eq_refl) as C. clear H. induction C as [|M E Ms out (Ep & A1 & A2) _ IH]; constructor; [|exact IH].
  exists (kepler e M). split; [apply kepler_eq; apply Rabs_def1; lra|].
  assert (Q : 0 < 1 - e * cos Ep <= 1 + e) by (pose proof (COS_bound Ep); nra).
  assert (X : efx e M Ep = (E - Ep) * (1 - e * cos Ep)) by (rewrite A1; unfold step1, efx; field; lra).
  assert (X2 : Rabs (efx e M Ep) <= 2 / 100000000). { rewrite X, Rabs_mult, (Rabs_right (1 - e * cos Ep)) by lra. pose proof (Rabs_pos (E - Ep)). nra. }
  pose proof (res_close e M Ep He) as Y. replace (E - kepler e M) with ((E - Ep) + (Ep - kepler e M)) by ring.
  eapply Rle_trans; [apply Rabs_triang|].
  assert (Y2 : Rabs (Ep - kepler e M) <= 2 / 100000000 / (1 - e)) by (eapply Rle_trans; [exact Y|]; apply Rmult_le_compat_r; [left; apply Rinv_0_lt_compat; lra|exact X2]).
  assert (1 <= / (1 - e)) by (rewrite <- Rinv_1; apply Rinv_le_contravar; lra). unfold Rdiv in *. lra.
Qed.

(** ** The fixed point method *)
(** It converges up to an eccentricity of 0.8 *)
Lemma fixed_converges : forall e n k Ms Es, 0 <= e -> e ^ (n + k) < / 100000000 -> Forall2 (fun M E => Rabs (step0 e M E - E) <= e ^ k) Ms Es ->
  snd (anomalies (step0 e) (S n) Ms Es) = true.
Proof.
  intros e n. induction n as [|n IH]; intros k Ms Es He HS F.
  - eapply anomalies_end; [exact F|]. intros M E A. cbn beta in A. cbn in HS. lra.
  - eapply anomalies_turn; [exact F| |]. 2: { intros Es' F'. apply (IH (S k)); [exact He|replace (n + S k)%nat with (S n + k)%nat by lia; exact HS|exact F']. }
    intros M E A. cbn beta in A |- *. replace (step0 e M (step0 e M E) - step0 e M E) with (- (e * (sin (step0 e M E) - sin E))) by (unfold step0; ring).
    rewrite Rabs_Ropp, Rabs_mult, (Rabs_right e) by lra. pose proof (sin_lip (step0 e M E) E). cbn [pow]. apply Rmult_le_compat_l; [exact He|]. lra.
Qed.
Theorem C105_fixed_converges : forall e Ms, 0 <= e <= 4 / 5 -> snd (eccentricAnomaly0 e Ms) = true.
Proof.
  intros e Ms He. unfold eccentricAnomaly0. change 100%nat with (S 99). apply (fixed_converges e 99 1); [lra| |].
  - change (99 + 1)%nat with 100%nat. apply Rle_lt_trans with ((4 / 5) ^ 100); [apply pow_incr; lra|].
    replace ((4 / 5) ^ 100) with (((4 / 5) ^ 10) ^ 10) by (rewrite <- pow_mult; reflexivity).
    apply Rle_lt_trans with ((11 / 100) ^ 10); [apply pow_incr; lra|lra].
  - apply same_all. intros M. unfold step0. replace (M - e * sin M - M) with (- (e * sin M)) by ring. rewrite Rabs_Ropp, Rabs_mult, (Rabs_right e) by lra. rewrite pow_1.
    assert (Rabs (sin M) <= 1) by (apply Rabs_le; pose proof (SIN_bound M); lra). pose proof (Rabs_pos (sin M)). nra.
Qed.
(** but to the anomaly of half an orbit later, minus pi: the sign in the iteration is wrong *)
Theorem C105_fixed : forall e Ms out, 0 <= e < 1 -> eccentricAnomaly0 e Ms = (out, true) ->
  Forall2 (fun M E => exists E0, E0 - e * sin E0 = M + PI /\ Rabs (E - (E0 - PI)) <= / 100000000 / (1 - e)) Ms out.
Proof.
  intros e Ms out He H. pose proof (anomalies_last _ _ _ _ _ H eq_refl) as C. clear H. induction C as [|M E Ms out (Ep & A1 & A2) _ IH]; constructor; [|exact IH].
  exists (kepler e (M + PI)). split; [apply kepler_eq; apply Rabs_def1; lra|].
  replace (E - (kepler e (M + PI) - PI)) with (E + PI - kepler e (M + PI)) by ring. eapply Rle_trans; [apply res_close; exact He|]. unfold Rdiv. apply Rmult_le_compat_r; [left; apply Rinv_0_lt_compat; lra|].
  unfold efx. rewrite neg_sin. rewrite A1 at 2. unfold step0. replace (M + PI + e * - sin E - (M - e * sin Ep + PI)) with (- (e * (sin E - sin Ep))) by ring.
  rewrite Rabs_Ropp, Rabs_mult, (Rabs_right e) by lra. pose proof (sin_lip E Ep). pose proof (Rabs_pos (sin E - sin Ep)). nra.
Qed.
(** The documentation says that it is the solution of E = M + e * sin( E ).  At M = pi/2 and an eccentricity of a half it is off by more than 0.8 *)
Theorem C105_fixed_refuted : exists E, eccentricAnomaly0 (1 / 2) [PI / 2] = ([E], true) /\ 4 / 5 < Rabs (PI / 2 + 1 / 2 * sin E - E).
Proof.
  pose proof (C105_fixed_converges (1 / 2) [PI / 2] ltac:(lra)) as C. destruct (eccentricAnomaly0 (1 / 2) [PI / 2]) as [out b] eqn:H. cbn in C. subst b.
  pose proof (anomalies_last _ _ _ _ _ H eq_refl) as L. inversion L as [|? E ? r (Ep & A1 & A2) R]; subst. inversion R; subst. eexists. split; [reflexivity|].
  unfold step0 in *. set (u := sin Ep) in *. set (E := PI / 2 - 1 / 2 * u) in *. assert (U : -1 <= u <= 1) by apply SIN_bound.
  assert (V : 7 / 8 <= sin E). { unfold E. rewrite sin_minus, sin_PI2, cos_PI2. destruct (near0 (1 / 2 * u)) as (_ & B & _).
    assert (Rabs (1 / 2 * u) <= 1 / 2) by (apply Rabs_le; lra). pose proof (Rabs_pos (1 / 2 * u)). nra. }
  pose proof (sin_lip E Ep) as W. fold u in W. assert (W2 : Rabs (sin E - u) <= / 100000000) by lra. apply Rabs_le_between in W2.
  rewrite Rabs_right; unfold E in *; lra.
Qed.
Example C105_ex : snd (eccentricAnomaly1 (1 / 2) [0; 1; 2]) = true /\ snd (eccentricAnomaly0 (1 / 2) [0; 1; 2]) = true /\ exists out, eccentricAnomaly (2 / 5) [0; 1; 2] = Some out.
Proof.
  split; [apply C105_newton_converges; lra|]. split; [apply C105_fixed_converges; lra|]. destruct (C105_halley_converges (2 / 5) [0; 1; 2] ltac:(lra)) as (out & A & _). exists out. exact A.
Qed.

Print Assumptions C105_halley_converges.
Print Assumptions C105_newton_converges.
Print Assumptions C105_newton.
Print Assumptions C105_fixed_converges.
Print Assumptions C105_fixed.
Print Assumptions C105_fixed_refuted.
