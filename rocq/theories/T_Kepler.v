(** C56: Kepler orbits, and the radial velocity along one. *)
From Coquelicot Require Import Coquelicot.
From Coq Require Import Reals Lra Lia List Bool.
From Verif Require Import L_Kepler M_Kepler P_Kepler.
Import ListNotations.
Local Open Scope R_scope.

(** ** The eccentric anomaly *)
(** There is one and only one exact anomaly. *)
Theorem C56_kepler : forall e M : R, Rabs e < 1 -> exists E, E - e * sin E = M /\ forall E', E' - e * sin E' = M -> E' = E.
Proof.
  intros e M H. exists (kepler e M). split; [apply kepler_eq, H|].
  intros. apply (kepler_unique e); [exact H|]. rewrite kepler_eq by exact H. assumption.
Qed.

(** The iteration rests at the exact anomaly, and nowhere else. *)
Theorem C56_rest : forall e M E : R, Rabs e < 1 -> eden e M E <> 0 -> (estep e M E = E <-> E - e * sin E = M).
Proof.
  intros e M E H D. pose proof (kden e E H) as P. unfold estep. split; intros Q.
  - assert (Z : 2 * efx e M E * efp e E / eden e M E = 0) by lra.
    assert (Z2 : 2 * efx e M E * efp e E = 0).
    { replace (2 * efx e M E * efp e E) with (2 * efx e M E * efp e E / eden e M E * eden e M E) by (field; exact D). rewrite Z. ring. }
    apply Rmult_integral in Z2. destruct Z2 as [Z2|Z2]; [unfold efx in Z2|unfold efp in Z2]; lra.
  - replace (efx e M E) with 0 by (unfold efx; lra). field. exact D.
Qed.

Lemma step_close : forall e M E, 0 <= e <= 1 - / 10000000 -> finite e M E = true -> near (estep e M E) E = true ->
  Rabs (efx e M E) <= 3 / 100000000.
Proof.
  intros e M E He Hf Hn.
  unfold finite in Hf. destruct (Req_EM_T (eden e M E) 0) as [|D]; [discriminate|].
  unfold near in Hn. destruct (Rlt_dec _ _) as [L|]; [|discriminate]. clear Hf Hn.
  assert (H1 : Rabs e < 1) by (apply Rabs_def1; lra).
  pose proof (kden e E H1) as P.
  set (x := efx e M E) in *. set (p := efp e E) in *. 
  assert (Pp : 1 - e <= - p <= 1 + e). { unfold p, efp. pose proof (COS_bound E). split; nra. }
  set (d := estep e M E - E) in *.
  assert (Ed : d * eden e M E = - (2 * x * p)).
  { unfold d, estep. fold x p. field. exact D. }
  assert (Bd : Rabs (eden e M E) <= 2 * p * p + Rabs x * e).
  { unfold eden. fold x p. eapply Rle_trans; [apply Rabs_triang|]. rewrite (Rabs_pos_eq (2 * p * p)) by nra.
    apply Rplus_le_compat_l. rewrite Rabs_mult. apply Rmult_le_compat_l; [apply Rabs_pos|].
    rewrite Rabs_mult, (Rabs_pos_eq e) by lra. assert (Rabs (sin E) <= 1) by (apply Rabs_le; pose proof (SIN_bound E); lra). nra. }
  assert (Ex : 2 * Rabs x * (- p) = Rabs d * Rabs (eden e M E)).
  { rewrite <- Rabs_mult, Ed, Rabs_Ropp, !Rabs_mult, (Rabs_pos_eq 2) by lra. rewrite (Rabs_left1 p) by lra. ring. }
  set (q := - p) in *. set (X := Rabs x) in *. set (Dl := Rabs d) in *.
  assert (X0 : 0 <= X) by apply Rabs_pos. assert (D0 : 0 <= Dl) by apply Rabs_pos.
  assert (I : 2 * X * q <= / 100000000 * (2 * q * q + X)).
  { rewrite Ex. apply Rle_trans with (Dl * (2 * p * p + X * e)); [apply Rmult_le_compat_l; assumption|].
    replace (2 * p * p) with (2 * q * q) by (unfold q; ring).
    apply Rmult_le_compat; try assumption; try lra; nra. }
  assert (Q0 : / 10000000 <= q) by lra. assert (Q2 : q <= 2) by lra.
  assert (J : 2 * X * q <= / 100000000 * (2 * q * q) + X * q / 10).
  { assert (/ 100000000 * X <= X * q / 10) by nra. lra. }
  assert (K : X * q * (19 / 10) <= / 100000000 * 2 * q * q) by lra.
  assert (X * (19 / 10) <= / 100000000 * 2 * q).
  { apply Rmult_le_reg_r with q; [lra|]. lra. }
  lra.
Qed.

Lemma res_close : forall e M E, 0 <= e < 1 -> Rabs (E - kepler e M) <= Rabs (efx e M E) / (1 - e).
Proof.
  intros e M E He. assert (H1 : Rabs e < 1) by (apply Rabs_def1; lra).
  pose proof (kepler_lip e E (kepler e M) H1) as L. rewrite (kepler_eq e M H1) in L.
  rewrite (Rabs_pos_eq e) in L by lra.
  replace (Rabs (efx e M E)) with (Rabs (E - e * sin E - M)).
  - apply Rmult_le_reg_r with (1 - e); [lra|]. unfold Rdiv. rewrite Rmult_assoc, Rinv_l, Rmult_1_r by lra.
    eapply Rle_trans; [|exact L]. lra.
  - rewrite <- Rabs_Ropp. f_equal. unfold efx. ring.
Qed.

Lemma cos_lip : forall a b, Rabs (cos a - cos b) <= Rabs (a - b).
Proof.
  intros. rewrite <- !sin_shift. eapply Rle_trans; [apply sin_lip|].
  replace (PI / 2 - a - (PI / 2 - b)) with (- (a - b)) by ring. rewrite Rabs_Ropp. lra.
Qed.

(** as close as the table of results says *)
Definition close (e M : R) (t : R * R * R) : Prop :=
  Rabs (fst (fst t) - kepler e M) <= 4 / 100000000 / (1 - e)
  /\ Rabs (snd (fst t) - sin (kepler e M)) <= 3 / 100000000 / (1 - e)
  /\ Rabs (snd t - cos (kepler e M)) <= 3 / 100000000 / (1 - e).

Lemma eloop_close : forall n e Ms Es out, 0 <= e <= 1 - / 10000000 -> length Es = length Ms ->
  eloop n e Ms Es = Some out -> Forall2 (close e) Ms out.
Proof.
  induction n; intros e Ms Es out He Hl H; cbn [eloop] in H;
    destruct (forallb _ (combine Ms Es)) eqn:F in H; [|discriminate| |discriminate];
    destruct (forallb _ (combine (map _ _) Es)) eqn:N in H; [|discriminate| |].
  1,2: injection H as <-; revert Ms Hl F N; induction Es as [|E Es IH]; intros [|M Ms] Hl F N; try discriminate; cbn in *;
    [constructor|];
    apply andb_true_iff in F; destruct F as (F1 & F2); apply andb_true_iff in N; destruct N as (N1 & N2);
    constructor; [|apply IH; [lia|exact F2|exact N2]];
    pose proof (step_close e M E He F1 N1) as X; pose proof (res_close e M E ltac:(lra)) as Y;
    assert (Y2 : Rabs (E - kepler e M) <= 3 / 100000000 / (1 - e))
      by (eapply Rle_trans; [exact Y|]; apply Rmult_le_compat_r; [left; apply Rinv_0_lt_compat; lra|exact X]);
    unfold near in N1; destruct (Rlt_dec _ _) as [L|]; [|discriminate];
    assert (1 <= / (1 - e)) by (rewrite <- Rinv_1; apply Rinv_le_contravar; lra);
    unfold close; cbn [fst snd];
    (split; [|split; [eapply Rle_trans; [apply sin_lip|exact Y2]|eapply Rle_trans; [apply cos_lip|exact Y2]]]);
    replace (estep e M E - kepler e M) with ((estep e M E - E) + (E - kepler e M)) by ring;
    (eapply Rle_trans; [apply Rabs_triang|]); unfold Rdiv in *; nra.
  eapply (IHn e Ms); [exact He| |exact H]. rewrite map_length, combine_length. lia.
Qed.

(** If the anomalies converge, they are the exact ones, up to 4e-8/(1-e), and their sine and cosine too: for any number of data. *)
Theorem C56_converged : forall (e : R) (Ms : list R) (out : list (R * R * R)), 0 <= e <= 1 - / 10000000 ->
  eccentricAnomaly e Ms = Some out ->
  Forall2 (fun M t => exists E, E - e * sin E = M /\ Rabs (fst (fst t) - E) <= 4 / 100000000 / (1 - e)
    /\ Rabs (snd (fst t) - sin E) <= 3 / 100000000 / (1 - e) /\ Rabs (snd t - cos E) <= 3 / 100000000 / (1 - e)) Ms out.
Proof.
  intros e Ms out He H. pose proof (eloop_close _ _ _ _ _ He eq_refl H) as Q.
  assert (Z : forall M t, close e M t -> exists E, E - e * sin E = M /\ Rabs (fst (fst t) - E) <= 4 / 100000000 / (1 - e)
    /\ Rabs (snd (fst t) - sin E) <= 3 / 100000000 / (1 - e) /\ Rabs (snd t - cos E) <= 3 / 100000000 / (1 - e)).
  { intros M t (C1 & C2 & C3). exists (kepler e M). split; [apply kepler_eq; apply Rabs_def1; lra|]. auto. }
  clear H. induction Q; constructor; auto.
Qed.

(** A circular orbit: the anomalies are all the same, and found at once. *)
Theorem C56_circular : forall Ms : list R, eccentricAnomaly 0 Ms = Some (map (fun M => (M, sin M, cos M)) Ms).
Proof.
  intros. unfold eccentricAnomaly. change 99%nat with (S 98). generalize 98%nat. intros n. cbn [eloop].
  assert (E1 : forall M, estep 0 M M = M). { intros. unfold estep, efx. unfold Rdiv. ring. }
  assert (F : forallb (fun me => finite 0 (fst me) (snd me)) (combine Ms Ms) = true).
  { apply forallb_forall. intros [M E] HI. cbn. assert (M = E) as ->.
    { revert HI. clear. induction Ms; cbn; [tauto|]. intros [Q|Q]; [congruence|auto]. }
    unfold finite. destruct (Req_EM_T _ 0) as [Q|]; [|reflexivity]. exfalso. unfold eden, efp, efx in Q. lra. }
  rewrite F.
  assert (Em : map (fun me => estep 0 (fst me) (snd me)) (combine Ms Ms) = Ms).
  { clear F. induction Ms; cbn; [reflexivity|]. rewrite E1. f_equal. exact IHMs. }
  rewrite Em.
  assert (N : forallb (fun ee => near (fst ee) (snd ee)) (combine Ms Ms) = true).
  { clear F Em. induction Ms; cbn; [reflexivity|]. rewrite IHMs, andb_true_r. unfold near.
    destruct (Rlt_dec _ _) as [|Q]; [reflexivity|]. exfalso. apply Q. unfold Rminus. rewrite Rplus_opp_r, Rabs_R0. lra. }
  rewrite N. f_equal. clear. induction Ms; cbn; [reflexivity|]. f_equal. exact IHMs.
Qed.

(** ** The orbit *)
(** the exact anomaly of an orbit at the time x *)
Definition ecc (e P phi x : R) : R := kepler e (meanAnomaly x P phi).
Definition tru (e P phi x : R) : R := trueAnomaly e (cos (ecc e P phi x)) (sin (ecc e P phi x)).
Definition rad (e a P phi x : R) : R := radius e a (cos (ecc e P phi x)).
(** away from the apastron, where the code puts 1e10 for the quotient *)
Definition regular (e P phi x : R) : Prop := - (1 - / 10000000000) < cos (ecc e P phi x).

(** The distance is that of an ellipse, seen from its focus. *)
Theorem C56_ellipse : forall e a P phi x : R, Rabs e < 1 -> regular e P phi x ->
  rad e a P phi x * (1 + e * cos (tru e P phi x)) = a * (1 - e * e).
Proof.
  intros e a P phi x H1 Hr. unfold regular in Hr. unfold rad, tru. set (E := ecc e P phi x) in *.
  destruct (ta_w e E H1 ltac:(lra)) as (C & _). rewrite C. pose proof (kden e E H1). unfold radius. field. lra.
Qed.

Lemma dvdE_eq : forall e E, Rabs e < 1 -> - (1 - / 10000000000) < cos E -> dvdE e (cos E) = sqrt (1 - e * e) / (1 - e * cos E).
Proof.
  intros e E H1 Hc. unfold dvdE. rewrite cc2_in by exact Hc. pose proof (kden e E H1) as P. assert (H1' := H1). apply Rabs_def2 in H1'.
  assert (Kq : sqrt ((1 + e) / (1 - e)) * (1 - e) = sqrt (1 - e * e)).
  { rewrite <- (sqrt_square (1 - e)) at 2 by lra. pose proof (ef_pos e H1). rewrite <- sqrt_mult by (try nra; lra). f_equal. field. lra. }
  rewrite <- Kq. field. repeat split; nra.
Qed.

(** derivatives along the parameters and the time *)
Lemma along : forall (ef Pf pf xf : R -> R) (s de dP dp dx : R),
  is_derive ef s de -> is_derive Pf s dP -> is_derive pf s dp -> is_derive xf s dx -> Pf s <> 0 ->
  is_derive (fun t => meanAnomaly (xf t) (Pf t) (pf t)) s (dx * dMdx (Pf s) + dP * dMdP (xf s) (Pf s) + dp * dMdp).
Proof.
  intros. unfold meanAnomaly, dMdx, dMdP, dMdp. set (c := TWOPI). clearbody c.
  evar (l : R). match goal with |- is_derive _ _ ?r => replace r with l; unfold l end.
  - auto_derive; [|reflexivity].
    repeat match goal with |- _ /\ _ => split end; try exact Logic.I; try assumption; eexists; eassumption.
  - replace (Derive (fun x => xf x) s) with (Derive xf s) by reflexivity.
    replace (Derive (fun x => Pf x) s) with (Derive Pf s) by reflexivity.
    replace (Derive (fun x => pf x) s) with (Derive pf s) by reflexivity.
    rewrite (is_derive_unique _ _ _ H0), (is_derive_unique _ _ _ H1), (is_derive_unique _ _ _ H2). field. assumption.
Qed.

Lemma v_along : forall (ef Pf pf xf : R -> R) (s de dP dp dx : R),
  is_derive ef s de -> is_derive Pf s dP -> is_derive pf s dp -> is_derive xf s dx -> Pf s <> 0 -> Rabs (ef s) < 1 ->
  regular (ef s) (Pf s) (pf s) (xf s) ->
  let E := ecc (ef s) (Pf s) (pf s) (xf s) in
  is_derive (fun t => tru (ef t) (Pf t) (pf t) (xf t)) s
    (de * dvde (ef s) (cos E) (sin E) + dP * dvdP (xf s) (ef s) (Pf s) (cos E) + dp * dvdp (ef s) (cos E)
     + dx * dvdx (ef s) (Pf s) (cos E)).
Proof.
  intros. pose proof (along _ _ _ _ _ _ _ _ _ H H0 H1 H2 H3) as Q.
  pose proof (path_v _ _ _ _ _ H Q H4 H5) as V.
  match type of V with is_derive _ _ ?a => match goal with |- is_derive _ _ ?b => replace b with a; [exact V|] end end.
  fold (ecc (ef s) (Pf s) (pf s) (xf s)). fold E. unfold dvdP, dvdp, dvdx, dEdP, dEdp, dEdx. ring.
Qed.

Lemma r_along : forall (ef af Pf pf xf : R -> R) (s de da dP dp dx : R),
  is_derive ef s de -> is_derive af s da -> is_derive Pf s dP -> is_derive pf s dp -> is_derive xf s dx ->
  Pf s <> 0 -> Rabs (ef s) < 1 ->
  let E := ecc (ef s) (Pf s) (pf s) (xf s) in
  is_derive (fun t => rad (ef t) (af t) (Pf t) (pf t) (xf t)) s
    (de * drde (ef s) (af s) (cos E) (sin E) + da * drda (ef s) (cos E) + dP * drdP (xf s) (ef s) (af s) (Pf s) (cos E) (sin E)
     + dp * drdp (ef s) (af s) (cos E) (sin E) + dx * drdx (ef s) (af s) (Pf s) (cos E) (sin E)).
Proof.
  intros. pose proof (along _ _ _ _ _ _ _ _ _ H H1 H2 H3 H4) as Q.
  pose proof (path_r _ _ _ _ _ H Q H5 _ _ H0) as V.
  match type of V with is_derive _ _ ?a => match goal with |- is_derive _ _ ?b => replace b with a; [exact V|] end end.
  fold (ecc (ef s) (Pf s) (pf s) (xf s)). fold E. unfold drdP, drdp, drdx, dEdP, dEdp, dEdx. ring.
Qed.

(** Kepler's second law: equal areas in equal times. *)
Theorem C56_areas : forall e a P phi x : R, Rabs e < 1 -> P <> 0 -> regular e P phi x ->
  exists w, is_derive (fun t : R => tru e P phi t) x w /\ rad e a P phi x * rad e a P phi x * w = 2 * PI / P * (a * a * sqrt (1 - e * e)).
Proof.
  intros e a P phi x H1 HP Hr.
  pose proof (v_along (fun _ => e) (fun _ => P) (fun _ => phi) (fun t => t) x 0 0 0 1
    (@is_derive_const R_AbsRing _ e x) (@is_derive_const R_AbsRing _ P x) (@is_derive_const R_AbsRing _ phi x)
    (is_derive_id x) HP H1 Hr) as V. cbv zeta beta in V.
  eexists. split; [exact V|]. unfold rad, radius, dvdx, dEdx, dEdM, dMdx, TWOPI.
  unfold regular in Hr. set (E := ecc e P phi x) in *. rewrite dvdE_eq by assumption. pose proof (kden e E H1). field. split; lra.
Qed.

(** ** The radial velocity *)
(** the model at the time x, with the exact anomaly *)
Definition velocity (e amp P phi lon x : R) : R := rvResult e amp lon (ecc e P phi x).

Lemma vel_along : forall (ef kf Pf pf wf xf : R -> R) (s de dk dP dp dw dx : R),
  is_derive ef s de -> is_derive kf s dk -> is_derive Pf s dP -> is_derive pf s dp -> is_derive wf s dw -> is_derive xf s dx ->
  Pf s <> 0 -> Rabs (ef s) < 1 -> regular (ef s) (Pf s) (pf s) (xf s) ->
  let E := ecc (ef s) (Pf s) (pf s) (xf s) in
  let part := rvPartial (xf s) (ef s) (kf s) (Pf s) (wf s) E in
  is_derive (fun t => velocity (ef t) (kf t) (Pf t) (pf t) (wf t) (xf t)) s
    (de * part 0%nat + dk * part 1%nat + dP * part 2%nat + dp * part 3%nat + dw * part 4%nat
     + dx * rvDerivative (ef s) (kf s) (Pf s) (wf s) E).
Proof.
  intros. pose proof (v_along _ _ _ _ _ _ _ _ _ H H1 H2 H4 H5 H6 H7) as V. cbv zeta in V.
  unfold velocity, rvResult.
  pose (v := fun t : R => tru (ef t) (Pf t) (pf t) (xf t)).
  match type of V with is_derive _ _ ?d => assert (V' : is_derive v s d) by exact V end. clear V. rename V' into V.
  apply (is_derive_ext (fun t => kf t * (cos (v t + wf t) + ef t * cos (wf t)))); [reflexivity|].
  evar (l : R). match goal with |- is_derive _ _ ?r => replace r with l; unfold l end.
  - auto_derive; [|reflexivity].
    repeat match goal with |- _ /\ _ => split end; try exact Logic.I; eexists; eassumption.
  - replace (Derive (fun x => kf x) s) with (Derive kf s) by reflexivity.
    replace (Derive (fun x => wf x) s) with (Derive wf s) by reflexivity.
    replace (Derive (fun x => ef x) s) with (Derive ef s) by reflexivity.
    replace (Derive (fun x => v x) s) with (Derive v s) by reflexivity.
    rewrite (is_derive_unique _ _ _ H0), (is_derive_unique _ _ _ H), (is_derive_unique _ _ _ H3), (is_derive_unique _ _ _ V).
    fold E. unfold part, rvPartial, rvDerivative. fold E. change (trueAnomaly (ef s) (cos E) (sin E)) with (v s). ring.
Qed.

Definition upd (p : nat -> R) (k : nat) (t : R) (i : nat) : R := if Nat.eqb i k then t else p i.
Lemma upd_der : forall p k i, is_derive (fun t => upd p k t i) (p k) (if Nat.eqb i k then 1 else 0).
Proof.
  intros. unfold upd. destruct (Nat.eqb i k); [exact (is_derive_id (p k))|exact (@is_derive_const R_AbsRing _ (p i) (p k))].
Qed.
Lemma upd_at : forall p k i, upd p k (p k) i = p i.
Proof. intros. unfold upd. destruct (Nat.eqb i k) eqn:E; [apply Nat.eqb_eq in E; congruence|reflexivity]. Qed.

(** Each column of the partials is the derivative of the result, to the parameter of that number: eccentricity, amplitude, period,
    phase, longitude. *)
Theorem C56_partials : forall (p : nat -> R) (x : R) (k : nat), (k < 5)%nat -> Rabs (p 0%nat) < 1 -> p 2%nat <> 0 ->
  regular (p 0%nat) (p 2%nat) (p 3%nat) x ->
  is_derive (fun t : R => let q := upd p k t in velocity (q 0%nat) (q 1%nat) (q 2%nat) (q 3%nat) (q 4%nat) x) (p k)
    (rvPartial x (p 0%nat) (p 1%nat) (p 2%nat) (p 4%nat) (ecc (p 0%nat) (p 2%nat) (p 3%nat) x) k).
Proof.
  intros p x k Hk H1 HP Hr. cbv zeta.
  pose proof (vel_along _ _ _ _ _ (fun _ => x) (p k) _ _ _ _ _ 0 (upd_der p k 0) (upd_der p k 1) (upd_der p k 2) (upd_der p k 3)
    (upd_der p k 4) (@is_derive_const R_AbsRing _ x (p k))) as Q. cbv zeta beta in Q. rewrite !upd_at in Q.
  specialize (Q HP H1 Hr).
  match type of Q with is_derive _ _ ?a => match goal with |- is_derive _ _ ?b => replace b with a; [exact Q|] end end.
  destruct k as [|[|[|[|[|]]]]]; cbn [Nat.eqb]; try ring. lia.
Qed.

Theorem C56_derivative : forall e amp P phi lon x : R, Rabs e < 1 -> P <> 0 -> regular e P phi x ->
  is_derive (fun t : R => velocity e amp P phi lon t) x (rvDerivative e amp P lon (ecc e P phi x)).
Proof.
  intros e amp P phi lon x H1 HP Hr.
  pose proof (vel_along (fun _ => e) (fun _ => amp) (fun _ => P) (fun _ => phi) (fun _ => lon) (fun t => t) x 0 0 0 0 0 1
    (@is_derive_const R_AbsRing _ e x) (@is_derive_const R_AbsRing _ amp x) (@is_derive_const R_AbsRing _ P x)
    (@is_derive_const R_AbsRing _ phi x) (@is_derive_const R_AbsRing _ lon x) (is_derive_id x) HP H1 Hr) as V. cbv zeta beta in V.
  match type of V with is_derive _ _ ?a => match goal with |- is_derive _ _ ?b => replace b with a; [exact V|] end end. ring.
Qed.

(** how far away the star is along the line of sight *)
Definition depth (e a P phi lon x : R) : R := rad e a P phi x * sin (tru e P phi x + lon).

(** The velocity is that of a star on an orbit with semi-major axis (times the sine of the inclination)
    a = K P sqrt(1 - e^2) / (2 pi). *)
Theorem C56_velocity : forall e amp P phi lon x : R, Rabs e < 1 -> P <> 0 -> regular e P phi x ->
  is_derive (fun t : R => depth e (amp * P * sqrt (1 - e * e) / (2 * PI)) P phi lon t) x (velocity e amp P phi lon x).
Proof.
  intros e amp P phi lon x H1 HP Hr. set (a := amp * P * sqrt (1 - e * e) / (2 * PI)).
  pose proof (v_along (fun _ => e) (fun _ => P) (fun _ => phi) (fun t => t) x 0 0 0 1
    (@is_derive_const R_AbsRing _ e x) (@is_derive_const R_AbsRing _ P x) (@is_derive_const R_AbsRing _ phi x)
    (is_derive_id x) HP H1 Hr) as V. cbv zeta beta in V.
  pose proof (r_along (fun _ => e) (fun _ => a) (fun _ => P) (fun _ => phi) (fun t => t) x 0 0 0 0 1
    (@is_derive_const R_AbsRing _ e x) (@is_derive_const R_AbsRing _ a x) (@is_derive_const R_AbsRing _ P x)
    (@is_derive_const R_AbsRing _ phi x) (is_derive_id x) HP H1) as W. cbv zeta beta in W.
  unfold depth.
  pose (v := fun t : R => tru e P phi t). pose (r := fun t : R => rad e a P phi t).
  match type of V with is_derive _ _ ?d => assert (V' : is_derive v x d) by exact V end. clear V. rename V' into V.
  match type of W with is_derive _ _ ?d => assert (W' : is_derive r x d) by exact W end. clear W. rename W' into W.
  apply (is_derive_ext (fun t => r t * sin (v t + lon))); [reflexivity|].
  evar (l : R). match goal with |- is_derive _ _ ?r => replace r with l; unfold l end.
  - auto_derive; [|reflexivity].
    repeat match goal with |- _ /\ _ => split end; try exact Logic.I; eexists; eassumption.
  - replace (Derive (fun x => r x) x) with (Derive r x) by reflexivity.
    replace (Derive (fun x => v x) x) with (Derive v x) by reflexivity.
    rewrite (is_derive_unique _ _ _ W), (is_derive_unique _ _ _ V).
    unfold v, r, velocity, rvResult, rad, tru, regular in *. set (E := ecc e P phi x) in *.
    destruct (ta_w e E H1 ltac:(lra)) as (C & S'). set (tv := trueAnomaly e (cos E) (sin E)) in *.
    rewrite sin_plus, cos_plus, C, S'. unfold dvdx, drdx, drdE, dEdx, dEdM, dMdx, TWOPI, radius.
    rewrite dvdE_eq by assumption. pose proof (kden e E H1) as D. pose proof PI_RGT_0.
    assert (Q : sqrt (1 - e * e) * sqrt (1 - e * e) = 1 - e * e). { apply sqrt_sqrt. apply Rabs_def2 in H1. nra. }
    assert (S2 : sin E * sin E = 1 - cos E * cos E). { pose proof (sin2_cos2 E) as Z. unfold Rsqr in Z. lra. }
    unfold a. set (q := sqrt (1 - e * e)) in *. set (c := cos E) in *. set (n := sin E) in *.
    set (cw := cos lon). set (sw := sin lon).
    match goal with |- ?a = ?b => replace a with
      (amp / ((1 - e * c) * (1 - e * c)) * (q * q * (e * (n * n) + (c - e)) * cw + q * n * (e * (c - e) - q * q) * sw)) by (field; lra) end.
    rewrite Q, S2. field. lra.
Qed.

(** semimajoraxis takes its numbers from other places: the eccentricity for the amplitude, the amplitude for the period, the period
    for the eccentricity.  A circular orbit gets 0, any period above 1 raises ValueError. *)
Theorem C56_axis_refuted :
  (forall amp P, P * P <= 1 -> rvSemimajoraxis 0 amp P = Some 0)
  /\ (forall e amp P, 1 < P -> rvSemimajoraxis e amp P = None)
  /\ (exists e amp P, rvSemimajoraxis e amp P = Some 0 /\ amp * P * sqrt (1 - e * e) / (2 * PI) <> 0).
Proof.
  split; [|split].
  - intros. unfold rvSemimajoraxis. destruct (Rlt_dec _ 0); [exfalso; lra|]. f_equal. unfold Rdiv. ring.
  - intros. unfold rvSemimajoraxis. destruct (Rlt_dec _ 0) as [|Q]; [reflexivity|]. exfalso. apply Q. nra.
  - exists 0, 1, 1. split.
    + unfold rvSemimajoraxis. destruct (Rlt_dec _ 0); [exfalso; lra|]. f_equal. unfold Rdiv. ring.
    + replace (1 - 0 * 0) with 1 by ring. rewrite sqrt_1. apply Rgt_not_eq. pose proof PI_RGT_0.
      apply Rdiv_lt_0_compat; lra.
Qed.

(** And so does getMsini: in M sin i = 4.91e-3 M*^(2/3) K P^(1/3) sqrt( 1 - e^2 ) the eccentricity is taken for K, the amplitude for P and the
    period for e.  It is right for no planet with a circular orbit, and raises ValueError for any period above 1. *)
Theorem C56_msini_refuted :
  (forall mass amp P, 0 < amp -> 0 < P -> rvMsini mass 0 amp P <> Some (491 / 100000 * Rpower mass (2 / 3) * amp * Rpower P (1 / 3) * sqrt (1 - 0 * 0)))
  /\ (forall mass e amp P, 1 < P -> rvMsini mass e amp P = None).
Proof.
  split.
  - intros mass amp P Ha HP. unfold rvMsini. destruct (Rlt_dec (1 - P * P) 0); [discriminate|]. destruct (Rlt_dec amp 0); [discriminate|]. intro E. injection E as E.
    replace (1 - 0 * 0) with 1 in E by ring. rewrite sqrt_1 in E.
    assert (0 < 491 / 100000 * Rpower mass (2 / 3) * amp * Rpower P (1 / 3) * 1).
    { apply Rmult_lt_0_compat; [|lra]. apply Rmult_lt_0_compat; [|apply exp_pos]. apply Rmult_lt_0_compat; [|exact Ha]. apply Rmult_lt_0_compat; [lra|apply exp_pos]. }
    rewrite Rmult_0_r, !Rmult_0_l in E. lra.
  - intros. unfold rvMsini. destruct (Rlt_dec _ 0) as [|Q]; [reflexivity|]. exfalso. apply Q. nra.
Qed.
(** With the parameters in the order it expects it is that formula. *)
Theorem C56_msini mass e amp P : 0 <= e < 1 -> 0 < P ->
  rvMsini mass amp P e = Some (491 / 100000 * Rpower mass (2 / 3) * amp * Rpower P (1 / 3) * sqrt (1 - e * e)).
Proof.
  intros He HP. unfold rvMsini. destruct (Rlt_dec _ 0); [exfalso; nra|]. destruct (Rlt_dec P 0); [exfalso; lra|]. destruct (Req_EM_T P 0); [exfalso; lra|]. reflexivity.
Qed.

(** ** Examples *)
(** an orbit at its periastron: the hypotheses hold, and the star is at (1 - e) a with the velocity K (1 + e) *)
Lemma ecc_peri : forall e P, Rabs e < 1 -> ecc e P 0 0 = 0.
Proof.
  intros. unfold ecc. apply (kepler_unique e); [assumption|]. rewrite kepler_eq by assumption. rewrite sin_0.
  unfold meanAnomaly. unfold Rdiv. ring.
Qed.
Example C56_example : Rabs (1 / 2) < 1 /\ regular (1 / 2) 3 0 0 /\ rad (1 / 2) 2 3 0 0 = 1 /\ velocity (1 / 2) 4 3 0 0 0 = 6.
Proof.
  assert (H : Rabs (1 / 2) < 1) by (rewrite Rabs_pos_eq; lra). split; [exact H|].
  unfold regular, rad, velocity, rvResult. rewrite ecc_peri by exact H. rewrite cos_0, sin_0. split; [lra|]. split; [unfold radius; lra|].
  rewrite ta_atan by lra. replace (sqrt ((1 + 1 / 2) / (1 - 1 / 2)) * 0 / (1 + 1)) with 0 by (unfold Rdiv; ring).
  rewrite atan_0. replace (2 * 0 + 0) with 0 by ring. rewrite cos_0. lra.
Qed.
(** the loop does end for an orbit that is not circular: at the periastron and half a turn later *)
Example C56_loop : exists out, eccentricAnomaly (1 / 2) [0; PI] = Some out.
Proof.
  unfold eccentricAnomaly. change 99%nat with (S 98). generalize 98%nat. intros n. cbn [eloop combine map forallb fst snd].
  assert (D0 : estep (1 / 2) 0 0 = 0). { unfold estep, efx. rewrite sin_0. unfold Rdiv. ring. }
  assert (D1 : estep (1 / 2) PI PI = PI). { unfold estep, efx. rewrite sin_PI. unfold Rdiv. ring. }
  rewrite D0, D1.
  assert (F0 : finite (1 / 2) 0 0 = true).
  { unfold finite. destruct (Req_EM_T _ 0) as [Q|]; [|reflexivity]. exfalso. unfold eden, efp, efx in Q. rewrite sin_0, cos_0 in Q. lra. }
  assert (F1 : finite (1 / 2) PI PI = true).
  { unfold finite. destruct (Req_EM_T _ 0) as [Q|]; [|reflexivity]. exfalso. unfold eden, efp, efx in Q. rewrite sin_PI, cos_PI in Q. lra. }
  rewrite F0, F1. cbn [andb].
  assert (N : forall a, near a a = true).
  { intros. unfold near. destruct (Rlt_dec _ _) as [|Q]; [reflexivity|]. exfalso. apply Q. unfold Rminus. rewrite Rplus_opp_r, Rabs_R0. lra. }
  rewrite !N. cbn [andb]. eexists. reflexivity.
Qed.

Print Assumptions C56_kepler.
Print Assumptions C56_rest.
Print Assumptions C56_converged.
Print Assumptions C56_circular.
Print Assumptions C56_ellipse.
Print Assumptions C56_areas.
Print Assumptions C56_partials.
Print Assumptions C56_derivative.
Print Assumptions C56_velocity.
Print Assumptions C56_axis_refuted.
Print Assumptions C56_msini.
Print Assumptions C56_msini_refuted.
