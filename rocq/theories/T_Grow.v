(** Property C79: the number of components of a dynamic model. *)
From Coquelicot Require Import Coquelicot.
From Coq Require Import List Arith Reals Bool Lia Lra.
From Verif Require Import M_Prior M_Grow.
Import ListNotations.
Local Open Scope R_scope.

(** What the births and deaths make of a model. *)
Inductive reach (m : dyn) : dyn -> Prop :=
| reach_new : reach m m
| reach_born m1 u : reach m m1 -> reach m (born m1 u)
| reach_died m1 u : reach m m1 -> reach m (died m1 u).

(** The size is in the range that the constructor was given. *)
Definition within (n min : nat) (max : option nat) : Prop :=
  (min <= n)%nat /\ match max with Some mx => (n <= mx)%nat | None => True end.

Lemma outside_within n min max : outside n min max = false <-> within n min max.
Proof.
  unfold outside, within. rewrite orb_false_iff, Nat.ltb_ge. destruct max; [rewrite Nat.ltb_ge|]; intuition.
Qed.

Lemma construct_inv k size min max gp dynamic m : construct k size min max gp dynamic = Some m ->
  y_kind m = k /\ y_size m = size /\ y_min m = min /\ y_max m = max /\ within size min max /\
  y_grow m = (if isDyna k dynamic min max then growPrior gp min max else None).
Proof.
  unfold construct. destruct (outside size min max) eqn:O; [discriminate|]. apply outside_within in O.
  destruct (isDyna k dynamic min max).
  - destruct (growPrior gp min max); intros E; [|discriminate]. injection E as <-. cbn. auto 7.
  - intros E. injection E as <-. cbn. auto 7.
Qed.

Lemma in_lt k a b : (inComp k a <? inComp k b)%nat = (a <? b)%nat.
Proof. destruct k; reflexivity. Qed.

(** The constructor makes a model for every size in the range and for no other. *)
Theorem C79_construct k size min max dynamic :
  (exists m, construct k size min max None dynamic = Some m) <-> within size min max.
Proof.
  rewrite <- outside_within. unfold construct. destruct (outside size min max) eqn:O.
  - split; [intros (m & E)|]; discriminate.
  - split; [reflexivity|]. intros _. apply outside_within in O. destruct (isDyna k dynamic min max); [|eauto]. unfold growPrior. destruct max as [mx|].
    + unfold mkPrior. cbn [recenter]. unfold setLimits. cbn [fresh p_lodom p_hidom]. unfold Rbar_leb, Rbar_ltb.
      destruct (Rbar_le_dec m_infty (Finite (INR min))) as [_|C0]; [|exfalso; apply C0; exact I].
      destruct (Rbar_lt_dec (Finite (INR min)) (Finite (INR (mx + 1)))) as [_|C0];
        [|exfalso; apply C0; cbn; apply lt_INR; destruct O as [O1 O2]; lia].
      destruct (Rbar_le_dec (Finite (INR (mx + 1))) p_infty) as [_|C0]; [|exfalso; apply C0; exact I].
      cbn. eauto.
    + unfold mkExponential, mkPrior. cbn [recenter]. unfold setLimits. cbn [fresh p_lodom p_hidom]. unfold Rbar_leb, Rbar_ltb.
      destruct (Rbar_le_dec m_infty (Finite 0)) as [_|C0]; [|exfalso; apply C0; exact I].
      destruct (Rbar_lt_dec (Finite 0) p_infty) as [_|C0]; [|exfalso; apply C0; exact I].
      destruct (Rbar_le_dec p_infty p_infty) as [_|C0]; [|exfalso; apply C0; exact I].
      cbn. eauto.
Qed.

(** After any number of births and deaths, whatever the random numbers, the size is in the range that was given to the constructor;
    the range and the growth prior are what they were.  A model that is not dynamic keeps its size. *)
Theorem C79_history k size min max gp dynamic m m' :
  construct k size min max gp dynamic = Some m -> reach m m' ->
  within (y_size m') min max /\ y_kind m' = k /\ y_min m' = min /\ y_max m' = max /\ y_grow m' = y_grow m /\
  (isDyna k dynamic min max = false -> m' = m).
Proof.
  intros E H. apply construct_inv in E. destruct E as (Ek & Es & Em & Ex & W & Eg).
  induction H as [|m1 u H (W1 & K1 & M1 & X1 & G1 & S1)|m1 u H (W1 & K1 & M1 & X1 & G1 & S1)].
  - rewrite Es. auto 7.
  - unfold born. destruct (birthAllowed m1 u) eqn:B; [|repeat split; auto; apply W1].
    unfold birthAllowed in B. destruct (draw m1 u) eqn:D; [|discriminate]. apply andb_true_iff in B. destruct B as [_ B].
    cbn. split; [|split; [auto|split; [auto|split; [auto|split; [auto|]]]]].
    + split; [destruct W1; lia|]. unfold maxComp, ncomp in B. rewrite X1 in B. destruct max; [|exact I]. cbn [option_map] in B. rewrite in_lt in B.
      apply Nat.ltb_lt in B. lia.
    + intros F. exfalso. unfold draw in D. rewrite G1, Eg, F in D. discriminate.
  - unfold died. destruct (deathAllowed m1 u) eqn:B; [|repeat split; auto; apply W1].
    unfold deathAllowed in B. destruct (draw m1 u) eqn:D; [|discriminate]. apply andb_true_iff in B. destruct B as [_ B].
    unfold minComp, ncomp in B. rewrite in_lt in B. apply Nat.ltb_lt in B.
    cbn. split; [|split; [auto|split; [auto|split; [auto|split; [auto|]]]]].
    + destruct W1 as [W1 W2]. split; [lia|]. destruct max; [lia|exact I].
    + intros F. exfalso. unfold draw in D. rewrite G1, Eg, F in D. discriminate.
Qed.
Print Assumptions C79_history.

(** A copy of a dynamic model, also after births and deaths, has the same size, range and growth prior - of an harmonic model only
    when its lowest order is not 0. *)
Theorem C79_copy k size min max gp dynamic m m' :
  construct k size min max gp dynamic = Some m -> isDyna k dynamic min max = true -> (k = Harmonic -> (1 <= min)%nat) ->
  reach m m' -> copy m' = Some m'.
Proof.
  intros E Dy Kh H. destruct (C79_history _ _ _ _ _ _ _ _ E H) as (W & K1 & M1 & X1 & G1 & _).
  assert (E0 := E). apply construct_inv in E0. destruct E0 as (_ & _ & _ & _ & _ & Eg). rewrite Dy in Eg.
  unfold construct in E. rewrite Dy in E. destruct (outside size min max); [discriminate|].
  destruct (growPrior gp min max) as [p|]; [|discriminate]. clear E.
  unfold copy. destruct m' as [k' s' mn' mx' g']. cbn in *. subst. rewrite Eg in *.
  assert (O : outside s' (defaultMin k) None = false).
  { apply outside_within. split; [|exact I]. destruct k; cbn; try lia. specialize (Kh eq_refl). destruct W. lia. }
  rewrite O. congruence.
Qed.
Print Assumptions C79_copy.

(** ** The rates *)

(** The chance that a test on a random number in [0,1) is passed. *)
Definition chance (f : R -> bool) (v : R) : Prop := is_RInt (fun u => if f u then 1 else 0) 0 1 v.

Lemma chance_ext f g v : (forall u, 0 < u < 1 -> f u = g u) -> chance g v -> chance f v.
Proof.
  intros E. unfold chance. apply is_RInt_ext. rewrite Rmin_left, Rmax_right by lra. intros u U. rewrite (E u U). reflexivity.
Qed.
Lemma chance_false : chance (fun _ => false) 0.
Proof.
  unfold chance. evar_last; [apply (is_RInt_const (V := R_NormedModule))|]. cbn. unfold scal. cbn. unfold mult. cbn. ring.
Qed.
Lemma const_part a b (c : R) : is_RInt (fun _ : R => c) a b ((b - a) * c).
Proof. apply (is_RInt_const (V := R_NormedModule)). Qed.
Lemma chance_above f c : 0 <= c <= 1 -> (forall u, 0 < u < 1 -> u <> c -> (f u = true <-> c < u)) -> chance f (1 - c).
Proof.
  intros Hc H. unfold chance. evar_last; [apply (is_RInt_Chasles (V := R_NormedModule) _ 0 c 1 ((c - 0) * 0) ((1 - c) * 1))|unfold plus; cbn; ring].
  - eapply is_RInt_ext; [|apply (const_part 0 c 0)]. rewrite Rmin_left, Rmax_right by lra. intros u U. cbn.
    destruct (f u) eqn:E; [|reflexivity]. apply H in E; lra.
  - eapply is_RInt_ext; [|apply (const_part c 1 1)]. rewrite Rmin_left, Rmax_right by lra. intros u U. cbn.
    destruct (f u) eqn:E; [reflexivity|]. assert (X : f u = true) by (apply H; lra). congruence.
Qed.
Lemma chance_below f c : 0 <= c <= 1 -> (forall u, 0 < u < 1 -> u <> c -> (f u = true <-> u < c)) -> chance f c.
Proof.
  intros Hc H. unfold chance. evar_last; [apply (is_RInt_Chasles (V := R_NormedModule) _ 0 c 1 ((c - 0) * 1) ((1 - c) * 0))|unfold plus; cbn; ring].
  - eapply is_RInt_ext; [|apply (const_part 0 c 1)]. rewrite Rmin_left, Rmax_right by lra. intros u U. cbn.
    destruct (f u) eqn:E; [reflexivity|]. assert (X : f u = true) by (apply H; lra). congruence.
  - eapply is_RInt_ext; [|apply (const_part c 1 0)]. rewrite Rmin_left, Rmax_right by lra. intros u U. cbn.
    destruct (f u) eqn:E; [|reflexivity]. apply H in E; lra.
Qed.
Lemma chance_unique f v w : chance f v -> chance f w -> v = w.
Proof. unfold chance. intros A B. apply (is_RInt_unique (V := R_CompleteNormedModule)) in A. apply (is_RInt_unique (V := R_CompleteNormedModule)) in B. congruence. Qed.

Lemma uniform_draw min mx p u : (min <= mx)%nat -> growPrior None min (Some mx) = Some p ->
  unit2Domain p u = Some (INR min + u * INR (mx + 1 - min)).
Proof.
  intros L. unfold growPrior, mkPrior. cbn [recenter]. unfold setLimits. cbn [fresh p_lodom p_hidom]. unfold Rbar_leb, Rbar_ltb.
  destruct (Rbar_le_dec m_infty (Finite (INR min))) as [_|C0]; [|exfalso; apply C0; exact I].
  destruct (Rbar_lt_dec (Finite (INR min)) (Finite (INR (mx + 1)))) as [_|C0];
    [|exfalso; apply C0; cbn; apply lt_INR; lia].
  destruct (Rbar_le_dec (Finite (INR (mx + 1))) p_infty) as [_|C0]; [|exfalso; apply C0; exact I].
  intros E. injection E as <-. cbn [unit2Domain p_circ p_limited]. unfold unit2Domain, limitedU2D. cbn [p_circ p_limited p_urng p_umin p_kind u2d].
  f_equal. rewrite minus_INR by lia. unfold domain2Unit. cbn. ring.
Qed.

Lemma expo_draw min p u : growPrior None min None = Some p -> 0 < u < 1 -> unit2Domain p u = Some (- 2 * ln (1 - u)).
Proof.
  intros E U. unfold growPrior, mkExponential, mkPrior in E. cbn [recenter] in E. unfold setLimits in E. cbn [fresh p_lodom p_hidom] in E.
  unfold Rbar_leb, Rbar_ltb in E.
  destruct (Rbar_le_dec m_infty (Finite 0)) as [_|C0]; [|exfalso; apply C0; exact I].
  destruct (Rbar_lt_dec (Finite 0) p_infty) as [_|C0]; [|exfalso; apply C0; exact I].
  destruct (Rbar_le_dec p_infty p_infty) as [_|C0]; [|exfalso; apply C0; exact I].
  cbn in E. replace ((0 - 0) / 2) with 0 in E by field. destruct (Rlt_dec 0 0); [lra|]. rewrite Ropp_0, exp_0 in E.
  injection E as <-. unfold unit2Domain, limitedU2D. cbn [p_circ p_limited p_urng p_umin p_kind]. f_equal. unfold u2d.
  destruct (Req_EM_T _ _); [lra|]. destruct (Req_EM_T _ _); [lra|]. destruct (Rle_dec _ _); [lra|].
  replace (2 - 2 * (u * (1 - (1 - 0.5 * 1)) + (1 - 0.5 * 1))) with (1 - u) by lra. ring.
Qed.
Lemma expo_above n u : 0 < u < 1 -> (n < - 2 * ln (1 - u) <-> 1 - exp (- n / 2) < u).
Proof.
  intros U. assert (E : exp (ln (1 - u)) = 1 - u) by (apply exp_ln; lra). split; intros H.
  - assert (exp (ln (1 - u)) < exp (- n / 2)) by (apply exp_increasing; lra). lra.
  - assert (ln (1 - u) < - n / 2); [|lra]. apply exp_lt_inv. lra.
Qed.
Lemma expo_below n u : 0 < u < 1 -> (- 2 * ln (1 - u) < n <-> u < 1 - exp (- n / 2)).
Proof.
  intros U. assert (E : exp (ln (1 - u)) = 1 - u) by (apply exp_ln; lra). split; intros H.
  - assert (exp (- n / 2) < exp (ln (1 - u))) by (apply exp_increasing; lra). lra.
  - assert (- n / 2 < ln (1 - u)); [|lra]. apply exp_lt_inv. lra.
Qed.

Lemma allowed_true (n g : R) (b : bool) : (if Rlt_dec n g then true else false) && b = true <-> n < g /\ b = true.
Proof. destruct (Rlt_dec n g), b; cbn; intuition; discriminate. Qed.

Lemma ltb_in (m : dyn) : (minComp m <? ncomp m)%nat = (y_min m <? y_size m)%nat.
Proof. apply in_lt. Qed.
Lemma ltb_max (m : dyn) mx : y_max m = Some mx ->
  match maxComp m with Some x => (ncomp m <? x)%nat | None => true end = (y_size m <? mx)%nat.
Proof. intros E. unfold maxComp. rewrite E. cbn [option_map]. apply in_lt. Qed.

(** With a highest size, the chances of birth and death are linear in the number of components; they are counted from the lowest
    size min, also for a polynomial of which the number of components is one more than its degree. *)
Theorem C79_rates_uniform k size min mx dynamic m m' :
  construct k size min (Some mx) None dynamic = Some m -> isDyna k dynamic min (Some mx) = true -> reach m m' ->
  let N := INR (mx + 1 - min) in
  chance (birthAllowed m') (if (y_size m' <? mx)%nat then 1 - (INR (ncomp m') - INR min) / N else 0) /\
  chance (deathAllowed m') (if (min <? y_size m')%nat then (INR (ncomp m') - INR min) / N else 0).
Proof.
  intros E Dy H N. destruct (C79_history _ _ _ _ _ _ _ _ E H) as ((W1 & W2) & K1 & M1 & X1 & G1 & _).
  apply construct_inv in E. destruct E as (_ & _ & _ & _ & (W3 & W4) & Eg). rewrite Dy in Eg.
  assert (NP : 0 < N) by (unfold N; apply lt_0_INR; lia).
  assert (EN : N = INR mx + 1 - INR min) by (unfold N; rewrite minus_INR, plus_INR by lia; cbn; ring).
  assert (DR : forall u, draw m' u = Some (INR min + u * N) \/ y_grow m' = None).
  { intros u. unfold draw. rewrite G1, Eg. destruct (growPrior None min (Some mx)) as [p|] eqn:Ep; [|auto]. left. apply (uniform_draw min mx p u); [lia|exact Ep]. }
  assert (NN : exists p, y_grow m' = Some p).
  { rewrite G1, Eg. assert (W : within size min (Some mx)) by (split; assumption). apply (proj2 (C79_construct k size min (Some mx) dynamic)) in W.
    destruct W as (m0 & E0). unfold construct in E0. destruct (outside size min (Some mx)); [discriminate|]. rewrite Dy in E0.
    destruct (growPrior None min (Some mx)) as [p|]; [eauto|discriminate]. }
  destruct NN as (p & Ep). assert (D : forall u, draw m' u = Some (INR min + u * N)) by (intros u; destruct (DR u) as [X|X]; [exact X|congruence]).
  assert (B0 : INR min <= INR (ncomp m')) by (apply le_INR; unfold ncomp, inComp; destruct (y_kind m'); lia).
  assert (B1 : INR (ncomp m') <= INR mx + 1) by (replace (INR mx + 1) with (INR (mx + 1)) by (rewrite plus_INR; reflexivity); apply le_INR; unfold ncomp, inComp; destruct (y_kind m'); lia).
  set (c := (INR (ncomp m') - INR min) / N).
  assert (Cc : c * N = INR (ncomp m') - INR min) by (unfold c; field; lra).
  assert (C0 : 0 <= c) by (unfold c; apply Rmult_le_pos; [lra|left; apply Rinv_0_lt_compat; exact NP]).
  assert (C1 : c <= 1) by (apply Rmult_le_reg_r with N; lra).
  split.
  - destruct (Nat.ltb_spec (y_size m') mx) as [L|L].
    + apply chance_above; [lra|]. intros u U _. unfold birthAllowed. rewrite D, (ltb_max m' mx X1), allowed_true.
      destruct (Nat.ltb_spec (y_size m') mx); [|lia]. split.
      * intros [X _]. apply Rmult_lt_reg_r with N; lra.
      * intros X. apply (Rmult_lt_compat_r N) in X; [|exact NP]. split; [lra|reflexivity].
    + eapply chance_ext; [|apply chance_false]. intros u U. unfold birthAllowed. rewrite D, (ltb_max m' mx X1).
      destruct (Nat.ltb_spec (y_size m') mx); [lia|]. apply andb_false_r.
  - destruct (Nat.ltb_spec min (y_size m')) as [L|L].
    + apply chance_below; [lra|]. intros u U _. unfold deathAllowed. rewrite D, ltb_in, M1, allowed_true.
      destruct (Nat.ltb_spec min (y_size m')); [|lia]. split.
      * intros [X _]. apply Rmult_lt_reg_r with N; lra.
      * intros X. apply (Rmult_lt_compat_r N) in X; [|exact NP]. split; [lra|reflexivity].
    + eapply chance_ext; [|apply chance_false]. intros u U. unfold deathAllowed. rewrite D, ltb_in, M1.
      destruct (Nat.ltb_spec min (y_size m')); [lia|]. apply andb_false_r.
Qed.
Print Assumptions C79_rates_uniform.

(** Without a highest size the chance of a birth falls off exponentially with the number of components. *)
Theorem C79_rates_exponential k size min dynamic m m' :
  construct k size min None None dynamic = Some m -> isDyna k dynamic min None = true -> reach m m' ->
  chance (birthAllowed m') (exp (- INR (ncomp m') / 2)) /\
  chance (deathAllowed m') (if (min <? y_size m')%nat then 1 - exp (- INR (ncomp m') / 2) else 0).
Proof.
  intros E Dy H. destruct (C79_history _ _ _ _ _ _ _ _ E H) as ((W1 & W2) & K1 & M1 & X1 & G1 & _).
  assert (NN : exists p, growPrior None min None = Some p /\ y_grow m' = Some p).
  { rewrite G1. unfold construct in E. destruct (outside size min None); [discriminate|]. rewrite Dy in E.
    destruct (growPrior None min None) as [p|]; [|discriminate]. exists p. injection E as <-. auto. }
  destruct NN as (p & Ep & Eg).
  assert (D : forall u, 0 < u < 1 -> draw m' u = Some (- 2 * ln (1 - u))) by (intros u U; unfold draw; rewrite Eg; apply (expo_draw min p u Ep U)).
  assert (C0 : 0 < exp (- INR (ncomp m') / 2)) by apply exp_pos.
  assert (C1 : exp (- INR (ncomp m') / 2) <= 1).
  { rewrite <- exp_0. destruct (Req_dec (- INR (ncomp m') / 2) 0) as [->|Z]; [lra|]. left. apply exp_increasing. pose proof (pos_INR (ncomp m')). lra. }
  assert (MX : maxComp m' = None) by (unfold maxComp; rewrite X1; reflexivity).
  split.
  - replace (exp (- INR (ncomp m') / 2)) with (1 - (1 - exp (- INR (ncomp m') / 2))) by ring. apply chance_above; [lra|].
    intros u U _. unfold birthAllowed. rewrite (D u U), MX, allowed_true, <- (expo_above _ u U). intuition.
  - destruct (Nat.ltb_spec min (y_size m')) as [L|L].
    + apply chance_below; [lra|]. intros u U _. unfold deathAllowed. rewrite (D u U), ltb_in, M1, allowed_true, <- (expo_below _ u U).
      destruct (Nat.ltb_spec min (y_size m')); [|lia]. intuition.
    + eapply chance_ext; [|apply chance_false]. intros u U. unfold deathAllowed. rewrite (D u U), ltb_in, M1.
      destruct (Nat.ltb_spec min (y_size m')); [lia|]. apply andb_false_r.
Qed.
Print Assumptions C79_rates_exponential.
(** ** The law of the number of components *)

(** One step: the birth or the death engine, each with the same chance.  The weights w over the sizes are the same after the step. *)
Definition invariant (m : dyn) (w : nat -> R) : Prop :=
  exists b d : nat -> R,
    (forall n, within n (y_min m) (y_max m) -> chance (birthAllowed (resize m n)) (b n) /\ chance (deathAllowed (resize m n)) (d n)) /\
    (forall n, within n (y_min m) (y_max m) ->
       w n = w n * (1 - b n / 2 - d n / 2)
             + (if (y_min m <? n)%nat then w (n - 1)%nat * (b (n - 1)%nat / 2) else 0)
             + (if outside (n + 1) (y_min m) (y_max m) then 0 else w (n + 1)%nat * (d (n + 1)%nat / 2))).

Lemma cut min max (b d w : nat -> R) : d min = 0 -> (forall mx, max = Some mx -> b mx = 0) ->
  ((forall n, within n min max ->
       w n = w n * (1 - b n / 2 - d n / 2) + (if (min <? n)%nat then w (n - 1)%nat * (b (n - 1)%nat / 2) else 0)
             + (if outside (n + 1) min max then 0 else w (n + 1)%nat * (d (n + 1)%nat / 2)))
   <-> (forall n, within n min max -> within (n + 1) min max -> w n * b n = w (n + 1)%nat * d (n + 1)%nat)).
Proof.
  intros D0 B0.
  assert (Out : forall n, within n min max -> outside (n + 1) min max = true -> b n = 0).
  { intros n [W1 W2] O. destruct max as [mx|].
    - apply B0. f_equal. unfold outside in O. apply orb_true_iff in O. rewrite !Nat.ltb_lt in O. lia.
    - unfold outside in O. apply orb_true_iff in O. rewrite Nat.ltb_lt in O. destruct O; [lia|discriminate]. }
  split.
  - intros H n W1 W2. assert (P : forall j, within (min + j) min max -> within (min + j + 1) min max ->
      w (min + j)%nat * b (min + j)%nat = w (min + j + 1)%nat * d (min + j + 1)%nat).
    { induction j as [|j IH]; intros V1 V2.
      - specialize (H (min + 0)%nat V1). apply outside_within in V2. rewrite V2 in H. rewrite Nat.add_0_r in *.
        destruct (Nat.ltb_spec min min); [lia|]. rewrite D0 in H. lra.
      - assert (V0 : within (min + j) min max) by (destruct V1 as [_ V1]; split; [lia|destruct max; [lia|exact I]]).
        assert (V0' : within (min + j + 1) min max) by (replace (min + j + 1)%nat with (min + S j)%nat by lia; exact V1).
        specialize (IH V0 V0'). specialize (H (min + S j)%nat V1). apply outside_within in V2. rewrite V2 in H.
        destruct (Nat.ltb_spec min (min + S j)); [|lia]. replace (min + S j - 1)%nat with (min + j)%nat in H by lia.
        replace (min + j + 1)%nat with (min + S j)%nat in IH by lia. lra. }
    replace n with (min + (n - min))%nat in * by (destruct W1; lia). apply P; assumption.
  - intros H n W. destruct (outside (n + 1) min max) eqn:O.
    + rewrite (Out n W O). destruct (Nat.ltb_spec min n) as [L|L].
      * assert (W1 : within (n - 1) min max) by (destruct W as [_ W]; split; [lia|destruct max; [lia|exact I]]).
        specialize (H (n - 1)%nat W1). replace (n - 1 + 1)%nat with n in H by lia. specialize (H W). lra.
      * replace n with min by (destruct W; lia). rewrite D0. lra.
    + apply outside_within in O. assert (Hn := H n W O). destruct (Nat.ltb_spec min n) as [L|L].
      * assert (W1 : within (n - 1) min max) by (destruct W as [_ W]; split; [lia|destruct max; [lia|exact I]]).
        specialize (H (n - 1)%nat W1). replace (n - 1 + 1)%nat with n in H by lia. specialize (H W). lra.
      * replace n with min in * by (destruct W; lia). rewrite D0. lra.
Qed.

Lemma construct_resize k size min max gp dynamic m n : construct k size min max gp dynamic = Some m -> within n min max ->
  construct k n min max gp dynamic = Some (resize m n).
Proof.
  intros E W. apply outside_within in W. unfold construct in *. rewrite W. destruct (outside size min max); [discriminate|].
  destruct (isDyna k dynamic min max).
  - destruct (growPrior gp min max); [|discriminate]. injection E as <-. reflexivity.
  - injection E as <-. reflexivity.
Qed.

Lemma invariant_cut (m : dyn) (b d w : nat -> R) :
  (forall n, within n (y_min m) (y_max m) -> chance (birthAllowed (resize m n)) (b n) /\ chance (deathAllowed (resize m n)) (d n)) ->
  within (y_min m) (y_min m) (y_max m) -> d (y_min m) = 0 -> (forall mx, y_max m = Some mx -> b mx = 0) ->
  (invariant m w <-> (forall n, within n (y_min m) (y_max m) -> within (n + 1) (y_min m) (y_max m) -> w n * b n = w (n + 1)%nat * d (n + 1)%nat)).
Proof.
  intros C Wm D0 B0. rewrite <- (cut _ _ b d w D0 B0). split.
  - intros (b' & d' & C' & H) n W. etransitivity; [apply (H n W)|].
    assert (U : forall j, within j (y_min m) (y_max m) -> b' j = b j /\ d' j = d j).
    { intros j Wj. destruct (C j Wj) as [C1 C2]. destruct (C' j Wj) as [C1' C2']. split; [apply (chance_unique _ _ _ C1' C1)|apply (chance_unique _ _ _ C2' C2)]. }
    destruct (U n W) as [-> ->]. f_equal; [f_equal|].
    + destruct (Nat.ltb_spec (y_min m) n) as [L|L]; [|reflexivity].
      assert (W1 : within (n - 1) (y_min m) (y_max m)) by (destruct W as [_ W]; split; [lia|destruct (y_max m); [lia|exact I]]).
      rewrite (proj1 (U _ W1)). reflexivity.
    + destruct (outside (n + 1) (y_min m) (y_max m)) eqn:O; [reflexivity|]. apply outside_within in O. rewrite (proj2 (U _ O)). reflexivity.
  - intros H. exists b, d. auto.
Qed.

(** The binomial numbers *)
Lemma binom_next N j : (j < N)%nat -> Binomial.C N (j + 1) * INR (j + 1) = Binomial.C N j * INR (N - j).
Proof.
  intros L. unfold Binomial.C. replace (N - j)%nat with (S (N - (j + 1))) by lia. replace (j + 1)%nat with (S j) by lia.
  rewrite !fact_simpl, !mult_INR. pose proof (INR_fact_neq_0 j). pose proof (INR_fact_neq_0 (N - S j)).
  assert (INR (S j) <> 0) by (apply not_0_INR; lia). assert (INR (S (N - S j)) <> 0) by (apply not_0_INR; lia). field. auto.
Qed.
Lemma binom_0 N : Binomial.C N 0 = 1.
Proof. unfold Binomial.C. rewrite Nat.sub_0_r. cbn [fact]. change (INR 1) with 1. field. apply INR_fact_neq_0. Qed.
Lemma binom_pos N j : 0 < Binomial.C N j.
Proof. unfold Binomial.C. apply Rdiv_lt_0_compat; [apply INR_fact_lt_0|]. apply Rmult_lt_0_compat; apply INR_fact_lt_0. Qed.

(** With a highest size: the number of components that births and deaths settle to.  Of N = max + 1 - min sizes, the j-th has the weight
    of a binomial distribution, N over j; for a polynomial it is N over j+1. *)
Theorem C79_law_uniform k size min mx dynamic m w :
  construct k size min (Some mx) None dynamic = Some m -> isDyna k dynamic min (Some mx) = true ->
  let N := (mx + 1 - min)%nat in let s := inComp k 0 in
  (invariant m w <-> forall j, (j < N)%nat -> w (min + j)%nat * Binomial.C N s = w min * Binomial.C N (j + s)).
Proof.
  intros E Dy N s. assert (E0 := construct_inv _ _ _ _ _ _ _ E). destruct E0 as (Ek & Es & Em & Ex & W & Eg). destruct W as [W1 W2].
  set (b := fun n => if (n <? mx)%nat then 1 - (INR (inComp k n) - INR min) / INR N else 0).
  set (d := fun n => if (min <? n)%nat then (INR (inComp k n) - INR min) / INR N else 0).
  assert (NP : 0 < INR N) by (apply lt_0_INR; unfold N; lia).
  rewrite (invariant_cut m b d w); rewrite ?Em, ?Ex.
  - assert (IC : forall j, INR (inComp k (min + j)) - INR min = INR (j + s)).
    { intros j. unfold s. rewrite <- minus_INR by (unfold inComp; destruct k; lia). f_equal. unfold inComp. destruct k; lia. }
    assert (ST : forall j, (j + 1 < N)%nat -> (w (min + j)%nat * b (min + j)%nat = w (min + j + 1)%nat * d (min + j + 1)%nat
                <-> w (min + j)%nat * INR (N - (j + s)) = w (min + j + 1)%nat * INR (j + 1 + s))).
    { intros j L. unfold b, d. destruct (Nat.ltb_spec (min + j) mx); [|unfold N in L; lia]. destruct (Nat.ltb_spec min (min + j + 1)); [|lia].
      replace (min + j + 1)%nat with (min + (j + 1))%nat by lia. rewrite !IC.
      rewrite minus_INR by (unfold s; destruct k; cbn; lia). split; intros H1.
      - apply (f_equal (fun x => x * INR N)) in H1. unfold Rdiv in H1.
        replace (w (min + j)%nat * (1 - INR (j + s) * / INR N) * INR N) with (w (min + j)%nat * (INR N - INR (j + s))) in H1 by (field; lra).
        replace (w (min + (j + 1))%nat * (INR (j + 1 + s) * / INR N) * INR N) with (w (min + (j + 1))%nat * INR (j + 1 + s)) in H1 by (field; lra).
        exact H1.
      - apply Rmult_eq_reg_r with (INR N); [|lra].
        replace (w (min + j)%nat * (1 - INR (j + s) / INR N) * INR N) with (w (min + j)%nat * (INR N - INR (j + s))) by (field; lra).
        rewrite H1. field. lra. }
    assert (BN : forall j, (j + 1 < N)%nat -> Binomial.C N (j + 1 + s) * INR (j + 1 + s) = Binomial.C N (j + s) * INR (N - (j + s))).
    { intros j L. replace (j + 1 + s)%nat with (j + s + 1)%nat by lia. apply binom_next. unfold s. destruct k; cbn; lia. }
    split.
    + intros H. induction j as [|j IH]; intros L; [rewrite Nat.add_0_r; cbn; ring|].
      assert (L1 : (j + 1 < N)%nat) by lia. specialize (IH ltac:(lia)).
      assert (Hj := H (min + j)%nat). rewrite (ST j L1) in Hj.
      assert (V1 : within (min + j) min (Some mx)) by (unfold N in L1; split; lia).
      assert (V2 : within (min + j + 1) min (Some mx)) by (unfold N in L1; split; lia). specialize (Hj V1 V2).
      replace (min + S j)%nat with (min + j + 1)%nat by lia. replace (S j + s)%nat with (j + 1 + s)%nat by lia.
      assert (PI : 0 < INR (j + 1 + s)) by (apply lt_0_INR; lia).
      apply Rmult_eq_reg_r with (INR (j + 1 + s)); [|lra].
      replace (w min * Binomial.C N (j + 1 + s) * INR (j + 1 + s)) with (w min * (Binomial.C N (j + 1 + s) * INR (j + 1 + s))) by ring.
      rewrite (BN j L1). replace (w (min + j + 1)%nat * Binomial.C N s * INR (j + 1 + s)) with (Binomial.C N s * (w (min + j + 1)%nat * INR (j + 1 + s))) by ring.
      rewrite <- Hj. replace (Binomial.C N s * (w (min + j)%nat * INR (N - (j + s)))) with ((w (min + j)%nat * Binomial.C N s) * INR (N - (j + s))) by ring.
      rewrite IH. ring.
    + intros H n [V1 V1'] [V2 V2']. replace n with (min + (n - min))%nat by lia. set (j := (n - min)%nat).
      assert (L1 : (j + 1 < N)%nat) by (unfold j, N; lia). apply (ST j L1).
      assert (H0 := H j ltac:(lia)). assert (H1 := H (j + 1)%nat L1). replace (min + (j + 1))%nat with (min + j + 1)%nat in H1 by lia.
      assert (Bs := binom_pos N s). apply Rmult_eq_reg_r with (Binomial.C N s); [|lra].
      replace (w (min + j)%nat * INR (N - (j + s)) * Binomial.C N s) with (w (min + j)%nat * Binomial.C N s * INR (N - (j + s))) by ring.
      replace (w (min + j + 1)%nat * INR (j + 1 + s) * Binomial.C N s) with (w (min + j + 1)%nat * Binomial.C N s * INR (j + 1 + s)) by ring.
      rewrite H0, H1. rewrite !Rmult_assoc, (BN j L1). reflexivity.
  - intros n Wn. destruct (C79_rates_uniform k n min mx dynamic _ _ (construct_resize _ _ _ _ _ _ _ n E Wn) Dy (reach_new _)) as [R1 R2].
    unfold ncomp in R1, R2. cbn [resize y_size y_kind] in R1, R2. rewrite Ek in R1, R2. split; [exact R1|exact R2].
  - split; lia.
  - unfold d. destruct (Nat.ltb_spec min min); [lia|reflexivity].
  - intros mx' X. injection X as <-. unfold b. destruct (Nat.ltb_spec mx mx); [lia|reflexivity].
Qed.
Print Assumptions C79_law_uniform.

(** Without a highest size: the weights w settle to; w(n+1) / w(n) = exp(-c/2) / (1 - exp(-(c+1)/2)) where c is the number of components at n. *)
Theorem C79_law_exponential k size min dynamic m w :
  construct k size min None None dynamic = Some m -> isDyna k dynamic min None = true ->
  (invariant m w <-> forall n, (min <= n)%nat ->
     w n * exp (- INR (inComp k n) / 2) = w (n + 1)%nat * (1 - exp (- INR (inComp k n + 1) / 2))).
Proof.
  intros E Dy. assert (E0 := construct_inv _ _ _ _ _ _ _ E). destruct E0 as (Ek & Es & Em & Ex & W & Eg).
  set (b := fun n => exp (- INR (inComp k n) / 2)).
  set (d := fun n => if (min <? n)%nat then 1 - exp (- INR (inComp k n) / 2) else 0).
  rewrite (invariant_cut m b d w); rewrite ?Em, ?Ex.
  - split; intros H n.
    + intros L. assert (Hn : w n * b n = w (n + 1)%nat * d (n + 1)%nat) by (apply H; split; auto; lia). unfold b, d in Hn.
      destruct (Nat.ltb_spec min (n + 1)); [|lia]. replace (inComp k (n + 1)) with (inComp k n + 1)%nat in Hn by (destruct k; cbn; lia). exact Hn.
    + intros [L _] _. unfold b, d. destruct (Nat.ltb_spec min (n + 1)); [|lia].
      replace (inComp k (n + 1)) with (inComp k n + 1)%nat by (destruct k; cbn; lia). apply H. exact L.
  - intros n Wn. destruct (C79_rates_exponential k n min dynamic _ _ (construct_resize _ _ _ _ _ _ _ n E Wn) Dy (reach_new _)) as [R1 R2].
    unfold ncomp in R1, R2. cbn [resize y_size y_kind] in R1, R2. rewrite Ek in R1, R2. split; [exact R1|exact R2].
  - split; [lia|exact I].
  - unfold d. destruct (Nat.ltb_spec min min); [lia|reflexivity].
  - intros mx X. discriminate.
Qed.
Print Assumptions C79_law_exponential.

(** A growth prior that is uniform over the sizes min ... max does not give the sizes the same weight: the equal weights are not kept by
    births and deaths, whenever there is more than one size. *)
Theorem C79_flat_refuted k size min mx dynamic m :
  construct k size min (Some mx) None dynamic = Some m -> isDyna k dynamic min (Some mx) = true -> (min < mx)%nat ->
  ~ invariant m (fun _ => 1).
Proof.
  intros E Dy L H. pose proof (C79_law_uniform k size min mx dynamic m (fun _ => 1) E Dy) as LW. cbv zeta in LW. apply proj1 in LW. specialize (LW H). clear H. rename LW into H. set (N := (mx + 1 - min)%nat) in *.
  assert (LN : (2 <= N)%nat) by (unfold N; lia). assert (B1 : Binomial.C N 1 = INR N).
  { assert (X := binom_next N 0 ltac:(lia)). rewrite binom_0 in X. cbn [Nat.add] in X. change (INR 1) with 1 in X. rewrite Nat.sub_0_r in X. lra. }
  assert (2 <= INR N) by (change 2 with (INR 2); apply le_INR; exact LN).
  destruct k.
  - specialize (H 1%nat ltac:(lia)). cbn [inComp Nat.add] in H. rewrite B1, binom_0 in H. lra.
  - specialize (H 1%nat ltac:(lia)). cbn [inComp Nat.add] in H. rewrite B1, binom_0 in H. lra.
  - specialize (H (N - 1)%nat ltac:(lia)). cbn [inComp] in H. replace (N - 1 + 1)%nat with N in H by lia.
    assert (Binomial.C N N = 1); [|lra]. unfold Binomial.C. rewrite Nat.sub_diag. cbn [fact]. change (INR 1) with 1. field. apply INR_fact_neq_0.
Qed.
Print Assumptions C79_flat_refuted.

(** The start: the size after the growing is that of the constructor plus the number of draws that allowed a birth, the next draw did not. *)
Theorem C79_start m us m' : startGrow m us = Some m' ->
  exists j, m' = resize m (y_size m + j) /\ (j < length us)%nat /\
    (forall i u, nth_error us i = Some u -> (i < j)%nat -> birthAllowed (resize m (y_size m + i)) u = true) /\
    (forall u, nth_error us j = Some u -> birthAllowed m' u = false).
Proof.
  revert m. induction us as [|u us IH]; intros m E; cbn in E; [discriminate|].
  assert (R0 : resize m (y_size m + 0) = m) by (rewrite Nat.add_0_r; destruct m; reflexivity).
  destruct (birthAllowed m u) eqn:B.
  - apply IH in E. destruct E as (j & E1 & L & H1 & H2). cbn [y_size resize] in *. exists (S j). split; [|split; [cbn; lia|split]].
    + rewrite E1. unfold resize. cbn. f_equal. lia.
    + intros [|i] v Hv Li; cbn in Hv; [injection Hv as <-; rewrite R0; exact B|].
      assert (X := H1 i v Hv ltac:(lia)). replace (y_size m + S i)%nat with (y_size m + 1 + i)%nat by lia. exact X.
    + intros v Hv. cbn in Hv. apply H2. exact Hv.
  - injection E as <-. exists 0%nat. split; [auto|split; [cbn; lia|split]].
    + intros i v _ Li. lia.
    + intros v Hv. cbn in Hv. injection Hv as <-. exact B.
Qed.
Print Assumptions C79_start.

(** A repeating or harmonic model with a highest size that is offered at its lowest size never starts with it (no random number but 0
    does that), although deaths do bring it there. *)
Theorem C79_start_refuted k min mx dynamic m u us m' :
  construct k min min (Some mx) None dynamic = Some m -> isDyna k dynamic min (Some mx) = true -> k <> Polynomial -> (min < mx)%nat ->
  0 < u < 1 -> startGrow m (u :: us) = Some m' ->
  (min < y_size m')%nat /\
  exists v, 0 < v < 1 /\ y_size (died (resize m (min + 1)) v) = min.
Proof.
  intros E Dy K L U S. assert (E0 := construct_inv _ _ _ _ _ _ _ E). destruct E0 as (Ek & Es & Em & Ex & W & Eg).
  rewrite Dy in Eg. assert (GP : exists p, growPrior None min (Some mx) = Some p).
  { unfold construct in E. destruct (outside min min (Some mx)); [discriminate|]. rewrite Dy in E.
    destruct (growPrior None min (Some mx)) as [p|]; [eauto|discriminate]. }
  destruct GP as (p & Ep). rewrite Ep in Eg.
  assert (D : forall n v, draw (resize m n) v = Some (INR min + v * INR (mx + 1 - min))).
  { intros n v. unfold draw. cbn. rewrite Eg. apply uniform_draw; [lia|exact Ep]. }
  assert (NP : 0 < INR (mx + 1 - min)) by (apply lt_0_INR; lia).
  assert (B : birthAllowed m u = true).
  { unfold birthAllowed. replace (draw m u) with (draw (resize m min) u) by reflexivity. rewrite D, (ltb_max m mx Ex), allowed_true, Es.
    split; [|apply Nat.ltb_lt; exact L]. unfold ncomp. rewrite Ek, Es. replace (inComp k min) with min by (destruct k; cbn; congruence).
    assert (0 < u * INR (mx + 1 - min)) by (apply Rmult_lt_0_compat; lra). lra. }
  split.
  - cbn in S. rewrite B in S. apply C79_start in S. destruct S as (j & -> & _). cbn. lia.
  - exists (/ 2 * / INR (mx + 1 - min)).
    assert (N1 : 1 <= INR (mx + 1 - min)) by (change 1 with (INR 1); apply le_INR; lia).
    assert (I0 : 0 < / INR (mx + 1 - min)) by (apply Rinv_0_lt_compat; lra).
    assert (I1 : / INR (mx + 1 - min) <= 1) by (rewrite <- Rinv_1; apply Rinv_le_contravar; lra).
    split; [lra|]. unfold died. replace (deathAllowed (resize m (min + 1)) (/ 2 * / INR (mx + 1 - min))) with true; [cbn; lia|].
    symmetry. unfold deathAllowed. rewrite D, ltb_in. cbn [resize y_min y_size]. rewrite Em, allowed_true. split; [|apply Nat.ltb_lt; lia].
    unfold ncomp. cbn [resize y_kind y_size]. rewrite Ek. replace (inComp k (min + 1)) with (min + 1)%nat by (destruct k; cbn; congruence).
    rewrite Rmult_assoc, Rinv_l by lra. rewrite plus_INR. change (INR 1) with 1. lra.
Qed.
Print Assumptions C79_start_refuted.

(** An harmonic model with lowest order 0 that has lost its last component cannot be copied, while every engine starts with a copy of
    the walker. *)
Theorem C79_copy_refuted : exists m u, construct Harmonic 1 0 (Some 1%nat) None true = Some m /\ 0 < u < 1 /\
  y_size (died m u) = 0%nat /\ copy (died m u) = None.
Proof.
  assert (W : within 1 0 (Some 1%nat)) by (split; lia).
  destruct (proj2 (C79_construct Harmonic 1 0 (Some 1%nat) true) W) as (m & E). exists m, (1 / 4).
  assert (E0 := construct_inv _ _ _ _ _ _ _ E). destruct E0 as (Ek & Es & Em & Ex & _ & Eg). cbn [isDyna] in Eg.
  assert (B : deathAllowed m (1 / 4) = true).
  { unfold deathAllowed, draw. rewrite Eg. destruct (growPrior None 0 (Some 1%nat)) as [p|] eqn:Ep.
    - rewrite (uniform_draw 0 1 p (1 / 4) ltac:(lia) Ep), ltb_in, allowed_true, Em, Es. unfold ncomp. rewrite Ek, Es. cbn. split; [lra|reflexivity].
    - exfalso. unfold construct in E. cbn [outside isDyna Nat.ltb Nat.leb orb] in E. rewrite Ep in E. discriminate. }
  split; [exact E|]. split; [lra|]. unfold died. rewrite B. unfold copy, resize. cbn [y_size y_kind]. rewrite Es, Ek. split; reflexivity.
Qed.
Print Assumptions C79_copy_refuted.

(** A repeating model that is not dynamic cannot be copied at all: it has no growth prior. *)
Theorem C79_static_refuted size min max gp dynamic m :
  construct Repeating size min max gp dynamic = Some m -> isDyna Repeating dynamic min max = false -> copy m = None.
Proof.
  intros E Dy. apply construct_inv in E. destruct E as (_ & _ & _ & _ & _ & Eg). rewrite Dy in Eg. unfold copy. rewrite Eg.
  destruct (outside _ _ _); reflexivity.
Qed.
Print Assumptions C79_static_refuted.

(** A repeating model without growth prior, which never grows nor shrinks, is one that is declared static or has one size only. *)
Theorem C79_dynamic k size min max gp dynamic m :
  construct k size min max gp dynamic = Some m ->
  (y_grow m = None <-> k = Repeating /\ (dynamic = false \/ exists mx, max = Some mx /\ (mx <= min)%nat)).
Proof.
  unfold construct. destruct (outside size min max); [discriminate|]. unfold isDyna.
  destruct k; [ | destruct (growPrior gp min max); [|discriminate]; intros [= <-]; cbn; split; [discriminate|intros [? _]; discriminate].. ].
  all: idtac.
  destruct dynamic; cbn [andb].
  - destruct max as [mx|].
    + destruct (Nat.ltb_spec min mx) as [L|L].
      * destruct (growPrior gp min (Some mx)); [|discriminate]. intros [= <-]. cbn. split; [discriminate|]. intros [_ [?|(mx' & E & L')]]; [discriminate|]. injection E as <-. lia.
      * intros [= <-]. cbn. split; [|reflexivity]. intros _. split; [reflexivity|right]. exists mx. auto.
    + destruct (growPrior gp min None); [|discriminate]. intros [= <-]. cbn. split; [discriminate|]. intros [_ [?|(mx' & E & L')]]; discriminate.
  - intros [= <-]. cbn. split; [|reflexivity]. intros _. split; [reflexivity|left; reflexivity].
Qed.
Print Assumptions C79_dynamic.

(** A model with 1 to 3 components: the weights of the law are 1, 3, 3 when it is repeating and 3, 3, 1 for a polynomial of degree 1 to 3. *)
Example C79_example :
  (exists m, construct Repeating 1 1 (Some 3%nat) None true = Some m /\ isDyna Repeating true 1 (Some 3%nat) = true /\
     invariant m (fun n => match n with 1%nat => 1 | 2%nat => 3 | _ => 3 end)) /\
  (exists m, construct Polynomial 1 1 (Some 3%nat) None true = Some m /\ invariant m (fun n => match n with 1%nat => 3 | 2%nat => 3 | _ => 1 end)) /\
  (exists m, construct Repeating 2 2 (Some 2%nat) None true = Some m /\ isDyna Repeating true 2 (Some 2%nat) = false /\ copy m = None).
Proof.
  assert (B1 : Binomial.C 3 0 = 1) by apply binom_0.
  assert (B2 : Binomial.C 3 1 = 3) by (unfold Binomial.C; cbn; field).
  assert (B3 : Binomial.C 3 2 = 3) by (unfold Binomial.C; cbn; field).
  assert (B4 : Binomial.C 3 3 = 1) by (unfold Binomial.C; cbn; field).
  split; [|split].
  - destruct (proj2 (C79_construct Repeating 1 1 (Some 3%nat) true)) as (m & E); [split; lia|]. exists m. split; [exact E|]. split; [reflexivity|].
    match goal with |- invariant m ?w => pose proof (C79_law_uniform _ _ _ _ _ m w E eq_refl) as LW end. cbv zeta in LW. apply proj2 in LW. apply LW. clear LW. cbn [inComp Nat.add Nat.sub]. intros j L.
    destruct j as [|[|[|j]]]; cbn [Nat.add]; rewrite ?B1, ?B2, ?B3, ?B4; try lra. lia.
  - destruct (proj2 (C79_construct Polynomial 1 1 (Some 3%nat) true)) as (m & E); [split; lia|]. exists m. split; [exact E|].
    match goal with |- invariant m ?w => pose proof (C79_law_uniform _ _ _ _ _ m w E eq_refl) as LW end. cbv zeta in LW. apply proj2 in LW. apply LW. clear LW. cbn [inComp Nat.add Nat.sub]. intros j L.
    destruct j as [|[|[|j]]]; cbn [Nat.add]; rewrite ?B1, ?B2, ?B3, ?B4; try lra. lia.
  - destruct (proj2 (C79_construct Repeating 2 2 (Some 2%nat) true)) as (m & E); [split; lia|]. exists m. split; [exact E|]. split; [reflexivity|].
    apply (C79_static_refuted _ _ _ _ _ _ E eq_refl).
Qed.
