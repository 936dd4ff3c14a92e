(** Property theorems about priors: C21, C22, C23, C24. *)
From Coquelicot Require Import Coquelicot.
From Coq Require Import Reals Bool List Lra Lia.
From Verif Require Import L_Erf M_Prior P_Prior P_PriorD.
Import ListNotations.
Local Open Scope R_scope.

(** ** C21 : unit and domain are each other's inverse *)

Lemma mkPrior_none k p : mkPrior k None None = Some p ->
  p_kind p = k /\ p_circ p = false /\ p_limited p = false /\ p_low p = lowOf k None /\ p_high p = p_infty /\ p_limint p = 1.
Proof.
  intro H. apply new_set in H. unfold setLimits in H. cbn [fresh p_kind p_lodom p_hidom p_limited p_circ p_umin p_urng p_limint] in H.
  destruct (negb _) in H; [discriminate|].
  assert (L : limitedIntegral k None = 1) by (unfold limitedIntegral; ring).
  destruct (domain2Unit _ p_infty) in H; [destruct (domain2Unit _ _) in H|]; injection H as <-; cbn; repeat split; auto; exact L.
Qed.

(** Without limits. *)
Theorem C21_unlimited : forall k p, kok k -> mkPrior k None None = Some p ->
  (forall d, dom k d -> exists u, domain2Unit p (Finite d) = Some u /\ unit2Domain p u = Some d) /\
  (forall u, rng k u -> exists d, unit2Domain p u = Some d /\ dom k d /\ domain2Unit p (Finite d) = Some u).
Proof.
  intros k p K H. apply mkPrior_none in H. destruct H as (E1 & E2 & E3 & _). split.
  - intros d D. exists (cdf k d). unfold domain2Unit, unit2Domain. rewrite E1, E2, E3. cbn [d2uE].
    rewrite d2u_cdf, u2d_cdf by assumption. auto.
  - intros u U. exists (u2d k u). destruct (cdf_u2d k u K U) as [A B].
    unfold domain2Unit, unit2Domain. rewrite E1, E2, E3. cbn [d2uE]. rewrite d2u_cdf, B by assumption. auto.
Qed.
Print Assumptions C21_unlimited.

Lemma leb_true a b : Rbar_le a b -> Rbar_leb a b = true.
Proof. unfold Rbar_leb. destruct (Rbar_le_dec a b); tauto. Qed.
Lemma ltb_true a b : Rbar_lt a b -> Rbar_ltb a b = true.
Proof. unfold Rbar_ltb. destruct (Rbar_lt_dec a b); tauto. Qed.
Lemma ltb_false a b : ~ Rbar_lt a b -> Rbar_ltb a b = false.
Proof. unfold Rbar_ltb. destruct (Rbar_lt_dec a b); tauto. Qed.

Example C21_unlimited_example : exists p, mkPrior (KGauss 1 2) None None = Some p.
Proof.
  unfold mkPrior. cbn [recenter]. unfold setLimits. cbn [fresh p_lodom p_hidom].
  rewrite leb_true by exact I. rewrite ltb_true by exact I. rewrite leb_true by exact I. cbn. eexists. reflexivity.
Qed.

(** With limits, set by the constructor or by any number of later calls of setLimits. *)
Theorem C21_limited : forall k l h p, kok k -> bounded k l h -> lastset k l h p ->
  (forall d, dom k d -> exists u, domain2Unit p (Finite d) = Some u /\ unit2Domain p u = Some d) /\
  (forall u, 0 < u < 1 \/ (0 <= u <= 1 /\ l <> None /\ h <> None) ->
     exists d, unit2Domain p u = Some d /\ domain2Unit p (Finite d) = Some u).
Proof.
  intros k l h p K B L. destruct (last_limited k l h p K B L) as (E & O & LB). split.
  - intros d D. apply (lim_round_d p _ _ d O LB). rewrite E. exact D.
  - intros u U. destruct (lim_round_u p _ _ u O LB) as (d & A1 & _ & _ & _ & A2).
    + destruct U as [U|(U & Q1 & Q2)]; [left; exact U|right]. split; [exact U|].
      destruct l, h; try congruence. split; reflexivity.
    + exists d. auto.
Qed.
Print Assumptions C21_limited.

(** two concrete priors for the theorems about limits *)
Lemma mk_two k l h : kok k -> l < h -> dom k l -> exists p, mkPrior k (Some (Some l, Some h)) None = Some p.
Proof.
  intros K L D. unfold mkPrior. cbn [recenter]. unfold setLimits.
  assert (CK : Rbar_leb (p_lodom (fresh k (limitedIntegral k (Some (Some l, Some h))))) (Finite l) && Rbar_ltb (Finite l) (Finite h) &&
     Rbar_leb (Finite h) (p_hidom (fresh k (limitedIntegral k (Some (Some l, Some h))))) = true).
  { rewrite (ltb_true (Finite l)) by exact L. rewrite (leb_true (Finite h)) by exact I.
    rewrite leb_true; [reflexivity|]. destruct k; cbn; try exact I. cbn in D. lra. }
  rewrite CK. cbn [negb].
  destruct (domain2Unit _ _); [destruct (domain2Unit _ _)|]; eexists; reflexivity.
Qed.

Example C21_limited_example : exists p, lastset (KLaplace 0 1) (Some (-1)) (Some 3) p /\ bounded (KLaplace 0 1) (Some (-1)) (Some 3).
Proof.
  destruct (mk_two (KLaplace 0 1) (-1) 3) as (p & P); [cbn; lra|lra|exact I|].
  exists p. split; [constructor; exact P|left; discriminate].
Qed.

(** Circular priors: exact on the period, and periodic with period 1/3 in the unit. *)
Theorem C21_circular : forall k0 lims circ p, kok k0 ->
  mkPrior k0 lims (Some circ) = Some p -> p_circ p = true ->
  (k0 = KJeffreys -> exists l h, lims = Some (Some l, Some h) /\ circ = None /\ 0 < l) ->
  exists l h : R, p_low p = Finite l /\ p_high p = Finite h /\ l < h /\
  (forall d, l <= d < h -> exists u, domain2Unit p (Finite d) = Some u /\ 1 / 3 <= u < 2 / 3 /\ unit2Domain p u = Some d) /\
  (forall u, 1 / 3 <= u < 2 / 3 -> exists d, unit2Domain p u = Some d /\ l <= d < h /\ domain2Unit p (Finite d) = Some u) /\
  (forall u, unit2Domain p (u + 1 / 3) = unit2Domain p u) /\
  (forall u, exists d, unit2Domain p u = Some d /\ l <= d < h).
Proof.
  intros k0 lims circ p K E C J.
  destruct (circ_new_limited k0 lims circ p K E C J) as (l & h & Kp & L1 & H1 & LH & LB).
  exists l, h. split; [exact L1|]. split; [exact H1|]. split; [exact LH|].
  assert (O : okp (flat p)) by (split; [exact Kp|cbn; rewrite L1, H1; exact LH]).
  assert (U2 : forall u, unit2Domain p u = unit2Domain (flat p) (mod1 (u * 3))).
  { intro u. unfold unit2Domain at 1. rewrite C. unfold unit2Domain. destruct LB as (_ & Q & _). rewrite Q. cbn. reflexivity. }
  assert (D2 : forall d, domain2Unit p d = option_map (fun x => (x + 1) / 3) (domain2Unit (flat p) d)).
  { intro d. unfold domain2Unit at 1. rewrite C. unfold domain2Unit. destruct LB as (_ & Q & _). rewrite Q. cbn. reflexivity. }
  assert (Dm : forall d, l <= d -> dom (p_kind (flat p)) d).
  { intros d D. destruct (p_kind (flat p)) eqn:PK; cbn; auto.
    destruct LB as (_ & _ & _ & _ & a & b & A & _). rewrite PK in A. cbn in A. destruct (Rle_dec l 0); [discriminate|lra]. }
  assert (UD : forall u, 0 <= u < 1 -> exists d, unit2Domain (flat p) u = Some d /\ l <= d < h /\ domain2Unit (flat p) (Finite d) = Some u).
  { intros u U. destruct (lim_round_u (flat p) _ _ u O LB) as (d & A1 & A2 & A3 & A4 & A5).
    - right. split; [lra|split; reflexivity].
    - exists d. split; [exact A1|]. split; [|exact A5]. cbn in A3, A4. split; [exact A3|].
      destruct A4 as [A4|A4]; [exact A4|exfalso].
      destruct (lim_round_u (flat p) _ _ 1 O LB) as (d1 & B1 & B2 & B3 & B4 & B5); [right; split; [lra|split; reflexivity]|].
      assert (d < d1).
      { apply (lim_incr (flat p) (Finite l) (Finite h) u 1 d d1 O LB); auto; try lra; right; (split; [lra|split; reflexivity]). }
      cbn in B4. lra. }
  assert (DU : forall d, l <= d < h -> exists u, domain2Unit (flat p) (Finite d) = Some u /\ 0 <= u < 1 /\ unit2Domain (flat p) u = Some d).
  { intros d D.
    destruct (lim_d2u_in (flat p) _ _ d O LB) as (u & E1 & U); [apply Dm; lra|cbn; lra|cbn; lra|].
    destruct (lim_round_d (flat p) _ _ d O LB) as (u' & E2 & E3); [apply Dm; lra|].
    rewrite E1 in E2; injection E2 as <-. exists u. split; [exact E1|]. split; [|exact E3].
    split; [lra|]. destruct U as [U0 U1]. destruct U1 as [U1|U1]; [exact U1|exfalso]. subst u.
    destruct LB as (Z1 & Z2 & _ & _ & a & b & A & B & Z3 & Z4).
    unfold unit2Domain, limitedU2D in E3. rewrite Z1, Z2, Z3, Z4 in E3. injection E3 as E3.
    replace (1 * (b - a) + a) with b in E3 by ring.
    cbn in B. apply d2u_inv in B. destruct B as [DB EB]. rewrite EB in E3. rewrite u2d_cdf in E3 by assumption. lra. }
  split; [|split; [|split]].
  - intros d D. destruct (DU d D) as (u & E1 & U & E2). exists ((u + 1) / 3).
    split; [rewrite D2, E1; reflexivity|]. split; [lra|].
    rewrite U2, (mod1_sub _ 1); [|lra]. replace ((u + 1) / 3 * 3 - 1) with u by field. exact E2.
  - intros u U. destruct (UD (u * 3 - 1)) as (d & E1 & D & E2); [lra|]. exists d.
    split; [rewrite U2, (mod1_sub _ 1); [exact E1|lra]|]. split; [exact D|].
    rewrite D2, E2. cbn. f_equal. field.
  - intro u. rewrite !U2. f_equal. replace ((u + 1 / 3) * 3) with (u * 3 + 1) by field. apply mod1_plus1.
  - intro u. destruct (UD (mod1 (u * 3)) (mod1_range _)) as (d & E1 & D & _). exists d. rewrite U2. auto.
Qed.
Print Assumptions C21_circular.

Example C21_circular_example : exists p, mkPrior KUniform None (Some (Some 5)) = Some p /\ p_circ p = true.
Proof.
  unfold mkPrior. cbn [recenter]. unfold setLimits. cbn [fresh p_lodom p_hidom].
  rewrite leb_true by exact I. rewrite ltb_true by (cbn; lra). rewrite leb_true by exact I. cbn. eexists. split; reflexivity.
Qed.

(** ExponentialPrior is the Laplace prior with center 0 and limits [0,hilimit]. *)
Theorem C21_exponential : forall s hi p, 0 < s -> mkExponential s hi = Some p ->
  (forall d, 0 <= d -> exists u, domain2Unit p (Finite d) = Some u /\ unit2Domain p u = Some d) /\
  (forall u, 0 < u < 1 -> exists d, unit2Domain p u = Some d /\ 0 <= d /\ domain2Unit p (Finite d) = Some u) /\
  (hi = None -> forall d, 0 <= d -> domain2Unit p (Finite d) = Some (1 - exp (- d / s))).
Proof.
  intros s hi p K E. unfold mkExponential in E.
  destruct (mkPrior (KLaplace 0 s) (Some (Some 0, hi)) None) as [q|] eqn:Q; [|discriminate]. injection E as <-.
  assert (B : bounded (KLaplace 0 s) (Some 0) hi) by (left; discriminate).
  destruct (last_limited (KLaplace 0 s) (Some 0) hi q K B (last_new _ _ _ q Q)) as (E & O & LB).
  split; [|split].
  - intros d D. apply (lim_round_d q _ _ d O LB). rewrite E. exact I.
  - intros u U. destruct (lim_round_u q _ _ u O LB (or_introl U)) as (d & A1 & _ & A2 & _ & A3). exists d. auto.
  - intros -> d D. destruct (lim_d2u q _ _ d LB) as (a & b & A & Bb & G); [rewrite E; exact I|].
    assert (Gq : domain2Unit q (Finite d) = Some (1 - exp (- d / s))); [|exact Gq].
    rewrite G, E. f_equal. rewrite E in A, Bb. cbn in A, Bb. injection Bb as <-.
    assert (A' : a = 0.5).
    { injection A as <-. replace ((0 - 0) / s) with 0 by (field; lra). rewrite Ropp_0, exp_0. destruct (Rlt_dec 0 0); lra. }
    rewrite A'. cbn. replace ((d - 0) / s) with (d / s) by (f_equal; ring).
    assert (0 <= d / s) by (apply Rmult_le_pos; [assumption|left; apply Rinv_0_lt_compat; assumption]).
    destruct (Rlt_dec (d / s) 0); [lra|]. replace (- d / s) with (- (d / s)) by (field; lra). lra.
Qed.
Print Assumptions C21_exponential.

Example C21_exponential_example : exists p, mkExponential 2 None = Some p.
Proof.
  unfold mkExponential, mkPrior. cbn [recenter]. unfold setLimits. cbn [fresh p_lodom p_hidom].
  rewrite leb_true by exact I. rewrite ltb_true by exact I. rewrite leb_true by exact I. cbn. eexists. reflexivity.
Qed.

(** ** C22 : samples respect the limits *)
Lemma notOut p x : Rbar_le (p_low p) (Finite x) -> Rbar_le (Finite x) (p_high p) -> isOut p x = false.
Proof.
  intros A B. unfold isOut. rewrite (ltb_false (Finite x)), ltb_false; [reflexivity| |].
  - intro. apply Rbar_lt_not_le in H. tauto.
  - intro. apply Rbar_lt_not_le in H. tauto.
Qed.

Theorem C22_in_limits : forall k l h p, kok k -> bounded k l h -> lastset k l h p ->
  p_low p = lowOf k l /\ p_high p = highOf h /\
  (forall u, 0 < u < 1 \/ (0 <= u <= 1 /\ l <> None /\ h <> None) ->
     exists x, unit2Domain p u = Some x /\ Rbar_le (p_low p) (Finite x) /\ Rbar_le (Finite x) (p_high p) /\
               isOut p x = false /\ stayInLimits p x = Finite x) /\
  (forall u v x y, (0 < u < 1 \/ (0 <= u <= 1 /\ l <> None /\ h <> None)) ->
     (0 < v < 1 \/ (0 <= v <= 1 /\ l <> None /\ h <> None)) ->
     unit2Domain p u = Some x -> unit2Domain p v = Some y -> u < v -> x < y).
Proof.
  intros k l h p K B L. destruct (last_limited k l h p K B L) as (E & O & LB).
  pose proof LB as (_ & _ & EL & EH & _). split; [exact EL|]. split; [exact EH|].
  assert (Cv : forall u, 0 < u < 1 \/ (0 <= u <= 1 /\ l <> None /\ h <> None) ->
     0 < u < 1 \/ 0 <= u <= 1 /\ is_finite (lowOf k l) /\ is_finite (highOf h)).
  { intros u [U|(U & Q1 & Q2)]; [left; exact U|right]. split; [exact U|]. destruct l, h; try congruence. split; reflexivity. }
  split.
  - intros u U. destruct (lim_round_u p _ _ u O LB (Cv u U)) as (d & A1 & _ & A2 & A3 & _).
    rewrite <- EL in A2. rewrite <- EH in A3. exists d. refine (conj A1 (conj A2 (conj A3 (conj _ _)))).
    + apply notOut; assumption.
    + unfold stayInLimits. destruct (Rbar_lt_dec (Finite d) (p_low p)) as [Z|_]; [apply Rbar_lt_not_le in Z; tauto|].
      destruct (Rbar_lt_dec (p_high p) (Finite d)) as [Z|_]; [apply Rbar_lt_not_le in Z; tauto|]. reflexivity.
  - intros u v x y U V. apply (lim_incr p _ _ u v x y O LB (Cv u U) (Cv v V)).
Qed.
Print Assumptions C22_in_limits.

Theorem C22_to_unit : forall k l h p d, kok k -> bounded k l h -> lastset k l h p ->
  Rbar_le (p_low p) (Finite d) -> Rbar_le (Finite d) (p_high p) ->
  (exists u, domain2Unit p (Finite d) = Some u /\ 0 <= u <= 1) /\
  (forall d' u u', Rbar_le (p_low p) (Finite d') -> d' < d ->
     domain2Unit p (Finite d) = Some u -> domain2Unit p (Finite d') = Some u' -> u' < u).
Proof.
  intros k l h p d K B L D1 D2. destruct (last_limited k l h p K B L) as (E & O & LB).
  pose proof LB as (_ & _ & EL & EH & _).
  assert (Dm : forall d, Rbar_le (p_low p) (Finite d) -> dom (p_kind p) d).
  { intros x X. rewrite E. destruct k; cbn; auto. destruct B as ((y & -> & Y) & _). rewrite EL in X. cbn in X. lra. }
  split.
  - apply (lim_d2u_in p _ _ d O LB); [auto|rewrite <- EL; assumption|rewrite <- EH; assumption].
  - intros d' u u' D' LT U U'.
    destruct (lim_d2u p _ _ d LB (Dm d D1)) as (a & b & A & Bb & G).
    destruct (lim_d2u p _ _ d' LB (Dm d' D')) as (a' & b' & A' & Bb' & G').
    rewrite A in A'; injection A' as <-. rewrite Bb in Bb'; injection Bb' as <-.
    rewrite U in G; injection G as ->. rewrite U' in G'; injection G' as ->.
    destruct O as [Kp O]. rewrite EL, EH in O. pose proof (d2uE_lt _ _ _ _ _ Kp A Bb O).
    apply div_lt; [lra|]. pose proof (cdf_incr (p_kind p) d' d Kp (Dm d' D') (Dm d D1) LT). lra.
Qed.
Print Assumptions C22_to_unit.

Example C22_example : exists p u x, lastset (KCauchy 1 2) (Some 0) (Some 3) p /\ u = 0.25 /\ unit2Domain p u = Some x /\ 0 <= x <= 3.
Proof.
  destruct (mk_two (KCauchy 1 2) 0 3) as (p & P); [cbn; lra|lra|exact I|].
  assert (L : lastset (KCauchy 1 2) (Some 0) (Some 3) p) by (constructor; exact P).
  destruct (C22_in_limits (KCauchy 1 2) (Some 0) (Some 3) p) as (EL & EH & H & _); [cbn; lra|left; discriminate|exact L|].
  destruct (H 0.25) as (x & X & A & B & _); [left; lra|]. rewrite EL in A. rewrite EH in B. cbn in A, B.
  exists p, 0.25, x. auto.
Qed.

(** At u = 0 a one-sided limit in the far tail is violated: the lowest value is put at center - 40 scale. *)
Theorem C22_far_tail_refuted : exists p x,
  lastset (KLaplace 0 1) None (Some (-50)) p /\ unit2Domain p 0 = Some x /\ isOut p x = true.
Proof.
  assert (exists p, mkPrior (KLaplace 0 1) (Some (None, Some (-50))) None = Some p) as (p & P).
  { unfold mkPrior. cbn [recenter]. unfold setLimits. cbn [fresh p_lodom p_hidom].
    rewrite leb_true by exact I. rewrite ltb_true by exact I. rewrite leb_true by exact I. cbn. eexists. reflexivity. }
  assert (L : lastset (KLaplace 0 1) None (Some (-50)) p) by (constructor; exact P).
  destruct (last_limited (KLaplace 0 1) None (Some (-50)) p) as (E & O & LB); [cbn; lra|right; discriminate|exact L|].
  destruct (lim_u2d p _ _ 0 LB) as (a & b & A & B & U). rewrite E in A, U. cbn in A. injection A as <-.
  exists p, (-40). split; [exact L|]. split.
  - rewrite U. f_equal. cbn. destruct (Req_EM_T (2 * (0 * (b - 0) + 0)) 0); lra.
  - pose proof LB as (_ & _ & _ & EH & _). unfold isOut. rewrite EH. cbn [highOf]. rewrite (ltb_true (Finite (-50))) by (cbn; lra). apply orb_true_r.
Qed.
Print Assumptions C22_far_tail_refuted.

(** ** C23 : density and cumulative *)
Definition val (o : option R) : R := match o with Some u => u | None => 0 end.

Lemma limint_diff k l h p a b : kok k -> mkPrior k (Some (l, h)) None = Some p -> bounded k l h ->
  d2uE k (lowOf k l) = Some a -> d2uE k (highOf h) = Some b ->
  match k with KUniform | KJeffreys => True | _ => p_limint p = b - a end.
Proof.
  intros K P B A Bb. destruct k; auto; rewrite (new_any_limint _ _ _ P); unfold limitedIntegral;
  destruct l as [l|], h as [h|]; cbn in A, Bb; try (injection A as <-); try (injection Bb as <-); cbn; try reflexivity.
Qed.

Lemma result_dens k l h p a b x : kok k -> bounded k l h -> mkPrior k (Some (l, h)) None = Some p ->
  d2uE k (lowOf k l) = Some a -> d2uE k (highOf h) = Some b -> a < b -> dom k x ->
  Rbar_le (p_low p) (Finite x) -> Rbar_le (Finite x) (p_high p) ->
  result p x = Some (dens k x / (b - a)).
Proof.
  intros K B P A Bb AB D L H.
  destruct (last_limited k l h p K B (last_new _ _ _ p P)) as (E & O & LB).
  pose proof (limint_diff k l h p a b K P B A Bb) as LI.
  destruct LB as (_ & _ & _ & _ & a' & b' & A' & B' & UM & UR). rewrite E in A', B'.
  rewrite A in A'; injection A' as <-. rewrite Bb in B'; injection B' as <-.
  pose proof (notOut p x L H) as NO. unfold result. rewrite E, UR, NO.
  destruct k; cbn in D, K; f_equal; try rewrite LI; cbn.
  - field. lra.
  - field. lra.
  - assert (0 < s * s + (x - c) * (x - c)) by (pose proof (Rle_0_sqr (x - c)) as Q; unfold Rsqr in Q; nra). pose proof PI_RGT_0. field. lra.
  - assert (0 < sqrt (2 * PI)) by (apply sqrt_lt_R0; pose proof PI_RGT_0; lra). field. lra.
Qed.

Lemma loc_gt (l : Rbar) (x : R) : Rbar_lt l (Finite x) -> locally x (fun y => Rbar_lt l (Finite y)).
Proof. intro H. apply open_Rbar_gt. exact H. Qed.

Lemma d2u_derive k l h p a b (x : R) : kok k -> bounded k l h -> lastset k l h p ->
  d2uE k (lowOf k l) = Some a -> d2uE k (highOf h) = Some b -> a < b -> dom k x ->
  is_derive (fun d => val (domain2Unit p (Finite d))) x (dens k x / (b - a)).
Proof.
  intros K B P A Bb AB D.
  destruct (last_limited k l h p K B P) as (E & O & LB).
  destruct LB as (C & LM & _ & _ & a' & b' & A' & B' & UM & UR). rewrite E in A', B'.
  rewrite A in A'; injection A' as <-. rewrite Bb in B'; injection B' as <-.
  apply (is_derive_ext_loc (fun d => (cdf k d - a) / (b - a))).
  - assert (Q : forall y : R, dom k y -> (cdf k y - a) / (b - a) = val (domain2Unit p (Finite y))).
    { intros y Y. unfold domain2Unit, limitedD2U. rewrite C, LM, UR, UM, E. cbn [d2uE]. rewrite d2u_cdf by assumption. reflexivity. }
    destruct k; cbn in D; try (apply filter_forall; intro y; apply Q; exact I).
    assert (LC : locally x (fun y : R => Rbar_lt (Finite 0) (Finite y))) by (apply loc_gt; exact D).
    revert LC. apply filter_imp. intros y Y. apply Q. exact Y.
  - apply (is_derive_ext (fun d => / (b - a) * (cdf k d - a))); [intro y; change (/ (b - a) * (cdf k y - a) = (cdf k y - a) / (b - a)); unfold Rdiv; ring|].
    evar_last.
    { apply (is_derive_scal (fun d => cdf k d - a)). apply (is_derive_minus (cdf k) (fun _ => a)); [apply cdf_derive; assumption|apply (is_derive_const (K := R_AbsRing))]. }
    unfold minus, plus, opp, zero; cbn. unfold Rdiv. ring.
Qed.

Lemma low_dom k l h p (x : R) : kok k -> bounded k l h -> lastset k l h p -> Rbar_le (p_low p) (Finite x) -> dom k x.
Proof.
  intros K B L X. destruct (last_limited k l h p K B L) as (E & _ & (_ & _ & EL & _)).
  destruct k; cbn; auto. destruct B as ((y & -> & Y) & _). rewrite EL in X. cbn in X. lra.
Qed.

(** A limited prior as constructed. *)
Theorem C23_density : forall k l h p x, kok k -> bounded k l h -> mkPrior k (Some (l, h)) None = Some p ->
  Rbar_le (p_low p) (Finite x) -> Rbar_le (Finite x) (p_high p) ->
  exists r, result p x = Some r /\ is_derive (fun d => val (domain2Unit p (Finite d))) x r.
Proof.
  intros k l h p x K B P L H. pose proof (last_new _ _ _ p P) as LS.
  pose proof (low_dom k l h p x K B LS L) as D.
  destruct (last_limited k l h p K B LS) as (E & (Kp & O) & LB). pose proof LB as (_ & _ & EL & EH & a & b & A & Bb & _).
  rewrite E in A, Bb. rewrite EL, EH in O. pose proof (d2uE_lt _ _ _ _ _ K A Bb O) as AB.
  exists (dens k x / (b - a)). split; [apply (result_dens k l h p a b x); assumption|apply (d2u_derive k l h p a b x); assumption].
Qed.
Print Assumptions C23_density.

(** The same without limits, for the priors that are then normalised. *)
Theorem C23_density_unlimited : forall k p x, kok k -> k <> KUniform -> k <> KJeffreys -> mkPrior k None None = Some p ->
  exists r, result p x = Some r /\ is_derive (fun d => val (domain2Unit p (Finite d))) x r.
Proof.
  intros k p x K N1 N2 P. destruct (mkPrior_none k p P) as (E & C & LM & EL & EH & LI).
  assert (D : forall y, dom k y) by (intro; destruct k; try congruence; exact I).
  exists (dens k x). split.
  - assert (NO : isOut p x = false) by (apply notOut; [rewrite EL; destruct k; try congruence; exact I|rewrite EH; exact I]).
    unfold result. rewrite E, NO, LI. destruct k; try congruence; cbn in K; f_equal; cbn; rewrite ?Rmult_1_r; try reflexivity.
  - apply (is_derive_ext (cdf k)); [|apply cdf_derive; auto].
    intro y. unfold domain2Unit. rewrite C, LM, E. cbn [d2uE]. rewrite d2u_cdf by auto. reflexivity.
Qed.
Print Assumptions C23_density_unlimited.

(** With two limits the density integrates to one. *)
Theorem C23_integral : forall k l h p, kok k -> bounded k (Some l) (Some h) -> mkPrior k (Some (Some l, Some h)) None = Some p ->
  is_RInt (fun x => val (result p x)) l h 1.
Proof.
  intros k l h p K B P. pose proof (last_new _ _ _ p P) as LS.
  destruct (last_limited k (Some l) (Some h) p K B LS) as (E & (Kp & O) & LB).
  pose proof LB as (_ & _ & EL & EH & a & b & A & Bb & UM & UR). rewrite E in A, Bb.
  rewrite EL, EH in O. pose proof (d2uE_lt _ _ _ _ _ K A Bb O) as AB.
  cbn [lowOf highOf] in *. cbn in O.
  assert (D : forall x, l <= x -> dom k x) by (intros; apply (low_dom k (Some l) (Some h) p x K B LS); rewrite EL; assumption).
  apply (is_RInt_ext (fun x => dens k x / (b - a))).
  - intros x X. rewrite Rmin_left, Rmax_right in X by lra.
    rewrite (result_dens k (Some l) (Some h) p a b x); auto; [apply D; lra|rewrite EL; cbn; lra|rewrite EH; cbn; lra].
  - evar_last.
    { apply (is_RInt_derive (fun d => val (domain2Unit p (Finite d))) (fun x => dens k x / (b - a))).
      - intros x X. rewrite Rmin_left, Rmax_right in X by lra. apply (d2u_derive k (Some l) (Some h) p a b x); auto. apply D; lra.
      - intros x X. rewrite Rmin_left, Rmax_right in X by lra.
        apply (continuous_ext (fun x => / (b - a) * dens k x)); [intro y; change (/ (b - a) * dens k y = dens k y / (b - a)); unfold Rdiv; ring|].
        apply (continuous_scal_r (/ (b - a)) (dens k)). apply dens_cont; [exact K|apply D; lra]. }
    destruct (lim_d2u p _ _ l LB) as (a1 & b1 & A1 & B1 & G1); [rewrite E; apply D; lra|].
    destruct (lim_d2u p _ _ h LB) as (a2 & b2 & A2 & B2 & G2); [rewrite E; apply D; lra|].
    rewrite E in *. rewrite A in A1, A2; injection A1 as <-; injection A2 as <-. rewrite Bb in B1, B2; injection B1 as <-; injection B2 as <-.
    rewrite G1, G2. cbn [val]. cbn [d2uE] in A, Bb. apply d2u_inv in A, Bb. destruct A as [_ <-], Bb as [_ <-].
    unfold minus, plus, opp; cbn. field. lra.
Qed.
Print Assumptions C23_integral.

Example C23_example : exists p x, mkPrior (KGauss 1 2) (Some (Some 0, Some 3)) None = Some p /\ x = 2 /\
  Rbar_le (p_low p) (Finite x) /\ Rbar_le (Finite x) (p_high p) /\ bounded (KGauss 1 2) (Some 0) (Some 3).
Proof.
  destruct (mk_two (KGauss 1 2) 0 3) as (p & P); [cbn; lra|lra|exact I|].
  destruct (last_limited (KGauss 1 2) (Some 0) (Some 3) p) as (E & O & (_ & _ & EL & EH & _)); [cbn; lra|left; discriminate|constructor; exact P|].
  exists p, 2. rewrite EL, EH. cbn. repeat split; try exact P; try lra. left; discriminate.
Qed.

(** partialLog is the derivative of the logarithm of the density, inside the limits (for the
    Laplace prior: off its center). *)
Lemma dens_log_derive k (x : R) : kok k -> dom k x -> (match k with KLaplace c _ => x <> c | _ => True end) ->
  is_derive (fun y => ln (dens k y)) x
    (match k with KUniform => 0 | KJeffreys => -1 / x | KLaplace c s => if Rlt_dec c x then -1 / s else 1 / s
     | KCauchy c s => -2 * (x - c) / (s * s + (x - c) * (x - c)) | KGauss c s => - (x - c) / (s * s) end).
Proof.
  destruct k; cbn [kok dom dens]; intros K D N.
  - apply (is_derive_ext (fun _ => 0)); [intro; rewrite ln_1; reflexivity|auto_derive; [auto|reflexivity]].
  - apply (is_derive_ext_loc (fun y => - ln y)).
    + assert (LC : locally x (fun y : R => Rbar_lt (Finite 0) (Finite y))) by (apply loc_gt; exact D).
      revert LC. apply filter_imp. intros y Y. cbn in Y. unfold Rdiv. rewrite Rmult_1_l, ln_Rinv by assumption. reflexivity.
    + auto_derive; [exact D|]. field. lra.
  - assert (LE : forall y, ln (0.5 * exp (- Rabs ((y - c) / s)) / s) = ln (0.5 / s) - Rabs (y - c) / s).
    { intro y. replace (0.5 * exp (- Rabs ((y - c) / s)) / s) with (0.5 / s * exp (- Rabs ((y - c) / s))) by (unfold Rdiv; ring).
      rewrite ln_mult; [|apply Rdiv_lt_0_compat; lra|apply exp_pos]. rewrite ln_exp.
      unfold Rdiv. rewrite Rabs_mult, (Rabs_right (/ s)); [ring|]. left. apply Rinv_0_lt_compat. exact K. }
    apply (is_derive_ext (fun y => ln (0.5 / s) - Rabs (y - c) / s)); [intro; symmetry; apply LE|].
    destruct (Rlt_dec c x) as [G|G].
    + apply (is_derive_ext_loc (fun y => ln (0.5 / s) - (y - c) / s)).
      * assert (LC : locally x (fun y : R => Rbar_lt (Finite c) (Finite y))) by (apply loc_gt; exact G).
        revert LC. apply filter_imp. intros y Y. cbn in Y. rewrite Rabs_right by lra. reflexivity.
      * auto_derive; [auto|]. unfold Rdiv. ring.
    + apply (is_derive_ext_loc (fun y => ln (0.5 / s) - - (y - c) / s)).
      * assert (LC : locally x (fun y : R => Rbar_lt (Finite y) (Finite c))) by (apply open_Rbar_lt; cbn; lra).
        revert LC. apply filter_imp. intros y Y. cbn in Y. rewrite Rabs_left by lra. reflexivity.
      * auto_derive; [auto|]. unfold Rdiv. ring.
  - pose proof PI_RGT_0 as HP. 
    assert (PS : forall y, 0 < s * s + (y - c) * (y - c)) by (intro y; pose proof (Rle_0_sqr (y - c)) as Q; unfold Rsqr in Q; nra).
    apply (is_derive_ext (fun y => ln s - (ln (s * s + (y - c) * (y - c)) + ln PI))).
    { intro y. rewrite ln_div; [|assumption|apply Rmult_lt_0_compat; [apply PS|lra]]. rewrite ln_mult; [reflexivity|apply PS|lra]. }
    auto_derive; [apply PS|]. pose proof (PS x). unfold Rminus in *. field. lra.
  - assert (SP : 0 < sqrt (2 * PI)) by (apply sqrt_lt_R0; pose proof PI_RGT_0; lra).
    apply (is_derive_ext (fun y => ln (1 / sqrt (2 * PI) / s) + - / 2 * ((y - c) / s) * ((y - c) / s))).
    { intro y. rewrite ln_mult; [|apply Rdiv_lt_0_compat; [apply Rdiv_lt_0_compat; lra|lra]|apply exp_pos].
      rewrite ln_exp. replace (-0.5) with (- / 2) by lra. reflexivity. }
    auto_derive; [auto|]. field. lra.
Qed.

Lemma dens_pos k x : kok k -> dom k x -> 0 < dens k x.
Proof.
  destruct k; cbn; intros K D.
  - lra.
  - apply Rdiv_lt_0_compat; lra.
  - apply Rdiv_lt_0_compat; [pose proof (exp_pos (- Rabs ((x - c) / s))); lra|lra].
  - apply Rdiv_lt_0_compat; [assumption|]. apply Rmult_lt_0_compat; [|apply PI_RGT_0].
    pose proof (Rle_0_sqr (x - c)) as Q; unfold Rsqr in Q; nra.
  - apply Rmult_lt_0_compat; [|apply exp_pos]. apply Rdiv_lt_0_compat; [|lra]. apply Rdiv_lt_0_compat; [lra|].
    apply sqrt_lt_R0; pose proof PI_RGT_0; lra.
Qed.

Theorem C23_partial_log : forall k l h p x, kok k -> bounded k l h -> mkPrior k (Some (l, h)) None = Some p ->
  Rbar_lt (p_low p) (Finite x) -> Rbar_lt (Finite x) (p_high p) ->
  (match k with KLaplace c _ => x <> c | _ => True end) ->
  exists r, partialLog p x = Some r /\ is_derive (fun y => ln (val (result p y))) x r.
Proof.
  intros k l h p x K B P L H N. pose proof (last_new _ _ _ p P) as LS.
  destruct (last_limited k l h p K B LS) as (E & (Kp & O) & LB). pose proof LB as (_ & _ & EL & EH & a & b & A & Bb & _).
  rewrite E in A, Bb. rewrite EL, EH in O. pose proof (d2uE_lt _ _ _ _ _ K A Bb O) as AB.
  assert (D : forall y : R, Rbar_le (p_low p) (Finite y) -> dom k y) by (intro y; apply (low_dom k l h p y K B LS)).
  pose proof (notOut p x (Rbar_lt_le _ _ L) (Rbar_lt_le _ _ H)) as NO.
  exists (match k with KUniform => 0 | KJeffreys => -1 / x | KLaplace c s => if Rlt_dec c x then -1 / s else 1 / s
     | KCauchy c s => -2 * (x - c) / (s * s + (x - c) * (x - c)) | KGauss c s => - (x - c) / (s * s) end).
  split.
  - unfold partialLog. rewrite E, NO. destruct k; try reflexivity. destruct (Req_EM_T x c); [contradiction|reflexivity].
  - apply (is_derive_ext_loc (fun y => ln (dens k y) - ln (b - a))).
    + assert (L1 : locally x (fun y : R => Rbar_lt (p_low p) (Finite y))) by (apply loc_gt; exact L).
      assert (L2 : locally x (fun y : R => Rbar_lt (Finite y) (p_high p))) by (apply open_Rbar_lt; exact H).
      generalize (filter_and _ _ L1 L2). apply filter_imp. intros y [Y1 Y2].
      apply Rbar_lt_le in Y1, Y2. rewrite (result_dens k l h p a b y); auto. cbn [val].
      rewrite ln_div; [reflexivity|apply dens_pos; auto|lra].
    + evar_last.
      { apply (is_derive_minus (fun y => ln (dens k y)) (fun _ => ln (b - a))); [apply dens_log_derive; auto|apply (is_derive_const (K := R_AbsRing))].
        apply D. apply Rbar_lt_le. exact L. }
      unfold minus, plus, opp, zero; cbn. rewrite Ropp_0. apply Rplus_0_r.
Qed.
Print Assumptions C23_partial_log.

(** Limits set after construction leave the density unnormalised. *)
Lemma derive_neq (f : R -> R) (x a b : R) : is_derive f x a -> a <> b -> ~ is_derive f x b.
Proof. intros A N B. apply N. rewrite <- (is_derive_unique f x a A). apply is_derive_unique. exact B. Qed.

Theorem C23_limits_later_refuted : exists p0 p x r,
  mkPrior (KLaplace 0 1) None None = Some p0 /\ setLimits p0 (Some (Some 0, None)) = (p, false) /\
  isOut p x = false /\ result p x = Some r /\
  ~ is_derive (fun d => val (domain2Unit p (Finite d))) x r.
Proof.
  assert (exists p0, mkPrior (KLaplace 0 1) None None = Some p0) as (p0 & P0).
  { unfold mkPrior. cbn [recenter]. unfold setLimits. cbn [fresh p_lodom p_hidom].
    rewrite leb_true by exact I. rewrite ltb_true by exact I. rewrite leb_true by exact I. cbn. eexists. reflexivity. }
  destruct (mkPrior_none _ _ P0) as (E0 & C0 & LM0 & EL0 & EH0 & LI0).
  assert (exists p, setLimits p0 (Some (Some 0, None)) = (p, false) /\ p_limint p = 1) as (p & Sp & LI).
  { pose proof (any_plain _ _ (any_new _ _ _ P0)) as (_ & _ & LD & HD).
    unfold setLimits. rewrite LD, HD. rewrite leb_true by exact I. rewrite ltb_true by exact I. rewrite leb_true by exact I. cbn [andb negb].
    unfold domain2Unit, setu; cbn [p_circ p_limited p_kind]. rewrite C0, LM0, E0. cbn. eexists. split; [reflexivity|exact LI0]. }
  assert (K : kok (KLaplace 0 1)) by (cbn; lra).
  assert (B : bounded (KLaplace 0 1) (Some 0) None) by (left; discriminate).
  assert (LS : lastset (KLaplace 0 1) (Some 0) None p) by (apply (last_set _ _ _ p0); [apply (any_new _ None); exact P0|exact Sp]).
  destruct (last_limited _ _ _ p K B LS) as (E & O & LB). pose proof LB as (_ & _ & EL & EH & a & b & A & Bb & _).
  rewrite E in A, Bb. cbn in Bb. injection Bb as <-.
  assert (Ea : a = 0.5).
  { cbn in A. injection A as <-. replace ((0 - 0) / 1) with 0 by field. rewrite Ropp_0, exp_0. destruct (Rlt_dec 0 0); lra. }
  assert (NO : isOut p 1 = false) by (apply notOut; [rewrite EL; cbn; lra|rewrite EH; exact I]).
  exists p0, p, 1. eexists. split; [exact P0|]. split; [exact Sp|]. split; [exact NO|].
  split; [unfold result; rewrite E, NO, LI; reflexivity|].
  refine (derive_neq _ 1 (dens (KLaplace 0 1) 1 / (1 - a)) _ _ _).
  - apply (d2u_derive (KLaplace 0 1) (Some 0) None p a 1 1); auto; [lra|exact I].
  - rewrite Ea. cbn. pose proof (exp_pos (- Rabs ((1 - 0) / 1))) as EP. set (e := exp _) in *.
    replace (0.5 * e / 1 / (1 - 0.5)) with e by (replace 0.5 with (/ 2) by lra; field). replace (0.5 * e / (1 * 1)) with (0.5 * e) by field. apply Rgt_not_eq; lra.
Qed.
Print Assumptions C23_limits_later_refuted.

(** circular=True without limits: the mapping is unlimited, the density normalised on [-1/2,1/2]. *)
Theorem C23_circular_true_refuted : exists p x r,
  mkPrior (KLaplace 0 1) None (Some None) = Some p /\ isOut p x = false /\ result p x = Some r /\
  ~ is_derive (fun d => val (domain2Unit p (Finite d))) x r.
Proof.
  set (lims := Some (Some (0 - 1 / 2), Some (0 + 1 / 2))).
  assert (exists p, mkPrior (KLaplace 0 1) None (Some None) = Some p /\ p_kind p = KLaplace 0 1 /\ p_circ p = false /\ p_limited p = false /\
     p_low p = m_infty /\ p_high p = p_infty /\ p_limint p = limitedIntegral (KLaplace 0 1) lims) as (p & P & E & C & LM & EL & EH & LI).
  { unfold mkPrior. cbn [recenter]. unfold setLimits. cbn [fresh p_lodom p_hidom].
    rewrite leb_true by exact I. rewrite ltb_true by exact I. rewrite leb_true by exact I. cbn [andb negb].
    cbn -[limitedIntegral]. eexists. split; [reflexivity|]. cbn -[limitedIntegral]. repeat split; reflexivity. }
  assert (NO : isOut p 0 = false) by (apply notOut; [rewrite EL; exact I|rewrite EH; exact I]).
  exists p, 0. eexists. split; [exact P|]. split; [exact NO|].
  split; [unfold result; rewrite E, NO; reflexivity|].
  refine (derive_neq _ 0 (dens (KLaplace 0 1) 0) _ _ _).
  - apply (is_derive_ext (cdf (KLaplace 0 1))); [|apply cdf_derive; cbn; auto; lra].
    intro y. unfold domain2Unit. rewrite C, LM, E. cbn [d2uE]. reflexivity.
  - rewrite LI. unfold lims, limitedIntegral. cbn.
    replace ((0 - 0) / 1) with 0 by field. replace ((0 + 1 / 2 - 0) / 1) with (1 / 2) by field. replace ((0 - 1 / 2 - 0) / 1) with (- (1 / 2)) by field.
    rewrite Rabs_R0, Ropp_0, exp_0.
    destruct (Rlt_dec (1 / 2) 0); [lra|]. destruct (Rlt_dec (- (1 / 2)) 0); [|lra].
    pose proof (exp_lt1 (- (1 / 2)) ltac:(lra)). pose proof (exp_pos (- (1 / 2))).
    intro Q. set (e := exp (- (1 / 2))) in *.
    replace (1 - 0.5 * e - 0.5 * e) with (1 - e) in Q by lra.
    assert (0.5 * 1 / 1 * (1 * (1 - e)) = 0.5 * 1) by (rewrite Q; field; lra). lra.
Qed.
Print Assumptions C23_circular_true_refuted.

(** The uniform prior without limits has no density (an exception); the Jeffreys prior without
    limits returns 0 everywhere instead. *)
Theorem C23_unbound_jeffreys_refuted : exists p q,
  mkPrior KJeffreys None None = Some p /\ mkPrior KUniform None None = Some q /\
  (forall x, result q x = None) /\ (forall x, result p x = Some 0) /\
  (forall x : R, 0 < x -> is_derive (fun d => val (domain2Unit p (Finite d))) x (1 / x)).
Proof.
  unfold mkPrior. cbn [recenter]. unfold setLimits. cbn [fresh p_lodom p_hidom].
  rewrite leb_true by (cbn; lra). rewrite ltb_true by exact I. rewrite leb_true by exact I.
  rewrite leb_true by exact I. rewrite ltb_true by exact I. cbn [andb negb].
  cbn. eexists _, _. split; [reflexivity|]. split; [reflexivity|]. split; [reflexivity|]. split; [reflexivity|].
  intros x X. apply (is_derive_ext_loc (cdf KJeffreys)); [|apply (cdf_derive KJeffreys); [exact I|exact X]].
  assert (LC : locally x (fun y : R => Rbar_lt (Finite 0) (Finite y))) by (apply loc_gt; exact X).
  revert LC. apply filter_imp. intros y Y. cbn in Y. unfold domain2Unit. cbn. destruct (Rle_dec y 0); [lra|reflexivity].
Qed.
Print Assumptions C23_unbound_jeffreys_refuted.

(** ** C24 : limits and mapping agree at all times *)

(** After any history of setLimits (failing calls included) whose last call succeeds. *)
Theorem C24_history : forall k l h p, kok k -> bounded k l h -> lastset k l h p ->
  p_low p = lowOf k l /\ p_high p = highOf h /\
  domain2Unit p (p_low p) = Some 0 /\ domain2Unit p (p_high p) = Some 1.
Proof.
  intros k l h p K B L. destruct (last_limited k l h p K B L) as (E & (Kp & O) & LB).
  destruct LB as (C & LM & EL & EH & a & b & A & Bb & UM & UR). split; [exact EL|]. split; [exact EH|].
  rewrite E in A, Bb. rewrite EL, EH in O. pose proof (d2uE_lt _ _ _ _ _ K A Bb O) as AB.
  unfold domain2Unit, limitedD2U. rewrite C, LM, UR, UM, E, EL, EH, A, Bb. split; f_equal; field; lra.
Qed.
Print Assumptions C24_history.

Example C24_history_example : exists p0 p1 p2,
  mkPrior KUniform (Some (Some 0, Some 10)) None = Some p0 /\
  setLimits p0 (Some (Some 5, Some 4)) = (p1, true) /\            (* raises *)
  setLimits p1 (Some (Some 2, Some 6)) = (p2, false) /\
  lastset KUniform (Some 2) (Some 6) p2 /\ domain2Unit p2 (Finite 3) = Some (1 / 4).
Proof.
  set (q0 := mkP KUniform m_infty p_infty (Finite 0) (Finite 10) true false 0 (Some (10 - 0)) (10 - 0)).
  set (q1 := mkP KUniform m_infty p_infty (Finite 5) (Finite 4) true false 0 (Some (10 - 0)) (10 - 0)).
  assert (P0 : mkPrior KUniform (Some (Some 0, Some 10)) None = Some q0).
  { unfold mkPrior. cbn [recenter]. unfold setLimits. cbn [fresh p_lodom p_hidom].
    rewrite leb_true by exact I. rewrite ltb_true by (cbn; lra). rewrite leb_true by exact I. reflexivity. }
  assert (S1 : setLimits q0 (Some (Some 5, Some 4)) = (q1, true)).
  { unfold setLimits. cbn. rewrite leb_true by exact I. rewrite ltb_false by (cbn; lra). reflexivity. }
  assert (exists p2, setLimits q1 (Some (Some 2, Some 6)) = (p2, false) /\ domain2Unit p2 (Finite 3) = Some (1 / 4)) as (p2 & S2 & V).
  { unfold setLimits. cbn. rewrite leb_true by exact I. rewrite ltb_true by (cbn; lra). rewrite leb_true by exact I. cbn [andb negb].
    eexists. split; [reflexivity|]. unfold domain2Unit, limitedD2U. cbn. f_equal. field. }
  exists q0, q1, p2. refine (conj P0 (conj S1 (conj S2 (conj _ V)))).
  apply (last_set _ _ _ q1); [|exact S2].
  pose proof (any_set KUniform q0 (Some (Some 5, Some 4)) (any_new KUniform _ _ P0)) as Q. rewrite S1 in Q. exact Q.
Qed.

(** unsetLimits: the reported limits are gone, the mapping remains limited. *)
Theorem C24_unset_refuted : exists p, mkPrior KUniform (Some (Some 0, Some 10)) None = Some p /\
  p_low (unsetLimits p) = m_infty /\ p_high (unsetLimits p) = p_infty /\
  (forall u x, 0 <= u <= 1 -> unit2Domain (unsetLimits p) u = Some x -> 0 <= x <= 10).
Proof.
  unfold mkPrior. cbn [recenter]. unfold setLimits. cbn [fresh p_lodom p_hidom].
  rewrite leb_true by exact I. rewrite ltb_true by (cbn; lra). rewrite leb_true by exact I. cbn.
  eexists. split; [reflexivity|]. split; [reflexivity|]. split; [reflexivity|].
  intros u x U. unfold unit2Domain, limitedU2D. cbn. intro H. injection H as <-. lra.
Qed.
Print Assumptions C24_unset_refuted.

(** setAttributes(limits, scale) sets the limits with the old scale: the unit interval no longer
    covers the limits. *)
Theorem C24_scale_refuted : exists p0 p x, mkPrior (KCauchy 0 1) None None = Some p0 /\
  setAttributes p0 (Some (Some 0, Some 10)) (Some 10) = Some p /\
  p_high p = Finite 10 /\ unit2Domain p 1 = Some x /\ isOut p x = true.
Proof.
  unfold mkPrior. cbn [recenter]. unfold setLimits. cbn [fresh p_lodom p_hidom].
  rewrite leb_true by exact I. rewrite ltb_true by exact I. rewrite leb_true by exact I. cbn.
  eexists. eexists. exists 100. split; [reflexivity|].
  unfold setAttributes, setLimits. cbn.
  rewrite leb_true by exact I. rewrite ltb_true by (cbn; lra). rewrite leb_true by exact I. cbn.
  unfold setScale. cbn. destruct (Rle_dec 10 0); [lra|]. split; [reflexivity|]. cbn. split; [reflexivity|]. split.
  - unfold unit2Domain, limitedU2D. cbn. f_equal. pose proof PI_RGT_0.
    match goal with |- tan (?a) * 10 + 0 = 100 => replace a with (atan ((10 - 0) / 1)) by (field; lra) end.
    rewrite tan_atan. field.
  - unfold isOut. cbn. rewrite (ltb_true (Finite 10)) by (cbn; lra). apply orb_true_r.
Qed.
Print Assumptions C24_scale_refuted.

(** setLimits on a circular prior uses the circular mapping: new limits are not respected. *)
Theorem C24_circular_refuted : exists p0 p x, mkPrior KUniform None (Some (Some 3)) = Some p0 /\
  setLimits p0 (Some (Some 0, Some 6)) = (p, false) /\ p_low p = Finite 0 /\
  (forall u y, unit2Domain p u = Some y -> y < x) /\ x = 3.
Proof.
  unfold mkPrior. cbn [recenter]. unfold setLimits. cbn [fresh p_lodom p_hidom].
  rewrite leb_true by exact I. rewrite ltb_true by (cbn; lra). rewrite leb_true by exact I. cbn.
  eexists. eexists. exists 3. split; [reflexivity|].
  cbn. rewrite leb_true by exact I. rewrite ltb_true by (cbn; lra). rewrite leb_true by exact I.
  unfold domain2Unit, limitedD2U. cbn. split; [reflexivity|]. split; [reflexivity|]. split; [|reflexivity].
  intros u y H. unfold unit2Domain, limitedU2D in H. cbn in H. injection H as <-.
  pose proof (mod1_range (u * 3)). lra.
Qed.
Print Assumptions C24_circular_refuted.

(** A failing setLimits leaves the refused limits behind. *)
Theorem C24_failure_refuted : exists p0 p, mkPrior KUniform (Some (Some 0, Some 10)) None = Some p0 /\
  setLimits p0 (Some (Some 5, Some 4)) = (p, true) /\ p_low p = Finite 5 /\ p_high p = Finite 4 /\
  (forall x, isOut p x = true) /\ unit2Domain p 0 = Some 0.
Proof.
  unfold mkPrior. cbn [recenter]. unfold setLimits. cbn [fresh p_lodom p_hidom].
  rewrite leb_true by exact I. rewrite ltb_true by (cbn; lra). rewrite leb_true by exact I. cbn.
  eexists. eexists. split; [reflexivity|]. cbn.
  rewrite leb_true by exact I. rewrite ltb_false by (cbn; lra). cbn. split; [reflexivity|]. cbn.
  split; [reflexivity|]. split; [reflexivity|]. split.
  - intro x. unfold isOut. cbn. destruct (Rlt_dec x 5).
    + rewrite (ltb_true (Finite x)) by (cbn; lra). reflexivity.
    + rewrite (ltb_true (Finite 4)) by (cbn; lra). apply orb_true_r.
  - unfold unit2Domain, limitedU2D. cbn. f_equal. ring.
Qed.
Print Assumptions C24_failure_refuted.

(** Taking away one limit of a uniform prior by setLimits: the mapping is lost altogether. *)
Theorem C24_one_side_refuted : exists p0 p, mkPrior KUniform (Some (Some 0, Some 10)) None = Some p0 /\
  setLimits p0 (Some (Some 0, None)) = (p, false) /\
  (forall d, domain2Unit p (Finite d) = None) /\ (forall u, unit2Domain p u = None).
Proof.
  unfold mkPrior. cbn [recenter]. unfold setLimits. cbn [fresh p_lodom p_hidom].
  rewrite leb_true by exact I. rewrite ltb_true by (cbn; lra). rewrite leb_true by exact I. cbn.
  eexists. eexists. split; [reflexivity|]. cbn.
  rewrite leb_true by exact I. rewrite ltb_true by exact I. rewrite leb_true by exact I. cbn. split; [reflexivity|].
  split; intro; reflexivity.
Qed.
Print Assumptions C24_one_side_refuted.
