(** Kepler's equation E - e sin E = M: one solution, and its derivative. *)
From Coquelicot Require Import Coquelicot.
From Coq Require Import Reals Lra Lia Ranalysis5.
Local Open Scope R_scope.

Lemma sin_lip : forall a b, Rabs (sin a - sin b) <= Rabs (a - b).
Proof.
  intros a b. destruct (Rtotal_order a b) as [H|[->|H]].
  - destruct (MVT_cor2 sin cos a b H) as (c & E & _). { intros. apply derivable_pt_lim_sin. }
    rewrite <- (Rabs_Ropp (sin a - sin b)), <- (Rabs_Ropp (a - b)).
    replace (- (sin a - sin b)) with (sin b - sin a) by ring. replace (- (a - b)) with (b - a) by ring.
    rewrite E, Rabs_mult. pose proof (COS_bound c). assert (Rabs (cos c) <= 1) by (apply Rabs_le; lra).
    pose proof (Rabs_pos (b - a)). nra.
  - unfold Rminus. rewrite !Rplus_opp_r. lra.
  - destruct (MVT_cor2 sin cos b a H) as (c & E & _). { intros. apply derivable_pt_lim_sin. }
    rewrite E, Rabs_mult. pose proof (COS_bound c). assert (Rabs (cos c) <= 1) by (apply Rabs_le; lra).
    pose proof (Rabs_pos (a - b)). nra.
Qed.

Definition kfun (e M E : R) : R := E - e * sin E - M.

Lemma kfun_cont : forall e M, continuity (kfun e M).
Proof.
  intros. unfold kfun. apply continuity_minus; [apply continuity_minus|].
  - apply derivable_continuous, derivable_id.
  - apply continuity_mult; [apply continuity_const; intros x y; reflexivity|apply continuity_sin].
  - apply continuity_const. intros x y. reflexivity.
Qed.

Lemma kfun_zero : forall e M, Rabs e < 1 -> { E | kfun e M E = 0 }.
Proof.
  intros e M H.
  assert (H' : -1 < e < 1) by (apply Rabs_def2 in H; lra).
  destruct (IVT (kfun e M) (M - 2) (M + 2) (kfun_cont e M)) as (z & _ & Z).
  - lra.
  - unfold kfun. pose proof (SIN_bound (M - 2)). nra.
  - unfold kfun. pose proof (SIN_bound (M + 2)). nra.
  - exists z. exact Z.
Qed.

(** The eccentric anomaly that belongs to e and M *)
Definition kepler (e M : R) : R :=
  match Rlt_dec (Rabs e) 1 with left H => proj1_sig (kfun_zero e M H) | right _ => 0 end.

Lemma kepler_eq : forall e M, Rabs e < 1 -> kepler e M - e * sin (kepler e M) = M.
Proof.
  intros. unfold kepler. destruct (Rlt_dec (Rabs e) 1) as [L|L]; [|contradiction].
  destruct (kfun_zero e M L) as (z & Z). cbn. unfold kfun in Z. lra.
Qed.

(** How far two anomalies are apart *)
Lemma kepler_lip : forall e E1 E2, Rabs e < 1 ->
  (1 - Rabs e) * Rabs (E1 - E2) <= Rabs ((E1 - e * sin E1) - (E2 - e * sin E2)).
Proof.
  intros e E1 E2 H. pose proof (sin_lip E1 E2) as L.
  replace (E1 - e * sin E1 - (E2 - e * sin E2)) with ((E1 - E2) - e * (sin E1 - sin E2)) by ring.
  pose proof (Rabs_triang_inv (E1 - E2) (e * (sin E1 - sin E2))) as T. rewrite Rabs_mult in T.
  pose proof (Rabs_pos e). pose proof (Rabs_pos (E1 - E2)). nra.
Qed.

Lemma kepler_unique : forall e E1 E2, Rabs e < 1 -> E1 - e * sin E1 = E2 - e * sin E2 -> E1 = E2.
Proof.
  intros e E1 E2 H Q. pose proof (kepler_lip e E1 E2 H) as L. rewrite Q in L.
  replace (E2 - e * sin E2 - (E2 - e * sin E2)) with 0 in L by ring. rewrite Rabs_R0 in L.
  pose proof (Rabs_pos (E1 - E2)).
  assert (Z : Rabs (E1 - E2) = 0) by nra.
  destruct (Req_dec (E1 - E2) 0); [lra|]. apply Rabs_no_R0 in H1. lra.
Qed.

(** Slopes: f is differentiable at x when there is a continuous slope. *)
Definition slope (f : R -> R) (x l t : R) : R := if Req_EM_T t x then l else (f t - f x) / (t - x).

Lemma slope_eq : forall f x l t, f t - f x = slope f x l t * (t - x).
Proof. intros. unfold slope. destruct (Req_EM_T t x) as [->|]; [ring|field; lra]. Qed.

Lemma slope_cont : forall f x l, is_derive f x l -> continuity_pt (slope f x l) x.
Proof.
  intros f x l H. apply is_derive_Reals in H.
  intros eps He. destruct (H eps He) as (d & D). exists d. split; [apply cond_pos|].
  intros t ((_ & Ht) & Hd). simpl in *. unfold R_dist in *. unfold slope.
  destruct (Req_EM_T t x) as [->|]; [exfalso; apply Ht; reflexivity|]. destruct (Req_EM_T x x); [|contradiction].
  specialize (D (t - x)). replace (x + (t - x)) with t in D by ring. apply D; [lra|exact Hd].
Qed.

Lemma slope_derive : forall f x q, continuity_pt q x -> (exists d, 0 < d /\ forall t, Rabs (t - x) < d -> f t - f x = q t * (t - x)) ->
  is_derive f x (q x).
Proof.
  intros f x q C (d0 & D0 & E). apply is_derive_Reals. intros eps He.
  destruct (C eps He) as (d & D & Q). simpl in Q. unfold R_dist in Q.
  assert (P : 0 < Rmin d d0) by (apply Rmin_pos; lra).
  exists (mkposreal _ P). simpl. intros h Hh Hd.
  pose proof (Rmin_l d d0). pose proof (Rmin_r d d0).
  rewrite (E (x + h)); replace (x + h - x) with h by ring; [|lra].
  replace (q (x + h) * h / h - q x) with (q (x + h) - q x) by (field; lra).
  apply Q. split; [split; [exact Logic.I|intro; apply Hh; lra]|]. replace (x + h - x) with h by ring. lra.
Qed.

(** The eccentric anomaly along a path of eccentricities and mean anomalies. *)
Lemma kepler_derive : forall (ef Mf f : R -> R) (s de dM : R),
  is_derive ef s de -> is_derive Mf s dM -> Rabs (ef s) < 1 ->
  (exists d, 0 < d /\ forall t, Rabs (t - s) < d -> f t - ef t * sin (f t) = Mf t) ->
  is_derive f s ((dM + de * sin (f s)) / (1 - ef s * cos (f s))).
Proof.
  intros ef Mf f s de dM He HM H1 (d0 & D0 & K).
  assert (Ks : f s - ef s * sin (f s) = Mf s).
  { apply K. replace (s - s) with 0 by ring. rewrite Rabs_R0. exact D0. }
  assert (Cm : continuity_pt Mf s). { apply derivable_continuous_pt. exists dM. apply is_derive_Reals. exact HM. }
  assert (Ce : continuity_pt ef s). { apply derivable_continuous_pt. exists de. apply is_derive_Reals. exact He. }
  (* f is continuous in s *)
  assert (Cf : continuity_pt f s).
  { intros eps Heps. set (g := (1 - Rabs (ef s)) * eps / 2).
    assert (G : 0 < g) by (unfold g; apply Rmult_lt_0_compat; [apply Rmult_lt_0_compat|]; lra).
    destruct (Cm g G) as (d1 & D1 & Q1). destruct (Ce g G) as (d2 & D2 & Q2).
    exists (Rmin d0 (Rmin d1 d2)). split; [repeat apply Rmin_pos; lra|].
    intros t ((_ & Ht) & Hd). simpl in *. unfold R_dist in *.
    pose proof (Rmin_l d0 (Rmin d1 d2)). pose proof (Rmin_r d0 (Rmin d1 d2)). pose proof (Rmin_l d1 d2). pose proof (Rmin_r d1 d2).
    assert (A1 : Rabs (Mf t - Mf s) < g) by (apply Q1; split; [split; [exact Logic.I|exact Ht]|lra]).
    assert (A2 : Rabs (ef t - ef s) < g) by (apply Q2; split; [split; [exact Logic.I|exact Ht]|lra]).
    assert (Kt : f t - ef t * sin (f t) = Mf t) by (apply K; lra).
    pose proof (kepler_lip (ef s) (f t) (f s) H1) as L.
    replace (f t - ef s * sin (f t) - (f s - ef s * sin (f s))) with ((Mf t - Mf s) + (ef t - ef s) * sin (f t)) in L by lra.
    pose proof (Rabs_triang (Mf t - Mf s) ((ef t - ef s) * sin (f t))) as T. rewrite Rabs_mult in T.
    assert (S1 : Rabs (sin (f t)) <= 1) by (apply Rabs_le; pose proof (SIN_bound (f t)); lra).
    pose proof (Rabs_pos (ef t - ef s)). pose proof (Rabs_pos (sin (f t))).
    assert (Hlt : (1 - Rabs (ef s)) * Rabs (f t - f s) < (1 - Rabs (ef s)) * eps).
    { apply Rle_lt_trans with (1 := L). apply Rle_lt_trans with (1 := T).
      apply Rlt_le_trans with (g + g); [nra|]. unfold g. lra. }
    apply Rmult_lt_reg_l with (2 := Hlt). lra. }
  set (qm := slope Mf s dM). set (qe := slope ef s de). set (qs := slope sin (f s) (cos (f s))).
  set (q := fun t => (qm t + qe t * sin (f t)) / (1 - ef s * qs (f t))).
  assert (Hqs : forall y, Rabs (qs y) <= 1).
  { intros y. unfold qs, slope. destruct (Req_EM_T y (f s)).
    - apply Rabs_le. pose proof (COS_bound (f s)). lra.
    - assert (P : 0 < Rabs (y - f s)) by (apply Rabs_pos_lt; lra).
      unfold Rdiv. rewrite Rabs_mult, Rabs_inv. apply Rmult_le_reg_r with (Rabs (y - f s)); [exact P|].
      rewrite Rmult_assoc, Rinv_l, Rmult_1_r, Rmult_1_l by lra. apply sin_lip. }
  assert (Hden : forall y, 0 < 1 - ef s * qs y).
  { intros y. assert (Rabs (ef s * qs y) < 1).
    { rewrite Rabs_mult. pose proof (Hqs y). pose proof (Rabs_pos (ef s)). pose proof (Rabs_pos (qs y)). nra. }
    apply Rabs_def2 in H. lra. }
  replace ((dM + de * sin (f s)) / (1 - ef s * cos (f s))) with (q s).
  2:{ unfold q, qm, qe, qs, slope. destruct (Req_EM_T s s); [|contradiction]. destruct (Req_EM_T (f s) (f s)); [|contradiction]. reflexivity. }
  apply slope_derive.
  - unfold q. apply continuity_pt_div.
    + apply continuity_pt_plus; [apply slope_cont; exact HM|]. apply continuity_pt_mult; [apply slope_cont; exact He|].
      apply (continuity_pt_comp f sin); [exact Cf|apply continuity_sin].
    + apply continuity_pt_minus; [apply continuity_pt_const; intros x y; reflexivity|].
      apply continuity_pt_mult; [apply continuity_pt_const; intros x y; reflexivity|].
      apply (continuity_pt_comp f qs); [exact Cf|]. apply slope_cont. apply is_derive_Reals. apply derivable_pt_lim_sin.
    + specialize (Hden (f s)). lra.
  - exists d0. split; [exact D0|]. intros t Ht. specialize (K t Ht). unfold q.
    pose proof (slope_eq Mf s dM t) as E1. fold qm in E1. pose proof (slope_eq ef s de t) as E2. fold qe in E2.
    pose proof (slope_eq sin (f s) (cos (f s)) (f t)) as E3. fold qs in E3.
    specialize (Hden (f t)).
    apply Rmult_eq_reg_r with (1 - ef s * qs (f t)); [|lra].
    replace ((qm t + qe t * sin (f t)) / (1 - ef s * qs (f t)) * (t - s) * (1 - ef s * qs (f t)))
      with (qm t * (t - s) + qe t * (t - s) * sin (f t)) by (field; lra).
    rewrite <- E1, <- E2.
    replace ((f t - f s) * (1 - ef s * qs (f t))) with ((f t - f s) - ef s * (qs (f t) * (f t - f s))) by ring.
    rewrite <- E3. lra.
Qed.
