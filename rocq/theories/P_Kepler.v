(** Radius and true anomaly along a path. *)
From Coquelicot Require Import Coquelicot.
From Coq Require Import Reals Lra Lia.
From Verif Require Import L_Kepler M_Kepler.
Local Open Scope R_scope.

Lemma cc2_in : forall c, - (1 - / 10000000000) < c -> cc2 c = / (1 + c).
Proof. intros. unfold cc2. destruct (Rle_dec c (- (1 - / 10000000000))); [lra|]. unfold Rdiv. ring. Qed.

Lemma ta_atan : forall e c s, -1 < c -> trueAnomaly e c s = 2 * atan (sqrt ((1 + e) / (1 - e)) * s / (1 + c)).
Proof. intros. unfold trueAnomaly, arctan2. destruct (Rlt_dec 0 (1 + c)); [reflexivity|lra]. Qed.

Lemma kden : forall e x, Rabs e < 1 -> 0 < 1 - e * cos x.
Proof.
  intros. assert (Rabs (e * cos x) < 1).
  { rewrite Rabs_mult. assert (Rabs (cos x) <= 1) by (apply Rabs_le; pose proof (COS_bound x); lra).
    pose proof (Rabs_pos e). pose proof (Rabs_pos (cos x)). nra. }
  apply Rabs_def2 in H0. lra.
Qed.

Lemma ef_pos : forall e, Rabs e < 1 -> 0 < (1 + e) / (1 - e).
Proof. intros. apply Rabs_def2 in H. apply Rdiv_lt_0_compat; lra. Qed.

Section Path.
  Context (ef Mf : R -> R) (s de dM : R).
  Context (He : is_derive ef s de) (HM : is_derive Mf s dM) (H1 : Rabs (ef s) < 1).
  Let f (t : R) := kepler (ef t) (Mf t).

  Lemma near_lt : exists d, 0 < d /\ forall t, Rabs (t - s) < d -> Rabs (ef t) < 1.
  Proof.
    assert (Ce : continuity_pt ef s). { apply derivable_continuous_pt. exists de. apply is_derive_Reals. exact He. }
    destruct (Ce (1 - Rabs (ef s))) as (d & D & Q); [lra|]. exists d. split; [exact D|]. intros t Ht.
    destruct (Req_dec t s) as [->|N]; [exact H1|].
    simpl in Q. unfold R_dist in Q. specialize (Q t). assert (Rabs (ef t - ef s) < 1 - Rabs (ef s)).
    { apply Q. split; [split; [exact Logic.I|auto]|exact Ht]. }
    pose proof (Rabs_triang_inv (ef t) (ef s)). lra.
  Qed.

  Lemma path_E : is_derive f s ((dM + de * sin (f s)) / (1 - ef s * cos (f s))).
  Proof.
    apply (kepler_derive ef Mf f s de dM He HM H1).
    destruct near_lt as (d & D & Q). exists d. split; [exact D|]. intros t Ht. apply kepler_eq. apply Q. exact Ht.
  Qed.

  Lemma path_r : forall af da, is_derive af s da ->
    is_derive (fun t => radius (ef t) (af t) (cos (f t))) s
      (da * drda (ef s) (cos (f s)) + de * drde (ef s) (af s) (cos (f s)) (sin (f s))
       + dM * (drdE (ef s) (af s) (sin (f s)) * dEdM (ef s) (cos (f s)))).
  Proof.
    intros af da Ha. pose proof path_E as HE. pose proof (kden (ef s) (f s) H1) as P.
    unfold radius, drda, drde, drdE, dEde, dEdM.
    evar (l : R). replace (_ + _ + _) with l; unfold l; [auto_derive; [repeat split|reflexivity]|].
    - exists da; exact Ha.
    - exists de; exact He.
    - eexists; exact HE.
    - replace (Derive (fun x => f x) s) with (Derive f s) by reflexivity.
      replace (Derive (fun x => ef x) s) with (Derive ef s) by reflexivity.
      replace (Derive (fun x => af x) s) with (Derive af s) by reflexivity.
      rewrite (is_derive_unique _ _ _ HE), (is_derive_unique _ _ _ He), (is_derive_unique _ _ _ Ha). field. lra.
  Qed.

  Lemma path_v : - (1 - / 10000000000) < cos (f s) ->
    is_derive (fun t => trueAnomaly (ef t) (cos (f t)) (sin (f t))) s
      (de * dvde (ef s) (cos (f s)) (sin (f s)) + dM * (dvdE (ef s) (cos (f s)) * dEdM (ef s) (cos (f s)))).
  Proof.
    intros Hc. pose proof path_E as HE. pose proof (kden (ef s) (f s) H1) as P. pose proof (ef_pos _ H1) as Pe.
    assert (H1' := H1). apply Rabs_def2 in H1'.
    assert (Cf : continuous f s). { apply (ex_derive_continuous (V:=R_NormedModule) f s). eexists. exact HE. }
    assert (L : locally s (fun t => -1 < cos (f t))).
    { assert (C : continuous (fun t => cos (f t)) s). { apply continuous_comp; [exact Cf|apply continuous_cos]. }
      apply C. apply (open_gt (-1)). lra. }
    apply (is_derive_ext_loc (fun t => 2 * atan (sqrt ((1 + ef t) / (1 - ef t)) * sin (f t) / (1 + cos (f t))))).
    { apply filter_imp with (2 := L). intros t Ht. symmetry. apply ta_atan. exact Ht. }
    unfold dvde, dvdE, dEde, dEdM. rewrite !cc2_in by exact Hc.
    set (k := sqrt ((1 + ef s) / (1 - ef s))).
    assert (Pk : 0 < k) by (apply sqrt_lt_R0; exact Pe).
    assert (Kk : k * k = (1 + ef s) / (1 - ef s)) by (apply sqrt_sqrt; lra).
    assert (Dv : forall t x c : R, is_derive (fun y => 2 * atan y) t (2 * / (1 + t ^ 2))).
    { intros. auto_derive; [exact Logic.I|]. unfold Rsqr. field. nra. }
    assert (Dg : is_derive (fun t => sqrt ((1 + ef t) / (1 - ef t)) * sin (f t) / (1 + cos (f t))) s
       (de * (/ (k * ((1 - ef s) * (1 - ef s))) * sin (f s) / (1 + cos (f s)))
        + k * / (1 + cos (f s)) * ((dM + de * sin (f s)) / (1 - ef s * cos (f s))))).
    { evar (l : R). match goal with |- is_derive _ _ ?r => replace r with l; unfold l end.
      - auto_derive; [|reflexivity].
        repeat match goal with |- _ /\ _ => split end; try exact Pe; try (exists de; exact He); try (eexists; exact HE);
          try exact Logic.I; apply Rgt_not_eq; lra.
      - replace (Derive (fun x => f x) s) with (Derive f s) by reflexivity.
        replace (Derive (fun x => ef x) s) with (Derive ef s) by reflexivity.
        rewrite (is_derive_unique _ _ _ HE), (is_derive_unique _ _ _ He).
        change ((1 + ef s) * / (1 + - ef s)) with ((1 + ef s) / (1 - ef s)). fold k.
        assert (S2 : sin (f s) * sin (f s) = (1 - cos (f s)) * (1 + cos (f s))).
        { pose proof (sin2_cos2 (f s)) as Q. unfold Rsqr in Q. lra. }
        set (c := cos (f s)) in *. set (n := sin (f s)) in *. set (e := ef s) in *.
        assert (N : 1 + c <> 0) by lra.
        apply Rminus_diag_uniq.
        match goal with |- ?a - ?b = 0 => replace (a - b) with (k * ((dM + de * n) / (1 - e * c)) * / ((1 + c) * (1 + c)) * (n * n - (1 - c) * (1 + c))) end.
        + rewrite S2. ring.
        + field. repeat split; try lra. }
    pose proof (is_derive_comp (fun y => 2 * atan y) _ s _ _ (Dv _ 0 0) Dg) as Q.
    unfold scal in Q; simpl in Q. unfold mult in Q; simpl in Q.
    match type of Q with is_derive _ _ ?a => match goal with |- is_derive _ _ ?b => replace b with a; [exact Q|] end end.
    clear Q Dg Dv. fold k.
    assert (S2 : sin (f s) * sin (f s) = (1 - cos (f s)) * (1 + cos (f s))).
    { pose proof (sin2_cos2 (f s)) as Q. unfold Rsqr in Q. lra. }
    assert (Pc : 0 < 1 + cos (f s)) by lra.
    set (c := cos (f s)) in *. set (n := sin (f s)) in *. set (e := ef s) in *. rewrite <- Kk.
    assert (W : k * n / (1 + c) * (k * n / (1 + c)) = k * k * (1 - c) / (1 + c)).
    { replace (k * n / (1 + c) * (k * n / (1 + c))) with (k * k * (n * n) / ((1 + c) * (1 + c))) by (field; lra).
      rewrite S2. field. lra. }
    assert (W2 : 1 + k * k * (n * / (1 + c)) * (n * / (1 + c)) = 1 + k * k * (1 - c) / (1 + c)).
    { rewrite <- W. field. lra. }
    rewrite W2. replace (k * n / (1 + c) * (k * n / (1 + c) * 1)) with (k * k * (1 - c) / (1 + c)) by (rewrite <- W; ring).
    assert (Pd : 0 < 1 + c + k * k * (1 - c)).
    { assert (c <= 1) by apply COS_bound. nra. }
    clear W W2.
    field. repeat split; lra.
  Qed.
End Path.

(** the true anomaly by its cosine and sine *)
Lemma ta_w : forall e E, Rabs e < 1 -> -1 < cos E ->
  cos (trueAnomaly e (cos E) (sin E)) = (cos E - e) / (1 - e * cos E)
  /\ sin (trueAnomaly e (cos E) (sin E)) = sqrt (1 - e * e) * sin E / (1 - e * cos E).
Proof.
  intros e E H1 Hc. rewrite ta_atan by exact Hc.
  pose proof (ef_pos _ H1) as Pe. pose proof (kden e E H1) as P. assert (H1' := H1). apply Rabs_def2 in H1'.
  assert (Kq : sqrt ((1 + e) / (1 - e)) * (1 - e) = sqrt (1 - e * e)).
  { rewrite <- (sqrt_square (1 - e)) at 2 by lra. rewrite <- sqrt_mult by (try nra; lra). f_equal. field. lra. }
  set (k := sqrt ((1 + e) / (1 - e))) in *.
  assert (Kk : k * k = (1 + e) / (1 - e)) by (apply sqrt_sqrt; lra).
  assert (S2 : sin E * sin E = (1 - cos E) * (1 + cos E)).
  { pose proof (sin2_cos2 E) as Q. unfold Rsqr in Q. lra. }
  set (c := cos E) in *. set (n := sin E) in *. set (w := k * n / (1 + c)).
  assert (W : 1 + w * w = 2 * (1 - e * c) / ((1 - e) * (1 + c))).
  { unfold w. replace (k * n / (1 + c) * (k * n / (1 + c))) with (k * k * (n * n) / ((1 + c) * (1 + c))) by (field; lra).
    rewrite S2, Kk. field. lra. }
  assert (Wp : 0 < 1 + w * w) by nra.
  assert (Sq : sqrt (1 + w * w) * sqrt (1 + w * w) = 1 + w * w) by (apply sqrt_sqrt; lra).
  assert (Sp : 0 < sqrt (1 + w * w)) by (apply sqrt_lt_R0; exact Wp).
  split.
  - rewrite cos_2a_cos, cos_atan. unfold Rsqr.
    replace (2 * (1 / sqrt (1 + w * w)) * (1 / sqrt (1 + w * w)) - 1) with (2 / (sqrt (1 + w * w) * sqrt (1 + w * w)) - 1) by (field; lra).
    rewrite Sq, W. field. lra.
  - rewrite sin_2a, sin_atan, cos_atan. unfold Rsqr.
    replace (2 * (w / sqrt (1 + w * w)) * (1 / sqrt (1 + w * w))) with (2 * w / (sqrt (1 + w * w) * sqrt (1 + w * w))) by (field; lra).
    rewrite Sq, W, <- Kq. unfold w. field. lra.
Qed.
