(** Derivatives of the prior mappings, and the construction of priors. *)
From Coquelicot Require Import Coquelicot.
From Coq Require Import Reals Bool List Lra Lia.
From Verif Require Import L_Erf M_Prior P_Prior.
Import ListNotations.
Local Open Scope R_scope.

(** a function that is everywhere one of two with the same value and derivative at x *)
Lemma glue_derive (f g h : R -> R) (x l : R) :
  is_derive f x l -> is_derive g x l -> f x = g x -> (forall y, h y = f y \/ h y = g y) -> is_derive h x l.
Proof.
  intros F G E H. apply is_derive_Reals. apply is_derive_Reals in F, G.
  intros eps He. destruct (F eps He) as (d1 & D1). destruct (G eps He) as (d2 & D2).
  assert (P : 0 < Rmin d1 d2) by (apply Rmin_pos; [apply (cond_pos d1)|apply (cond_pos d2)]).
  exists (mkposreal _ P). cbn. intros k K0 K.
  assert (HX : h x = f x) by (destruct (H x); [assumption|congruence]).
  pose proof (Rmin_l d1 d2). pose proof (Rmin_r d1 d2).
  destruct (H (x + k)) as [Q|Q]; rewrite Q, HX.
  - apply D1; [assumption|lra].
  - rewrite E. apply D2; [assumption|lra].
Qed.

Definition dens (k : kind) (x : R) : R :=
  match k with
  | KUniform => 1
  | KJeffreys => 1 / x
  | KLaplace c s => 0.5 * exp (- Rabs ((x - c) / s)) / s
  | KCauchy c s => s / ((s * s + (x - c) * (x - c)) * PI)
  | KGauss c s => 1 / sqrt (2 * PI) / s * exp (- 0.5 * ((x - c) / s) * ((x - c) / s))
  end.

Lemma cdf_derive k (x : R) : kok k -> dom k x -> is_derive (cdf k) x (dens k x).
Proof.
  destruct k; cbn [kok dom dens]; intros K D.
  - unfold cdf. apply (is_derive_id (K := R_AbsRing)).
  - unfold cdf. auto_derive; [assumption|reflexivity].
  - assert (A : forall x : R, is_derive (fun d => 0.5 * exp ((d - c) / s)) x (0.5 * exp ((x - c) / s) / s)).
    { intro y. auto_derive; [auto|]. unfold Rdiv, Rminus. ring. }
    assert (B : forall x : R, is_derive (fun d => 1 - 0.5 * exp (- ((d - c) / s))) x (0.5 * exp (- ((x - c) / s)) / s)).
    { intro y. auto_derive; [auto|]. unfold Rdiv, Rminus. ring. }
    destruct (Rtotal_order ((x - c) / s) 0) as [L|[E|G]].
    + rewrite Rabs_left, Ropp_involutive by assumption.
      apply is_derive_ext_loc with (2 := A x).
      assert (P : 0 < c - x).
      { assert (x - c < 0) by (apply Rmult_lt_reg_r with (/ s); [apply Rinv_0_lt_compat; lra|unfold Rdiv in L; lra]). lra. }
      exists (mkposreal _ P). intros y Y. cbn in Y. unfold ball in Y; cbn in Y. unfold AbsRing_ball, abs, minus, plus, opp in Y; cbn in Y.
      assert (y - c < 0) by (apply Rabs_def2 in Y; lra).
      unfold cdf. destruct (Rlt_dec ((y - c) / s) 0) as [_|N]; [reflexivity|].
      exfalso. apply N. unfold Rdiv. pose proof (Rinv_0_lt_compat s K). nra.
    + apply (glue_derive (fun d => 0.5 * exp ((d - c) / s)) (fun d => 1 - 0.5 * exp (- ((d - c) / s)))).
      * evar_last; [apply A|]. rewrite E, Rabs_R0, Ropp_0. reflexivity.
      * evar_last; [apply B|]. rewrite E, Rabs_R0. reflexivity.
      * rewrite E, Ropp_0, exp_0. lra.
      * intro y. unfold cdf. destruct (Rlt_dec ((y - c) / s) 0); auto.
    + rewrite Rabs_right by lra.
      apply is_derive_ext_loc with (2 := B x).
      assert (P : 0 < x - c).
      { apply Rmult_lt_reg_r with (/ s); [apply Rinv_0_lt_compat; lra|unfold Rdiv in G; lra]. }
      exists (mkposreal _ P). intros y Y. cbn in Y. unfold ball in Y; cbn in Y. unfold AbsRing_ball, abs, minus, plus, opp in Y; cbn in Y.
      assert (0 < y - c) by (apply Rabs_def2 in Y; lra).
      unfold cdf. destruct (Rlt_dec ((y - c) / s) 0) as [N|_]; [|reflexivity].
      exfalso. unfold Rdiv in N. pose proof (Rinv_0_lt_compat s K). nra.
  - unfold cdf. pose proof PI_RGT_0. auto_derive; [auto|].
    assert (Q2 := pow2_ge_0 ((x - c) / s)). assert (1 + ((x - c) / s) ^ 2 <> 0) by (apply Rgt_not_eq; lra).
    assert (0 < s * s) by (apply Rmult_lt_0_compat; lra). assert (Q3 : 0 <= (x - c) * (x - c)) by (apply Rle_0_sqr).
    field. repeat split; try lra; apply Rgt_not_eq; nra.
  - unfold cdf. pose proof sqrt2_pos as S2. pose proof PI_RGT_0 as HP. pose proof sqrtPI_pos as SP.
    evar_last.
    { apply (is_derive_scal (fun d => erf ((d - c) / (sqrt 2 * s)) + 1) x 0.5).
      apply (is_derive_plus (fun d => erf ((d - c) / (sqrt 2 * s))) (fun _ => 1)).
      - apply (is_derive_comp erf (fun d => (d - c) / (sqrt 2 * s))).
        + apply erf_derive.
        + auto_derive; [auto|reflexivity].
      - apply (is_derive_const (K := R_AbsRing)). }
    unfold scal, plus, zero; cbn; unfold mult; cbn.
    replace (- ((x - c) / (sqrt 2 * s) * ((x - c) / (sqrt 2 * s)))) with (- 0.5 * ((x - c) / s) * ((x - c) / s)).
    + rewrite sqrt_mult by lra. assert (Q : sqrt 2 * sqrt 2 = 2) by (apply sqrt_sqrt; lra).
      set (e := exp _). replace 0.5 with (/ 2) by lra. field. lra.
    + replace ((x - c) / (sqrt 2 * s) * ((x - c) / (sqrt 2 * s))) with ((x - c) * (x - c) / (sqrt 2 * sqrt 2 * (s * s))) by (field; lra).
      rewrite sqrt_sqrt by lra. replace (- 0.5) with (- / 2) by lra. field. lra.
Qed.

Lemma dens_cont k (x : R) : kok k -> dom k x -> continuous (dens k) x.
Proof.
  destruct k; cbn [kok dom]; intros K D; unfold dens.
  - apply continuous_const.
  - apply (ex_derive_continuous (fun x => 1 / x)). auto_derive. lra.
  - apply (continuous_ext (fun x => (0.5 / s) * exp (- Rabs ((x - c) / s)))); [intro y; change (0.5 / s * exp (- Rabs ((y - c) / s)) = 0.5 * exp (- Rabs ((y - c) / s)) / s); unfold Rdiv; ring|].
    apply (continuous_scal_r (0.5 / s) (fun x => exp (- Rabs ((x - c) / s)))).
    apply (continuous_comp (fun x => - Rabs ((x - c) / s)) exp).
    + apply (continuous_opp (fun x => Rabs ((x - c) / s))).
      apply (continuous_comp (fun x => (x - c) / s) Rabs).
      * apply (ex_derive_continuous (fun x => (x - c) / s)). auto_derive. auto.
      * apply continuous_Rabs.
    + apply (ex_derive_continuous exp). auto_derive. auto.
  - apply (ex_derive_continuous (fun x => s / ((s * s + (x - c) * (x - c)) * PI))). auto_derive.
    pose proof PI_RGT_0. apply Rgt_not_eq. apply Rmult_gt_0_compat; [|lra]. assert (0 < s * s) by (apply Rmult_lt_0_compat; lra). pose proof (Rle_0_sqr (x - c)) as Q. unfold Rsqr in Q. unfold Rminus in Q. lra.
  - apply (ex_derive_continuous (fun x => 1 / sqrt (2 * PI) / s * exp (- 0.5 * ((x - c) / s) * ((x - c) / s)))). auto_derive. auto.
Qed.

(** limits between which the cumulative is finite *)
Definition bounded (k : kind) (l h : option R) : Prop :=
  match k with
  | KUniform => l <> None /\ h <> None
  | KJeffreys => (exists x, l = Some x /\ 0 < x) /\ h <> None
  | _ => l <> None \/ h <> None
  end.

Lemma bounded_low k l h : bounded k l h -> d2uE k (lowOf k l) <> None.
Proof.
  destruct k; cbn; intro B.
  - destruct B, l; cbn; congruence.
  - destruct B as ((x & -> & X) & _). cbn. destruct (Rle_dec x 0); [lra|discriminate].
  - destruct l; cbn; discriminate.
  - destruct l; cbn; discriminate.
  - destruct l; cbn; discriminate.
Qed.
Lemma bounded_some k l h : bounded k l h -> l <> None \/ h <> None.
Proof. destruct k; cbn; tauto. Qed.

Lemma setLimits_ordered p l h p' : setLimits p (Some (l, h)) = (p', false) ->
  Rbar_lt (match l with Some x => Finite x | None => p_lodom p end) (match h with Some x => Finite x | None => p_hidom p end).
Proof.
  unfold setLimits. intro E.
  match type of E with (if negb ?b then _ else _) = _ => destruct b eqn:CK end; cbn [negb] in E; [|discriminate].
  apply andb_true_iff in CK. destruct CK as [CK _]. apply andb_true_iff in CK. destruct CK as [_ CK].
  unfold Rbar_ltb in CK. destruct (Rbar_lt_dec _ _) in CK; [|discriminate]. destruct l, h; assumption.
Qed.

Lemma bounded_high k p p' l h : plain k p -> setLimits p (Some (l, h)) = (p', false) -> bounded k l h ->
  d2uE k (highOf h) <> None.
Proof.
  intros P E B. apply setLimits_ordered in E.
  destruct k; cbn in B; (destruct h as [h|]; [|cbn; try discriminate; destruct B; congruence]); cbn; try discriminate.
  destruct B as ((x & -> & X) & _). cbn in E. destruct (Rle_dec h 0); [lra|discriminate].
Qed.

(** objects *)
Inductive anyp (k : kind) : prior -> Prop :=
| any_new lims p : mkPrior k lims None = Some p -> anyp k p
| any_set p lims : anyp k p -> anyp k (fst (setLimits p lims)).

Inductive lastset (k : kind) (l h : option R) : prior -> Prop :=
| last_new p : mkPrior k (Some (l, h)) None = Some p -> lastset k l h p
| last_set p p' : anyp k p -> setLimits p (Some (l, h)) = (p', false) -> lastset k l h p'.

Lemma new_set k lims p : mkPrior k lims None = Some p -> setLimits (fresh k (limitedIntegral k lims)) lims = (p, false).
Proof.
  unfold mkPrior. cbn [recenter]. destruct (setLimits (fresh k (limitedIntegral k lims)) lims) as [q e] eqn:E.
  destruct e; [discriminate|]. intro H. injection H as ->. reflexivity.
Qed.

Lemma any_plain k p : anyp k p -> plain k p.
Proof.
  induction 1 as [lims p H|p lims H IH].
  - apply new_set in H. pose proof (setLimits_plain k (fresh k (limitedIntegral k lims)) lims (fresh_plain _ _)) as Q.
    rewrite H in Q. exact Q.
  - apply setLimits_plain. exact IH.
Qed.

Lemma last_limited k l h p : kok k -> bounded k l h -> lastset k l h p ->
  p_kind p = k /\ okp p /\ limited_by p (lowOf k l) (highOf h).
Proof.
  intros K B L.
  assert (exists q, plain k q /\ setLimits q (Some (l, h)) = (p, false)) as (q & Q & E).
  { destruct L as [p E|q p A E]; [|exists q; split; [apply any_plain|]; assumption].
    eexists. split; [|apply new_set; exact E]. apply fresh_plain. }
  destruct (setLimits_limited k q l h p Q (bounded_some _ _ _ B) E (bounded_low _ _ _ B) (bounded_high _ _ _ _ _ Q E B)) as (A1 & A2 & A3).
  split; [exact A1|]. split; [split; [rewrite A1; exact K|exact A3]|exact A2].
Qed.

Lemma new_any_limint k lims p : mkPrior k lims None = Some p -> p_limint p = limitedIntegral k lims.
Proof.
  intro H. apply new_set in H. unfold setLimits in H.
  repeat match type of H with context [if ?b then _ else _] => destruct b
    | context [match domain2Unit ?a ?b with _ => _ end] => destruct (domain2Unit a b) end;
  injection H as <-; reflexivity.
Qed.

(** circular objects *)
Definition flat (p : prior) : prior :=
  mkP (p_kind p) (p_lodom p) (p_hidom p) (p_low p) (p_high p) (p_limited p) false (p_umin p) (p_urng p) (p_limint p).

Lemma mod1_sub x n : 0 <= x - IZR n < 1 -> mod1 x = x - IZR n.
Proof.
  intro H. unfold mod1. pose proof (base_Int_part x) as [A B].
  assert (E : Int_part x = n); [|rewrite E; reflexivity].
  assert (L1 : IZR (Int_part x) < IZR (n + 1)) by (rewrite plus_IZR; lra).
  assert (L2 : IZR n < IZR (Int_part x + 1)) by (rewrite plus_IZR; lra).
  apply lt_IZR in L1, L2. lia.
Qed.

Lemma mod1_range x : 0 <= mod1 x < 1.
Proof. unfold mod1. pose proof (base_Int_part x) as [A B]. lra. Qed.

Lemma mod1_plus1 x : mod1 (x + 1) = mod1 x.
Proof.
  rewrite (mod1_sub (x + 1) (Int_part x + 1)).
  - unfold mod1. rewrite plus_IZR. ring.
  - rewrite plus_IZR. pose proof (mod1_range x). unfold mod1 in *. lra.
Qed.

Lemma circ_new_limited k0 lims circ p : kok k0 ->
  mkPrior k0 lims (Some circ) = Some p -> p_circ p = true ->
  (k0 = KJeffreys -> exists l h, lims = Some (Some l, Some h) /\ circ = None /\ 0 < l) ->
  exists l h : R, kok (p_kind p) /\ p_low p = Finite l /\ p_high p = Finite h /\ l < h /\
    limited_by (flat p) (Finite l) (Finite h).
Proof.
  intros K E C J.
  assert (Main : forall k q l h i, kok k -> bounded k (Some l) (Some h) ->
     setLimits (fresh k i) (Some (Some l, Some h)) = (q, false) ->
     kok (p_kind (withCirc q)) /\ p_low (withCirc q) = Finite l /\ p_high (withCirc q) = Finite h /\ l < h /\
     limited_by (flat (withCirc q)) (Finite l) (Finite h)).
  { intros k q l h i Kk B S.
    destruct (setLimits_limited k (fresh k i) (Some l) (Some h) q (fresh_plain _ _)) as (A1 & A2 & A3); auto.
    - left; discriminate.
    - apply (bounded_low k (Some l) (Some h) B).
    - apply (bounded_high k (fresh k i) q (Some l) (Some h) (fresh_plain _ _) S B).
    - cbn. rewrite A1. pose proof A2 as (Q1 & Q2 & Q3 & Q4 & Q5). rewrite Q3, Q4 in *. cbn [lowOf highOf] in *.
      split; [assumption|]. split; [reflexivity|]. split; [reflexivity|]. split; [exact A3|].
      unfold limited_by, flat, withCirc; cbn. split; [reflexivity|]. split; [exact Q2|]. split; [exact Q3|]. split; [exact Q4|].
      exact Q5. }
  destruct circ as [period|].
  - destruct k0 as [| |c s|c s|c s].
    + cbn in E.
      match type of E with (let '(_, _) := ?x in _) = _ => destruct x as [q e] eqn:S end.
      destruct e; [discriminate|]. injection E as <-. exists 0, period. apply (Main KUniform q _ _ _ I) in S; [exact S|].
      cbn. split; discriminate.
    + destruct (J eq_refl) as (l & h & _ & Q & _). discriminate Q.
    + unfold mkPrior in E. cbn [recenter] in E.
      match type of E with (let '(_, _) := ?x in _) = _ => destruct x as [q e] eqn:S end.
      destruct e; [discriminate|]. injection E as <-. eexists _, _. eapply (Main (KLaplace c s)) in S; [exact S|exact K|left; discriminate].
    + unfold mkPrior in E. cbn [recenter] in E.
      match type of E with (let '(_, _) := ?x in _) = _ => destruct x as [q e] eqn:S end.
      destruct e; [discriminate|]. injection E as <-. eexists _, _. eapply (Main (KCauchy c s)) in S; [exact S|exact K|left; discriminate].
    + unfold mkPrior in E. cbn [recenter] in E.
      match type of E with (let '(_, _) := ?x in _) = _ => destruct x as [q e] eqn:S end.
      destruct e; [discriminate|]. injection E as <-. eexists _, _. eapply (Main (KGauss c s)) in S; [exact S|exact K|left; discriminate].
  - unfold mkPrior in E.
    match type of E with (let '(_, _) := ?x in _) = _ => destruct x as [q e] eqn:S end.
    destruct e; [discriminate|].
    destruct lims as [[[l|] [h|]]|]; try discriminate.
    + injection E as <-. exists l, h.
      eapply (Main (recenter k0 (Some (Some l, Some h)) (Some None))) in S; [exact S| |].
      * destruct k0; cbn; exact K.
      * destruct k0; cbn; try (split; discriminate); try (left; discriminate).
        destruct (J eq_refl) as (l' & h' & Q & _ & Lp). injection Q as <- <-. split; [exists l; auto|discriminate].
    + injection E as <-. exfalso. revert C. 
      assert (Z := setLimits_plain _ _ None (fresh_plain (recenter k0 None (Some None)) 
         (limitedIntegral (recenter k0 None (Some None))
           (match match recenter k0 None (Some None) with KLaplace c _ | KCauchy c _ | KGauss c _ => Some c | _ => None end with
            | Some c => Some (Some (c - 1 / 2), Some (c + 1 / 2)) | None => Some (Some 0, Some 1) end)))).
      rewrite S in Z. destruct Z as (_ & Z & _). cbn in Z. congruence.
Qed.
