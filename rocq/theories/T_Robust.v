(** C43: robust weights. *)
From Coquelicot Require Import Coquelicot.
From Coq Require Import Reals List Lra Lia.
From Verif Require Import M_Kernel S_Kernel P_Kernels T_Kernel M_Robust.
Import ListNotations.
Local Open Scope R_scope.

(** the original weight of point i *)
Definition orig (weights : option (list R)) (i : nat) (o : R) : Prop :=
  match weights with None => o = 1 | Some w => nth_error w i = Some o end.

Lemma nth_combine {A B} (a : list A) : forall (b : list B) i x y, nth_error a i = Some x -> nth_error b i = Some y ->
  nth_error (combine a b) i = Some (x, y).
Proof.
  induction a as [|u a IH]; intros [|v b] [|i] x y H1 H2; simpl in *; try discriminate.
  - congruence.
  - apply IH; assumption.
Qed.

Lemma new_nth kf s dom scale data yfit weights i d f o :
  nth_error data i = Some d -> nth_error yfit i = Some f -> orig weights i o ->
  nth_error (newweights kf s dom scale data yfit weights) i = Some (robwgt kf s dom scale (d, f) * o).
Proof.
  intros D F O. unfold newweights.
  assert (M : nth_error (map (robwgt kf s dom scale) (combine data yfit)) i = Some (robwgt kf s dom scale (d, f)))
    by (rewrite nth_error_map, (nth_combine _ _ _ _ _ D F); reflexivity).
  destruct weights as [w|]; cbn in O.
  - rewrite nth_error_map, (nth_combine _ _ _ _ _ M O). reflexivity.
  - subst o. rewrite Rmult_1_r. exact M.
Qed.

Lemma new_length kf s dom scale data yfit weights : length yfit = length data ->
  (forall w, weights = Some w -> length w = length data) -> length (newweights kf s dom scale data yfit weights) = length data.
Proof.
  intros L W. unfold newweights. destruct weights as [w|].
  - rewrite map_length, combine_length, map_length, combine_length, (W w eq_refl). lia.
  - rewrite map_length, combine_length. lia.
Qed.

Section S.
  Context {P : Type} (fitter : nat -> option (list R) -> option (P * R * R)) (result : P -> list R).
  Context (kf : R -> R) (s : side) (domain tolerance : R) (data : list R) (weights : option (list R)).

  (** the weights of the result come from an earlier fit of the same run *)
  Definition from_fit (maxIter : nat) (par : P) (w : list R) (chisq : R) : Prop :=
    exists k u par0 chi0 scale0 scale, (k < maxIter)%nat /\
      fitter k u = Some (par0, chi0, scale0) /\ (k = 0%nat -> u = weights) /\
      w = newweights kf s domain scale0 data (result par0) weights /\
      fitter (S k) (Some w) = Some (par, chisq, scale) /\
      (S k = maxIter \/ Rabs (chi0 - chisq) < (if Rlt_dec chisq 1 then tolerance else tolerance * chisq)).

  Lemma rloop_from n : forall call u param chi scale last par w chisq,
    rloop fitter result kf s domain tolerance data weights (S n) (S call) param chi scale last = Some (par, w, chisq) ->
    fitter call u = Some (param, chi, scale) -> (call = 0%nat -> u = weights) -> from_fit (call + S n) par w chisq.
  Proof.
    induction n as [|n IH]; intros call u param chi scale last par w chisq E F U; cbn [rloop] in E; set (nw := newweights _ _ _ _ _ _ _) in E.
    - destruct (fitter (S call) (Some nw)) as [[[par' try] scale']|] eqn:FF; [|discriminate].
      assert (X : Some (par', nw, try) = Some (par, w, chisq)) by (destruct (Rlt_dec _ _); exact E). injection X as <- <- <-.
      exists call, u, param, chi, scale, scale'. split; [lia|]. split; [exact F|]. split; [exact U|]. split; [reflexivity|]. split; [exact FF|]. left. lia.
    - destruct (fitter (S call) (Some nw)) as [[[par' try] scale']|] eqn:FF; [|discriminate].
      destruct (Rlt_dec (Rabs (chi - try)) _) as [Hlt|Hn].
      + injection E as <- <- <-. exists call, u, param, chi, scale, scale'. split; [lia|]. split; [exact F|]. split; [exact U|]. split; [reflexivity|]. split; [exact FF|]. right. exact Hlt.
      + replace (call + S (S n))%nat with (S call + S n)%nat by lia. apply (IH (S call) (Some nw) par' try scale' nw); [exact E|exact FF|discriminate].
  Qed.

  Lemma rfit_from maxIter par w chisq : rfit fitter result kf s domain tolerance data weights maxIter = Some (par, w, chisq) ->
    from_fit maxIter par w chisq.
  Proof.
    unfold rfit. intro E. destruct (fitter 0%nat weights) as [[[p c] sc]|] eqn:F; [|discriminate].
    destruct maxIter as [|n]; [discriminate|]. apply (rloop_from n 0%nat weights p c sc []); auto.
  Qed.
End S.

(** The parameters returned are those of a fit with the weights returned, chisq is that of the same
    fit, and these weights are the original ones times the kernel at the residuals of the fit just
    before, in units of scale * domain; on the untouched side of a one-sided shell they are the
    original ones.  Either maxIter fits were made, or chisq changed by less than the tolerance. *)
Theorem C43_weights : forall P sh fitter (result : P -> list R) tol maxIter data weights ko dom os par w chisq,
  robust_fit sh fitter result tol maxIter data weights ko dom os = Some (par, w, chisq) ->
  (forall p, length (result p) = length data) -> (forall v, weights = Some v -> length v = length data) ->
  exists k u par0 chi0 scale0 scale,
    (k < maxIter)%nat /\ fitter k u = Some (par0, chi0, scale0) /\ (k = 0%nat -> u = weights) /\
    fitter (S k) (Some w) = Some (par, chisq, scale) /\
    (S k = maxIter \/ Rabs (chi0 - chisq) < (if Rlt_dec chisq 1 then tol else tol * chisq)) /\
    length w = length data /\
    forall i d f o, nth_error data i = Some d -> nth_error (result par0) i = Some f -> orig weights i o ->
      let K := match ko with Some k => kfunc k | None => s_func sh end in
      let D := match dom with Some d => d | None => s_domain sh end in
      let r := (d - f) / (scale0 * D) in
      nth_error w i = Some (o * match (match os with Some o => o | None => s_side sh end) with
                                | Both => K r
                                | Pos => if Rlt_dec r 0 then 1 else K r
                                | Neg => if Rlt_dec 0 r then 1 else K r end).
Proof.
  intros P sh fitter result tol maxIter data weights ko dom os par w chisq E LR LW.
  apply rfit_from in E. destruct E as (k & u & par0 & chi0 & scale0 & scale & H1 & H2 & H3 & -> & H5 & H6).
  exists k, u, par0, chi0, scale0, scale. repeat (split; [assumption|]). split; [apply new_length; auto|].
  intros i d f o D F O K DD r. rewrite (new_nth _ _ _ _ _ _ _ _ _ _ _ D F O). f_equal. rewrite Rmult_comm. f_equal.
Qed.
Print Assumptions C43_weights.

(** With a kernel between 0 and 1 the weights are between 0 and the original weight. *)
Lemma nth_data {A} (l m : list A) i x : length m = length l -> nth_error l i = Some x -> exists y, nth_error m i = Some y.
Proof. intros L H. destruct (nth_error m i) eqn:E; [eauto|]. apply nth_error_None in E. assert (i < length l)%nat by (apply nth_error_Some; congruence). lia. Qed.

Theorem C43_bounds : forall P sh fitter (result : P -> list R) tol maxIter data weights ko dom os par w chisq,
  robust_fit sh fitter result tol maxIter data weights ko dom os = Some (par, w, chisq) ->
  (forall p, length (result p) = length data) -> (forall v, weights = Some v -> length v = length data) ->
  (forall x, 0 <= (match ko with Some k => kfunc k | None => s_func sh end) x <= 1) ->
  (forall v, weights = Some v -> Forall (fun x => 0 <= x) v) ->
  forall i wi o, nth_error w i = Some wi -> orig weights i o -> 0 <= wi <= o.
Proof.
  intros P sh fitter result tol maxIter data weights ko dom os par w chisq E LR LW KB NW i wi o W O.
  destruct (C43_weights _ _ _ _ _ _ _ _ _ _ _ _ _ _ E LR LW) as (k & u & par0 & chi0 & scale0 & scale & _ & _ & _ & _ & _ & LL & G).
  destruct (nth_data w data i wi) as [d D]; [congruence|exact W|].
  destruct (nth_data data (result par0) i d) as [f F]; [apply LR|exact D|].
  specialize (G i d f o D F O). cbv zeta in G. rewrite W in G. injection G as ->.
  assert (0 <= o).
  { destruct weights as [v|]; cbn in O; [|lra]. apply (proj1 (Forall_forall _ _) (NW v eq_refl)). eapply nth_error_In; eauto. }
  set (K := match ko with Some k => kfunc k | None => s_func sh end) in *.
  match goal with |- 0 <= o * ?m <= o => assert (0 <= m <= 1) end; [|split; nra].
  destruct os as [[]|]; [| | |destruct (s_side sh)]; try apply KB; destruct (Rlt_dec _ _); try apply KB; lra.
Qed.
Print Assumptions C43_bounds.

(** This holds for the kernels of the package, Sinc excepted. *)
Lemma peaked_unit K : peaked K -> forall x, 0 <= k_result K x <= 1.
Proof. intros (A & B & C) x. split; [apply (C x x); lra|]. rewrite <- A. apply C. rewrite Rabs_R0. apply Rabs_pos. Qed.

Theorem C43_kernels : forall K,
  In K [biweight; triweight; tricube; parabola; cosine; cossquare; triangle; uniformk; gaussk; lorentzk; huber] \/
  (exists n, tophat n = Some K) -> forall x, 0 <= kfunc (KObj K) x <= 1.
Proof.
  intros K [H|(n & H)] x; apply peaked_unit.
  - exact (proj1 (Forall_forall _ _) C33_peaked K H).
  - exact (C33_tophat_peaked n K H).
Qed.
Print Assumptions C43_kernels.

(** Sinc gives negative weights. *)
Theorem C43_sinc_refuted : exists sh (fitter : nat -> option (list R) -> option (R * R * R)) par w chisq,
  mkRobust (KObj sinc) (Some 1) Both = Some sh /\
  robust_fit sh fitter (fun p => [p]) 1 1 [3 / 2] None None None None = Some (par, [w], chisq) /\ w < 0.
Proof.
  exists (mkShell (k_result sinc) 1 Both), (fun _ _ => Some (0, 1, 1)), 0, (k_result sinc (3 / 2)), 1.
  split; [reflexivity|]. split; [|apply C33_sinc_top].
  unfold robust_fit, rfit, rloop. cbn [s_func s_domain s_side]. unfold newweights. cbn [combine map].
  unfold robwgt, oneside. cbn [fst snd]. replace ((3 / 2 - 0) / (1 * 1)) with (3 / 2) by field.
  destruct (Rlt_dec _ _); reflexivity.
Qed.
Print Assumptions C43_sinc_refuted.

(** One-sided: the points on the other side keep their weight, provided the scale and domain are positive. *)
Theorem C43_onesided : forall P sh fitter (result : P -> list R) tol maxIter data weights ko dom os par w chisq,
  robust_fit sh fitter result tol maxIter data weights ko dom os = Some (par, w, chisq) ->
  (forall p, length (result p) = length data) -> (forall v, weights = Some v -> length v = length data) ->
  (forall k u p c sc, fitter k u = Some (p, c, sc) -> 0 < sc) ->
  0 < match dom with Some d => d | None => s_domain sh end ->
  exists k u par0 chi0 scale0, fitter k u = Some (par0, chi0, scale0) /\
  forall i d f o, nth_error data i = Some d -> nth_error (result par0) i = Some f -> orig weights i o ->
    match (match os with Some o => o | None => s_side sh end) with
    | Both => True
    | Pos => d < f -> nth_error w i = Some o
    | Neg => f < d -> nth_error w i = Some o end.
Proof.
  intros P sh fitter result tol maxIter data weights ko dom os par w chisq E LR LW SC DP.
  destruct (C43_weights _ _ _ _ _ _ _ _ _ _ _ _ _ _ E LR LW) as (k & u & par0 & chi0 & scale0 & scale & _ & H2 & _ & _ & _ & LL & G).
  exists k, u, par0, chi0, scale0. split; [exact H2|]. intros i d f o D F O. specialize (G i d f o D F O). cbv zeta in G.
  pose proof (SC _ _ _ _ _ H2) as S0.
  set (DD := match dom with Some d => d | None => s_domain sh end) in *.
  assert (Q : 0 < / (scale0 * DD)) by (apply Rinv_0_lt_compat, Rmult_lt_0_compat; assumption).
  destruct (match os with Some o => o | None => s_side sh end); [exact I| |]; intro L.
  - destruct (Rlt_dec _ 0) as [|N]; [rewrite Rmult_1_r in G; exact G|]. exfalso. apply N. unfold Rdiv. nra.
  - destruct (Rlt_dec 0 _) as [|N]; [rewrite Rmult_1_r in G; exact G|]. exfalso. apply N. unfold Rdiv. nra.
Qed.
Print Assumptions C43_onesided.

Example C43_example : exists sh (fitter : nat -> option (list R) -> option (R * R * R)) par w chisq,
  mkRobust (KObj uniformk) None Pos = Some sh /\
  robust_fit sh fitter (fun p => [p; p; p]) 1 5 [-4; 1; 4] (Some [1; 2; 3]) None None None = Some (par, w, chisq) /\
  w = [1 * 1; 1 * 2; 0 * 3] /\ (forall k u p c sc, fitter k u = Some (p, c, sc) -> 0 < sc).
Proof.
  exists (mkShell (k_result uniformk) (6 / 2) Pos), (fun _ _ => Some (0, 1, 1)), 0, [1 * 1; 1 * 2; 0 * 3], 1.
  split; [reflexivity|]. split; [|split; [reflexivity|intros k u p c sc E; injection E as <- <- <-; lra]].
  unfold robust_fit, rfit, rloop. cbn [s_func s_domain s_side].
  assert (W : newweights (k_result uniformk) Pos (6 / 2) 1 [-4; 1; 4] [0; 0; 0] (Some [1; 2; 3]) = [1 * 1; 1 * 2; 0 * 3]).
  { unfold newweights. cbn [combine map fst snd]. unfold robwgt, oneside. cbn [fst snd].
    assert (A1 : (-4 - 0) / (1 * (6 / 2)) = - (4 / 3)) by field. assert (A2 : (1 - 0) / (1 * (6 / 2)) = 1 / 3) by field.
    assert (A3 : (4 - 0) / (1 * (6 / 2)) = 4 / 3) by field. rewrite A1, A2, A3. cbn [k_result uniformk]. unfold uniform_r, where_.
    rewrite ?Rabs_Ropp, ?Rabs_pos_eq by lra.
    repeat match goal with |- context [if ?c then _ else _] => destruct c; try lra end; repeat f_equal; lra. }
  rewrite W. replace (1 - 1) with 0 by ring. rewrite Rabs_R0.
  destruct (Rlt_dec 1 1); [lra|]. destruct (Rlt_dec 0 (1 * 1)); [reflexivity|lra].
Qed.

(** The automatic domain: a deviant of three times the scale gets half its weight. *)
Theorem C43_domain : forall K s sh, 0 < k_fwhm K -> half_width K -> mkRobust (KObj K) None s = Some sh ->
  forall scale d f, 0 < scale -> d - f = 3 * scale -> s_func sh ((d - f) / (scale * s_domain sh)) = 1 / 2.
Proof.
  intros K s sh F H E scale d f S0 D. injection E as <-. cbn. rewrite D. rewrite <- H. f_equal. field. lra.
Qed.
Print Assumptions C43_domain.

Example C43_domain_example : half_width gaussk /\ half_width huber /\ 0 < k_fwhm huber.
Proof.
  pose proof (proj1 (Forall_forall _ _) C33_fwhm) as H. split; [apply H; cbn; tauto|]. split; [apply H; cbn; tauto|cbn; lra].
Qed.

(** Another kernel given to fit() keeps the domain of the first kernel: Huber after Uniform leaves
    deviants of three times the scale at full weight. *)
Theorem C43_other_kernel_refuted : exists sh (fitter : nat -> option (list R) -> option (R * R * R)) par w chisq,
  mkRobust (KObj uniformk) None Both = Some sh /\
  robust_fit sh fitter (fun p => [p]) 1 1 [3] None (Some (KObj huber)) None None = Some (par, [w], chisq) /\
  fitter 0%nat None = Some (0, 1, 1) /\ w = 1 /\ k_result huber (3 / (1 * (6 / k_fwhm huber))) = 1 / 2.
Proof.
  exists (mkShell (k_result uniformk) (6 / 2) Both), (fun _ _ => Some (0, 1, 1)), 0, (k_result huber ((3 - 0) / (1 * (6 / 2)))), 1.
  split; [reflexivity|]. split; [|split; [reflexivity|split]].
  - unfold robust_fit, rfit, rloop, newweights, robwgt, oneside. cbn. destruct (Rlt_dec _ _); reflexivity.
  - cbn. unfold where_. replace ((3 - 0) / (1 * (6 / 2))) with 1 by field. rewrite Rabs_pos_eq by lra. destruct (Rlt_dec 1 1); [lra|field].
  - cbn. unfold where_. replace (3 / (1 * (6 / 4))) with 2 by field. rewrite Rabs_pos_eq by lra. destruct (Rlt_dec 2 1); [lra|field].
Qed.
Print Assumptions C43_other_kernel_refuted.

(** A function for a kernel needs a domain; at least one iteration is needed. *)
Theorem C43_callable_refuted : forall f s, mkRobust (KFun f) None s = None.
Proof. reflexivity. Qed.
Print Assumptions C43_callable_refuted.

Theorem C43_no_iteration_refuted : forall P sh fitter (result : P -> list R) tol data weights ko dom os,
  robust_fit sh fitter result tol 0 data weights ko dom os = None.
Proof. intros. unfold robust_fit, rfit. destruct (fitter 0%nat weights) as [[[? ?] ?]|]; reflexivity. Qed.
Print Assumptions C43_no_iteration_refuted.

(** The end of the iterations is not reported as a failure: with chisq jumping up and down, the fit
    after maxIter iterations is returned. *)
Theorem C43_not_converged_refuted : forall n, exists (fitter : nat -> option (list R) -> option (R * R * R)) par w chisq,
  robust_fit (mkShell (k_result uniformk) 3 Both) fitter (fun p => [p]) (1 / 10) (S n) [1] None None None None = Some (par, w, chisq) /\
  forall k u v, match fitter k u, fitter (S k) v with Some (_, a, _), Some (_, b, _) => 1 <= Rabs (a - b) | _, _ => False end.
Proof.
  intro n.
  assert (G : forall (n call : nat) (b : bool) (param scale : R) (last : list R), exists par w chisq,
     rloop (fun k (_ : option (list R)) => Some (0, if Nat.even k then 2 else 1, 1)) (fun p => [p]) (k_result uniformk) Both 3 (1 / 10) [1] None n call param (if b then 2 else 1) scale last = Some (par, w, chisq)).
  { clear n. induction n as [|n IH]; intros call b param scale last; [do 3 eexists; reflexivity|]. cbn [rloop].
    destruct (Rlt_dec (Rabs _) _); [do 3 eexists; reflexivity|]. apply (IH _ (Nat.even call)). }
  exists (fun k (_ : option (list R)) => Some (0, if Nat.even k then 2 else 1, 1)).
  destruct (G (S n) 1%nat true 0 1 []) as (par & w & chisq & E). exists par, w, chisq. split; [exact E|].
  intros k u v. rewrite Nat.even_succ, <- Nat.negb_even. destruct (Nat.even k); cbn [negb]; split_Rabs; lra.
Qed.
Print Assumptions C43_not_converged_refuted.
