(** C86: boosting the best walker with a fitter. *)
From Coq Require Import Reals List ZArith Bool Arith Lra Lia Sorting.Sorted.
From Verif Require Import M_Boost.
Import ListNotations.
Local Open Scope R_scope.

(** A boost does not lower the likelihood, and it keeps the stored likelihood that of the stored parameters;
    the list of fitted parameters stays what it was. *)
Theorem C86_better : forall nh fit sc logLik wl w w', doBoost nh fit sc logLik wl w = Done w' ->
  w_logL w <= w_logL w' /\ w_fit w' = w_fit w /\ (w' <> w -> w_logL w < w_logL w') /\
  (w_logL w = logLik (w_pars w) -> w_logL w' = logLik (w_pars w')).
Proof.
  intros nh fit sc logLik wl w w' E. assert (K : w' = w \/ w_logL w < w_logL w' /\ w_fit w' = w_fit w /\ w_logL w' = logLik (w_pars w')).
  { unfold doBoost in E. destruct wl as [l|]; [|injection E as <-; auto]. destruct (rev l) as [|t r]; [discriminate|].
    destruct (Rle_dec _ _); [injection E as <-; auto|]. destruct (fit _) as [p|]; [|injection E as <-; auto]. cbv zeta in E.
    destruct (Rlt_dec _ _); injection E as <-; cbn; auto. }
  destruct K as [-> |(L & F & G)].
  - split; [lra|]. split; [reflexivity|]. split; [intro N; contradiction|auto].
  - split; [lra|]. split; [exact F|]. split; auto.
Qed.
Print Assumptions C86_better.

(** Only a walker that is better than all phantoms is touched. *)
Theorem C86_best_only : forall nh fit sc logLik l w w', StronglySorted Rle l -> doBoost nh fit sc logLik (Some l) w = Done w' -> w' <> w ->
  forall x, In x l -> x < w_logL w.
Proof.
  intros nh fit sc logLik l w w' S E N x I. unfold doBoost in E. destruct (rev l) as [|t r] eqn:R; [discriminate|].
  destruct (Rle_dec (w_logL w) t) as [L|L]; [injection E as <-; contradiction|].
  assert (X : x <= t); [|lra].
  assert (El : l = rev r ++ [t]) by (rewrite <- (rev_involutive l), R; reflexivity). subst l. clear - S I.
  apply in_app_or in I. destruct I as [I|[-> |[]]]; [|lra]. revert S I. generalize (rev r). intro q. induction q as [|a q IH]; [intros _ []|].
  intros S I. inversion S as [|? ? S' F]; subst. destruct I as [-> |I]; [|apply IH; assumption].
  rewrite Forall_forall in F. apply F. apply in_or_app. right. left. reflexivity.
Qed.
Print Assumptions C86_best_only.

(** One hyper-parameter: the fitter starts at the parameters of the walker; the result replaces them, followed
    by the scale of the fitter when the scale is to be found, else by the old one. *)
Theorem C86_one : forall fit sc logLik l top mpars h L fi pars, (L > top) -> fit mpars = Some pars ->
  let p := pars ++ [if (last fi 0 =? -1)%Z then sc pars else h] in
  doBoost 1 fit sc logLik (Some (l ++ [top])) (mkW (mpars ++ [h]) L fi) =
  Done (if Rlt_dec L (logLik p) then mkW p (logLik p) fi else mkW (mpars ++ [h]) L fi).
Proof.
  intros fit sc logLik l top mpars h L fi pars T F p. unfold doBoost. rewrite rev_app_distr. cbn [rev app]. cbn [w_logL w_pars w_fit].
  destruct (Rle_dec L top); [lra|]. unfold allBut. cbn [Nat.eqb]. rewrite app_length. cbn [length]. replace (length mpars + 1 - 1)%nat with (length mpars + 0)%nat by lia.
  rewrite firstn_app_2. cbn [firstn]. rewrite app_nil_r, F. cbv zeta. unfold ptry. cbn [Nat.eqb w_fit w_pars]. rewrite last_last.
  unfold p. destruct (last fi 0 =? -1)%Z; destruct (Rlt_dec _ _); reflexivity.
Qed.
Print Assumptions C86_one.

(** a fitter that fails, or finds nothing better, leaves the walker as it is *)
Theorem C86_fails : forall nh fit sc logLik l w, l <> [] -> (forall p q, fit p = Some q -> logLik (ptry nh sc w q) <= w_logL w) ->
  doBoost nh fit sc logLik (Some l) w = Done w.
Proof.
  intros nh fit sc logLik l w NE H. unfold doBoost. destruct (rev l) as [|t r] eqn:R.
  - exfalso. apply NE. rewrite <- (rev_involutive l), R. reflexivity.
  - destruct (Rle_dec _ _); [reflexivity|]. destruct (fit _) as [p|] eqn:F; [|reflexivity]. cbv zeta. specialize (H _ _ F).
    destruct (Rlt_dec _ _); [lra|reflexivity].
Qed.
Print Assumptions C86_fails.

(** Without hyper-parameters (Poisson) the fitter does not start at the walker but at an empty list of parameters. *)
Theorem C86_no_hyper_refuted : forall fit fit' sc logLik wl w, fit [] = fit' [] -> doBoost 0 fit sc logLik wl w = doBoost 0 fit' sc logLik wl w.
Proof. intros fit fit' sc logLik wl w E. unfold doBoost, allBut. cbn [Nat.eqb]. rewrite E. reflexivity. Qed.
Print Assumptions C86_no_hyper_refuted.

(** With two or more hyper-parameters (exponential) the boosted list is too short: only one is put back. *)
Theorem C86_more_hyper_refuted : forall nh fit sc logLik wl w w', (2 <= nh <= length (w_pars w))%nat ->
  (forall p q, fit p = Some q -> length q = length p) -> doBoost nh fit sc logLik wl w = Done w' -> w' <> w ->
  (length (w_pars w') + (nh - 1) = length (w_pars w))%nat.
Proof.
  intros nh fit sc logLik wl w w' N H E NE. unfold doBoost in E. destruct wl as [l|]; [|injection E as <-; contradiction].
  destruct (rev l) as [|t r]; [discriminate|]. destruct (Rle_dec _ _); [injection E as <-; contradiction|].
  destruct (fit _) as [p|] eqn:F; [|injection E as <-; contradiction]. cbv zeta in E. apply H in F.
  destruct (Rlt_dec _ _); injection E as <-; [|contradiction]. cbn [w_pars]. unfold ptry, allBut in *. destruct (Nat.eqb_spec nh 0); [lia|].
  rewrite firstn_length in F. destruct (_ =? _)%Z; rewrite app_length; cbn [length]; lia.
Qed.
Print Assumptions C86_more_hyper_refuted.

(** All parameters of the model are fitted, without limits: a parameter that is kept fixed (not in fitIndex)
    gets the value that the fitter finds, and nothing keeps the values within the limits of the priors. *)
Theorem C86_keep_refuted : forall fit sc logLik top mpars h L pars, L > top -> fit mpars = Some pars -> logLik (pars ++ [h]) > L ->
  forall fi, last fi 0%Z <> (-1)%Z ->
  exists w', doBoost 1 fit sc logLik (Some [top]) (mkW (mpars ++ [h]) L fi) = Done w' /\ w_pars w' = pars ++ [h].
Proof.
  intros fit sc logLik top mpars h L pars T F B fi NF. pose proof (C86_one fit sc logLik [] top mpars h L fi pars T F) as E. cbv zeta in E.
  cbn [app] in E. destruct (Z.eqb_spec (last fi 0%Z) (-1)%Z); [contradiction|]. destruct (Rlt_dec _ _); [|lra]. eexists. split; [exact E|reflexivity].
Qed.
Print Assumptions C86_keep_refuted.

(** When the list of phantoms is empty, as it is after it has been cropped below a likelihood that none of them
    reaches, setting a walker raises IndexError. *)
Theorem C86_empty_refuted : forall nh fit sc logLik w, doBoost nh fit sc logLik (Some []) w = IndexError.
Proof. reflexivity. Qed.
Print Assumptions C86_empty_refuted.

(** Parameter 1 is kept at 5; likelihood -( a - 1 )^2 - ( b - 2 )^2, the fitter finds 1, 2. *)
Definition ll (p : list R) : R := match p with [a; b; _] => - ((a - 1) * (a - 1)) - (b - 2) * (b - 2) | [a; b] => - ((a - 1) * (a - 1)) - (b - 2) * (b - 2) | _ => 0 end.

Example C86_example :
  let w := mkW [3; 5; 1] (-13) [0]%Z in
  w_logL w = ll (w_pars w) /\ doBoost 1 (fun _ => Some [1; 2]) (fun _ => 7) ll (Some [-40; -20]) w = Done (mkW [1; 2; 1] (ll [1; 2; 1]) [0]%Z) /\
  StronglySorted Rle [-40; -20] /\ mkW [1; 2; 1] (ll [1; 2; 1]) [0]%Z <> w.
Proof.
  cbv zeta. split; [cbn; lra|]. split; [|split].
  - pose proof (C86_one (fun _ => Some [1; 2]) (fun _ => 7) ll [-40] (-20) [3; 5] 1 (-13) [0]%Z [1; 2] ltac:(lra) eq_refl) as E. cbv zeta in E.
    cbn [app last Z.eqb] in E. rewrite E. destruct (Rlt_dec (-13) (ll [1; 2; 1])) as [|N]; [reflexivity|]. exfalso. apply N. cbn. lra.
  - repeat constructor. lra.
  - intro E. injection E. lra.
Qed.

Example C86_example_more : exists w', doBoost 2 (fun p => Some (map (fun _ => 1) p)) (fun _ => 7) (fun p => INR (length p)) (Some [0]) (mkW [3; 5; 1; 2] (1/2) [0; 1; -2; -1]%Z) = Done w' /\ w_pars w' = [1; 1; 7].
Proof.
  unfold doBoost. cbn. destruct (Rle_dec (1 / 2) 0); [lra|]. destruct (Rlt_dec (1 / 2) (1 + 1 + 1)); [eexists; split; reflexivity|lra].
Qed.
