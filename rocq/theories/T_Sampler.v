(** C92: walkers turned into samples, attributes, iterations and reports of a sampler, success rates, journeys and steps out of an engine. *)
From Coq Require Import String List Reals ZArith Bool Lia Lra Psatz.
From Verif Require Import M_Nested M_Sampler.
Import ListNotations.
Local Open Scope R_scope.

(** ** Walkers and samples *)

(** The sample has all (super)parameters of the walker, in the same order, and its identity and likelihood. *)
Theorem C92_sample np model w lw : (match model with Some nm => nm <= np | None => True end)%nat ->
  sampleAllpars (toSample np model w lw) = w_allpars w /\ s_id (toSample np model w lw) = w_id w /\ s_parent (toSample np model w lw) = w_parent w /\
  s_start (toSample np model w lw) = w_start w /\ s_fit (toSample np model w lw) = w_fit w /\
  s_logL (toSample np model w lw) = w_logL w + w_prior w /\ sampleWeight (toSample np model w lw) = exp lw.
Proof.
  intro H. repeat split. unfold sampleAllpars, toSample. cbn [s_pars s_nuis s_hyper]. set (nm := match model with Some nm => nm | None => np end).
  assert (N : (nm <= np)%nat) by (unfold nm; destruct model; lia). clearbody nm. set (l := w_allpars w). clearbody l.
  assert (A : (if (nm <? np)%nat then Some (skipn nm (firstn np l)) else None) = None /\ nm = np \/ (nm <? np)%nat = true).
  { destruct (Nat.ltb_spec nm np); [right; reflexivity|left; split; [reflexivity|lia]]. }
  assert (B : match (if (nm <? np)%nat then Some (skipn nm (firstn np l)) else None) with Some n => n | None => [] end = skipn nm (firstn np l)).
  { destruct A as [[-> ->]| ->]; [|reflexivity]. symmetry. apply skipn_all2. rewrite firstn_length. lia. }
  assert (C : match (if (np <? length l)%nat then Some (skipn np l) else None) with Some h => h | None => [] end = skipn np l).
  { destruct (Nat.ltb_spec np (length l)); [reflexivity|]. symmetry. apply skipn_all2. lia. }
  rewrite B, C, app_assoc. replace (firstn nm l) with (firstn nm (firstn np l)) by (rewrite firstn_firstn; f_equal; lia).
  rewrite firstn_skipn, firstn_skipn. reflexivity.
Qed.
Print Assumptions C92_sample.
(** The parts: parameters of the model, nuisance parameters of the problem and hyperparameters of the distribution. *)
Theorem C92_parts nm pars nuis hyp w lw : w_allpars w = pars ++ nuis ++ hyp -> length pars = nm ->
  let s := toSample (nm + length nuis) (Some nm) w lw in
  s_pars s = pars /\ s_nuis s = (if (0 <? length nuis)%nat then Some nuis else None) /\ sampleHypars s = (if (0 <? length hyp)%nat then Some hyp else None) /\
  walkerParameters (Some nm) w = Some pars.
Proof.
  intros E N s. unfold s, sampleHypars, walkerParameters, toSample. cbn [s_pars s_nuis s_hyper]. rewrite E.
  assert (P : firstn nm (pars ++ nuis ++ hyp) = pars) by (rewrite <- N, firstn_app, Nat.sub_diag, firstn_all; apply app_nil_r).
  rewrite P. rewrite !app_length, N. split; [reflexivity|]. split; [|split; [|reflexivity]].
  - replace (nm <? nm + length nuis)%nat with (0 <? length nuis)%nat by (destruct (Nat.ltb_spec 0 (length nuis)), (Nat.ltb_spec nm (nm + length nuis)); reflexivity || lia).
    destruct (0 <? length nuis)%nat; [|reflexivity]. f_equal. rewrite app_assoc, firstn_app, app_length, N, Nat.sub_diag, app_nil_r, firstn_all2 by (rewrite app_length; lia).
    rewrite <- N, skipn_app, Nat.sub_diag, skipn_all. reflexivity.
  - replace (nm + length nuis <? nm + (length nuis + length hyp))%nat with (0 <? length hyp)%nat
      by (destruct (Nat.ltb_spec 0 (length hyp)), (Nat.ltb_spec (nm + length nuis) (nm + (length nuis + length hyp))); reflexivity || lia).
    destruct (0 <? length hyp)%nat; [|reflexivity]. f_equal. rewrite app_assoc, skipn_app, app_length, N, Nat.sub_diag, skipn_all2 by (rewrite app_length; lia). reflexivity.
Qed.
Print Assumptions C92_parts.
(** Without nuisance parameters the walker has the hyperparameters of its sample (and None when there are none). *)
Theorem C92_hypars nm w lw : walkerHypars (Some nm) w = Some (sampleHypars (toSample nm (Some nm) w lw)).
Proof. reflexivity. Qed.
Print Assumptions C92_hypars.
(** With nuisance parameters the hypars of a walker start with these: they are not those of its sample. *)
Theorem C92_nuisance_refuted nm pars nuis hyp w : w_allpars w = pars ++ nuis ++ hyp -> length pars = nm -> nuis <> [] ->
  walkerHypars (Some nm) w = Some (Some (nuis ++ hyp)).
Proof.
  intros E N Z. unfold walkerHypars. rewrite E, !app_length, N. destruct (Nat.ltb_spec nm (nm + (length nuis + length hyp))).
  - rewrite <- N, skipn_app, Nat.sub_diag, skipn_all. reflexivity.
  - destruct nuis; [contradiction|cbn in *; lia].
Qed.
Print Assumptions C92_nuisance_refuted.
(** A problem without a model: its walkers have no parameters or hypars at all, although their samples do. *)
Theorem C92_nomodel_refuted np w lw : walkerParameters None w = None /\ walkerHypars None w = None /\
  s_pars (toSample np None w lw) = firstn np (w_allpars w).
Proof. repeat split. Qed.
Print Assumptions C92_nomodel_refuted.
Example C92_sample_case : let w := mkW 3 (-1) 0 [1; 2; 3; 4; 5] None (-2) 0 in
  sampleAllpars (toSample 4 (Some 2%nat) w 0) = [1; 2; 3; 4; 5] /\ s_nuis (toSample 4 (Some 2%nat) w 0) = Some [3; 4] /\
  sampleHypars (toSample 4 (Some 2%nat) w 0) = Some [5] /\ walkerHypars (Some 2%nat) w = Some (Some [3; 4; 5]).
Proof. repeat split. Qed.

(** ** Iterations *)

(** When the sampling stops the iterations have reached the expected maximum; *)
Theorem C92_stop minI maxI tol e worst s : nextIteration minI maxI tol e worst s = false -> getMaxIter minI maxI tol e worst s <= INR (st_iter s).
Proof.
  unfold nextIteration, getMaxIter. set (E := e * INR (length (st_walkers s)) * st_info s / INR worst). clearbody E.
  destruct (Nat.ltb_spec (st_iter s) minI) as [|M]; [discriminate|]. apply le_INR in M. intro H.
  destruct (Rlt_dec (st_logdZ s) tol) as [|T].
  - destruct maxI as [m|]; [apply Rle_trans with (1 := Rmin_l _ _)|]; apply Rmax_lub; lra.
  - destruct maxI as [m|].
    + destruct (Nat.ltb_spec m (st_iter s)) as [X|X].
      * apply Rle_trans with (1 := Rmin_r _ _). apply le_INR. lia.
      * destruct (Rgt_dec (INR (st_iter s)) E); [|discriminate]. apply Rle_trans with (1 := Rmin_l _ _). apply Rmax_lub; lra.
    + destruct (Rgt_dec (INR (st_iter s)) E); [|discriminate]. apply Rmax_lub; lra.
Qed.
Print Assumptions C92_stop.
(** Once the evidence has converged, after the minimum of iterations, the present iteration is reported as the last one, unless the maximum has
    been passed. *)
Theorem C92_converged minI tol e worst s : (minI <= st_iter s)%nat -> st_logdZ s < tol ->
  getMaxIter minI None tol e worst s = INR (st_iter s) /\
  forall m, getMaxIter minI (Some m) tol e worst s = INR (Nat.min (st_iter s) m).
Proof.
  intros M T. apply le_INR in M. unfold getMaxIter. destruct (Rlt_dec (st_logdZ s) tol) as [_|X]; [|contradiction].
  rewrite Rmax_right by exact M. split; [reflexivity|]. intro m. destruct (Nat.le_ge_cases (st_iter s) m) as [H|H].
  - rewrite Nat.min_l by exact H. apply Rmin_left, le_INR, H.
  - rewrite Nat.min_r by exact H. apply Rmin_right, le_INR, H.
Qed.
Print Assumptions C92_converged.
Example C92_converged_case : let s := mkST (repeat (mkNW 0 0 0 []) 10) sl_empty None 3 0 0 40 (-13) in
  getMaxIter 20 None (-12) 2 1 s = INR 40 /\ getMaxIter 20 (Some 30%nat) (-12) 2 1 s = INR 30.
Proof.
  intro s. destruct (C92_converged 20 (-12) 2 1 s) as [A B]; [cbn; lia|cbn; lra|]. split; [exact A|exact (B 30%nat)].
Qed.
(** and as long as it goes on they have not passed it, when the maximum that is set is not below the minimum. *)
Theorem C92_continue minI maxI tol e worst s : (match maxI with Some m => minI <= m | None => True end)%nat ->
  nextIteration minI maxI tol e worst s = true -> INR (st_iter s) <= getMaxIter minI maxI tol e worst s.
Proof.
  unfold nextIteration, getMaxIter. set (E := e * INR (length (st_walkers s)) * st_info s / INR worst). clearbody E. intros W.
  destruct (Nat.ltb_spec (st_iter s) minI) as [M|M]; intro H.
  - assert (A : INR (st_iter s) <= INR minI) by (apply le_INR; lia).
    assert (B : forall x, INR (st_iter s) <= Rmax (INR minI) x) by (intro x; apply Rle_trans with (1 := A), Rmax_l).
    destruct maxI as [m|]; [|apply B]. apply Rmin_glb; [apply B|]. apply le_INR. lia.
  - destruct (Rlt_dec (st_logdZ s) tol) as [|T]; [discriminate|]. destruct maxI as [m|].
    + destruct (Nat.ltb_spec m (st_iter s)) as [|X]; [discriminate|]. destruct (Rgt_dec (INR (st_iter s)) E); [discriminate|].
      apply Rmin_glb; [apply Rle_trans with E; [lra|apply Rmax_r]|apply le_INR; lia].
    + destruct (Rgt_dec (INR (st_iter s)) E); [discriminate|]. apply Rle_trans with E; [lra|apply Rmax_r].
Qed.
Print Assumptions C92_continue.
(** A maximum below the minimum (which is 100 by default) is not obeyed, *)
Theorem C92_minimum_refuted minI m tol e worst s : (m < st_iter s < minI)%nat -> nextIteration minI (Some m) tol e worst s = true /\
  getMaxIter minI (Some m) tol e worst s < INR (st_iter s).
Proof.
  intros [A B]. split; [unfold nextIteration; destruct (Nat.ltb_spec (st_iter s) minI); [reflexivity|lia]|].
  unfold getMaxIter. apply Rle_lt_trans with (1 := Rmin_r _ _). apply lt_INR. exact A.
Qed.
Print Assumptions C92_minimum_refuted.
(** and at the maximum there is one iteration more. *)
Theorem C92_maximum_refuted minI m tol e worst s : (minI <= m)%nat -> st_iter s = m -> tol <= st_logdZ s -> INR m <= e * INR (length (st_walkers s)) * st_info s / INR worst ->
  nextIteration minI (Some m) tol e worst s = true.
Proof.
  intros A B C D. unfold nextIteration. rewrite B. destruct (Nat.ltb_spec m minI); [reflexivity|]. destruct (Rlt_dec (st_logdZ s) tol); [lra|].
  destruct (Nat.ltb_spec m m); [lia|]. destruct (Rgt_dec (INR m) _); [lra|reflexivity].
Qed.
Print Assumptions C92_maximum_refuted.
Example C92_iterations_case : let s it := mkST (repeat (mkNW 0 0 0 []) 10) sl_empty None 3 0 0 it 0 in
  nextIteration 20 (Some 50%nat) (-12) 2 1 (s 40%nat) = true /\ getMaxIter 20 (Some 50%nat) (-12) 2 1 (s 40%nat) = 50 /\
  nextIteration 20 (Some 50%nat) (-12) 2 1 (s 61%nat) = false /\ nextIteration 100 (Some 50%nat) (-12) 2 1 (s 61%nat) = true /\
  nextIteration 20 (Some 50%nat) (-12) 2 1 (s 50%nat) = true.
Proof.
  intro s. assert (E : 2 * INR (length (st_walkers (s 40%nat))) * st_info (s 40%nat) / INR 1 = 60) by (unfold s; cbn [st_walkers st_info]; rewrite repeat_length; cbn; field).
  assert (E' : forall it, st_walkers (s it) = st_walkers (s 40%nat) /\ st_info (s it) = st_info (s 40%nat)) by (intro; split; reflexivity).
  assert (G : forall a b it, nextIteration a (Some b) (-12) 2 1 (s it) = if (it <? a)%nat then true else if (b <? it)%nat then false else if Rgt_dec (INR it) 60 then false else true).
  { intros a b it. unfold nextIteration. destruct (E' it) as [-> ->]. rewrite E. cbn [st_iter st_logdZ s]. destruct (it <? a)%nat; [reflexivity|].
    destruct (Rlt_dec 0 (-12)); [lra|reflexivity]. }
  rewrite !G. unfold getMaxIter. rewrite E. cbn [Nat.ltb Nat.leb].
  assert (X : INR 40 = 40 /\ INR 50 = 50 /\ INR 20 = 20) by (rewrite !INR_IZR_INZ; cbn; lra). destruct X as (X1 & X2 & X3).
  rewrite X1, X2, X3. destruct (Rgt_dec 40 60); [lra|]. destruct (Rgt_dec 50 60); [lra|]. unfold s at 1. cbn [st_logdZ]. destruct (Rlt_dec 0 (-12)); [lra|].
  rewrite Rmax_right, Rmin_right by lra. repeat split.
Qed.

(** ** Attributes *)

(** The evidence is the logarithm of Z to the base ten, with a precision to the same base. *)
Theorem C92_evidence logZ info n : exists e p q, samplerAttribute logZ info n "evidence" = Number e /\ Rpower 10 e = exp logZ /\
  samplerAttribute logZ info n "logZprecision" = Number p /\ p = sqrt (Rmax info 0 / INR n) /\
  samplerAttribute logZ info n "precision" = Number q /\ Rpower 10 q = exp p.
Proof.
  assert (T : ln 10 <> 0) by (apply Rgt_not_eq; rewrite <- ln_1; apply ln_increasing; lra).
  do 3 eexists. split; [reflexivity|]. split; [unfold Rpower; f_equal; field; exact T|]. split; [reflexivity|]. split; [reflexivity|]. split; [reflexivity|].
  unfold Rpower. f_equal. field. exact T.
Qed.
Print Assumptions C92_evidence.
(** The names that are answered otherwise *)
Theorem C92_others logZ info n name : In name others -> samplerAttribute logZ info n name = Other name.
Proof. intro H. unfold others in H. cbn in H. repeat (destruct H as [<-|H]; [reflexivity|]). contradiction. Qed.
Print Assumptions C92_others.
(** Any other name, also a misspelled one, is answered with None: there is no AttributeError. *)
Theorem C92_attribute_refuted logZ info n name : ~ In name others -> ~ In name ["evidence"; "logZprecision"; "precision"]%string ->
  samplerAttribute logZ info n name = NoneValue.
Proof.
  intros A B. unfold samplerAttribute. cbn [In] in B.
  destruct (String.eqb_spec name "evidence") as [->|]; [exfalso; apply B; auto|]. destruct (String.eqb_spec name "logZprecision") as [->|]; [exfalso; apply B; auto|].
  destruct (String.eqb_spec name "precision") as [->|]; [exfalso; apply B; auto|].
  destruct (existsb (String.eqb name) others) eqn:X; [|reflexivity]. apply existsb_exists in X. destruct X as (x & I & Y). apply String.eqb_eq in Y. subst. contradiction.
Qed.
Print Assumptions C92_attribute_refuted.
Example C92_attribute_case : samplerAttribute 0 0 100 "evidences" = NoneValue /\ samplerAttribute 0 0 100 "yfit" = Other "yfit".
Proof. split; reflexivity. Qed.

(** ** Plots and reports *)

(** Plots during the iterations are asked by "iter" and "all" (and "test"), at the end by "last", "all" and True. *)
Theorem C92_plots p : (doIterPlot p = 1%nat <-> p = PStr "iter" \/ p = PStr "all") /\ (doIterPlot p = 2%nat <-> p = PStr "test") /\
  (doIterPlot p <= 2)%nat /\ (doLastPlot p = true <-> p = PStr "last" \/ p = PStr "all" \/ p = PBool true).
Proof.
  assert (D : forall a b, PStr a = PStr b <-> a = b) by (intros; split; [intro H; injection H; auto|intros ->; reflexivity]).
  assert (F1 : forall b s, PBool b <> PStr s) by discriminate. assert (F2 : forall s, PNone <> PStr s) by discriminate.
  destruct p as [s|b|]; cbn [doIterPlot doLastPlot].
  - rewrite !D. destruct (String.eqb_spec s "iter") as [->|I]; [cbn; repeat split; try (intro H; (discriminate || (repeat destruct H as [H|H]; discriminate)) || auto); auto|].
    destruct (String.eqb_spec s "all") as [->|A]; [cbn; repeat split; try (intro H; (discriminate || (repeat destruct H as [H|H]; discriminate)) || auto); auto|].
    cbn [orb]. destruct (String.eqb_spec s "test") as [->|T]; [cbn; repeat split; try (intro H; (discriminate || (repeat destruct H as [H|H]; discriminate)) || auto); auto|].
    destruct (String.eqb_spec s "last") as [->|L]; cbn; repeat split; auto; try (intro H; (discriminate || contradiction || (repeat destruct H as [H|H]; discriminate || contradiction))).
  - repeat split; try (intro H; (discriminate || (repeat destruct H as [H|H]; discriminate))); try lia. intros ->. auto. intros [H|[H|H]]; try discriminate. injection H as ->. reflexivity.
  - repeat split; try (intro H; (discriminate || (repeat destruct H as [H|H]; discriminate))); lia.
Qed.
Print Assumptions C92_plots.

(** In the heading the k-th name is called unknown when -(k+1) is fitted. *)
Lemma hyperNames_nth names : forall k np fit n, nth_error names k = Some n -> nth_error (hyperNames names np fit) k = Some (n, existsb (Z.eqb (np - Z.of_nat k)) fit).
Proof.
  induction names as [|m names IH]; intros [|k] np fit n H; try discriminate.
  - injection H as ->. cbn. rewrite Z.sub_0_r. reflexivity.
  - cbn [nth_error] in H. cbn [hyperNames nth_error]. rewrite (IH _ _ _ _ H). replace (np - 1 - Z.of_nat k)%Z with (np - Z.of_nat (Datatypes.S k))%Z by lia. reflexivity.
Qed.
(** The hyperparameter k of nh has index k - nh in the list of all (super)parameters. The heading is right when all or none of them are fitted, *)
Theorem C92_heading names fit k n : nth_error names k = Some n ->
  (forall i, (i < length names)%nat -> In (Z.of_nat i - Z.of_nat (length names))%Z fit) \/ (forall i, (i < length names)%nat -> ~ In (Z.of_nat i - Z.of_nat (length names))%Z fit) ->
  exists u, nth_error (hyperNames names (-1) fit) k = Some (n, u) /\ (u = true <-> In (Z.of_nat k - Z.of_nat (length names))%Z fit).
Proof.
  intros N A. exists (existsb (Z.eqb (-1 - Z.of_nat k)) fit). split; [apply hyperNames_nth, N|]. assert (K : (k < length names)%nat) by (apply nth_error_Some; rewrite N; discriminate).
  assert (I : forall z, existsb (Z.eqb z) fit = true <-> In z fit).
  { intro z. rewrite existsb_exists. split; [intros (x & X & Y); apply Z.eqb_eq in Y; subst; exact X|intro X; exists z; split; [exact X|apply Z.eqb_refl]]. }
  rewrite I. replace (-1 - Z.of_nat k)%Z with (Z.of_nat (length names - 1 - k) - Z.of_nat (length names))%Z by lia.
  destruct A as [A|A]; split; intro H; try (apply A; lia); exfalso.
  - apply (A (length names - 1 - k)%nat); [lia|exact H].
  - apply (A k); [exact K|exact H].
Qed.
Print Assumptions C92_heading.
(** but with one of two fitted the other is called unknown: only the power (index -1) is fitted, the scale (index -2) is known. The same for the
    names above the columns: the last column is the power. *)
Theorem C92_heading_refuted np : let fit := (map Z.of_nat (seq 0 np) ++ [-1])%list%Z in
  hyperNames ["scale"; "power"]%string (-1) fit = [("scale", true); ("power", false)]%string /\ tailNames ["scale"; "power"]%string 1 = [Some "scale"%string].
Proof.
  intro fit. split; [|reflexivity]. unfold hyperNames. do 2 f_equal; [|f_equal]; f_equal; unfold fit; rewrite existsb_app.
  - cbn. apply orb_true_r.
  - cbn [existsb]. replace (-1 - 1 =? -1)%Z with false by reflexivity. rewrite !orb_false_r. induction (seq 0 np) as [|a l IH]; [reflexivity|].
    cbn [map existsb]. rewrite IH. destruct (Z.eqb_spec (-1 - 1) (Z.of_nat a)); [lia|reflexivity].
Qed.
Print Assumptions C92_heading_refuted.
(** The tail: the negative indices at the end of the list, without the first item. *)
Theorem C92_tail fit t : reportTail fit = Some t ->
  (t < length fit)%nat /\ (forall i, (i < t)%nat -> (nth (length fit - 1 - i) fit 0 < 0)%Z) /\ ((t + 1)%nat = length fit \/ (0 <= nth (length fit - 1 - t) fit 0)%Z).
Proof.
  unfold reportTail. destruct fit as [|z r]; [discriminate|]. set (fit := z :: r). assert (L : (0 < length fit)%nat) by (cbn; lia). clearbody fit.
  intro H. injection H as H.
  assert (G : forall fuel s, (s < length fit)%nat -> (length fit <= fuel + s)%nat -> (forall i, (i < s)%nat -> (nth (length fit - 1 - i) fit 0 < 0)%Z) -> tailLoop fuel fit s = t ->
    (t < length fit)%nat /\ (forall i, (i < t)%nat -> (nth (length fit - 1 - i) fit 0 < 0)%Z) /\ (t + 1 = length fit \/ (0 <= nth (length fit - 1 - t) fit 0)%Z)%nat).
  { induction fuel as [|f IH]; intros s S F B E; [lia|]. cbn [tailLoop] in E.
    destruct (Z.ltb_spec (nth (length fit - 1 - s) fit 0%Z) 0%Z) as [Q|Q]; cbn [andb] in E.
    - destruct (Nat.ltb_spec (s + 1) (length fit)).
      + apply (IH (Datatypes.S s)); [lia|lia| |exact E]. intros i Hi. destruct (Nat.eq_dec i s) as [->|]; [exact Q|apply B; lia].
      + clear IH H; subst t. split; [lia|]. split; [exact B|]. left. lia.
    - clear IH H; subst t. split; [lia|]. split; [exact B|]. right. exact Q. }
  apply (G (length fit) 0%nat); [lia|lia|lia|exact H].
Qed.
Print Assumptions C92_tail.
Example C92_tail_case : reportTail [0; 1; -2; -1]%Z = Some 2%nat /\ reportTail [-1]%Z = Some 0%nat /\ reportTail [] = None.
Proof. repeat split. Qed.

(** With verbose 1 there is one mark at every repiter iterations and a new line at every 50 marks; with 2 a line at every repiter iterations; with 3 or
    more a line at each, with 0 nothing. *)
Definition isMark (p : printed) : bool := match p with Mark _ => true | _ => false end.
Definition isNewline (p : printed) : bool := match p with Mark b => b | _ => false end.
Definition isLine (p : printed) : bool := match p with Line => true | _ => false end.
Definition count (f : printed -> bool) (v rep n : nat) : nat := length (filter (fun it => f (iterReport v rep it)) (seq 0 n)).
Lemma count_S f v rep n : count f v rep (S n) = (count f v rep n + if f (iterReport v rep n) then 1 else 0)%nat.
Proof. unfold count. rewrite seq_S, filter_app, app_length. cbn. destruct (f _); reflexivity. Qed.
Lemma ceil_S rep n : (1 <= rep)%nat -> ((S n + (rep - 1)) / rep = (n + (rep - 1)) / rep + if n mod rep =? 0 then 1 else 0)%nat.
Proof.
  intro R. pose proof (Nat.div_mod n rep ltac:(lia)) as D. pose proof (Nat.mod_upper_bound n rep ltac:(lia)) as B. set (q := (n / rep)%nat) in *. set (m := (n mod rep)%nat) in *. clearbody q m.
  destruct (Nat.eqb_spec m 0) as [->|M].
  - replace ((n + (rep - 1)) / rep)%nat with q by (apply Nat.div_unique with (rep - 1)%nat; nia). symmetry. apply Nat.div_unique with 0%nat; nia.
  - replace ((n + (rep - 1)) / rep)%nat with (q + 1)%nat by (apply Nat.div_unique with (m - 1)%nat; nia). symmetry. apply Nat.div_unique with m; nia.
Qed.
Theorem C92_marks rep n : (1 <= rep)%nat -> count isMark 1 rep n = ((n + (rep - 1)) / rep)%nat /\ count isNewline 1 rep n = (count isMark 1 rep n / 50)%nat /\ count isLine 1 rep n = 0%nat.
Proof.
  intro R. induction n as [|n (A & B & C)].
  - repeat split. cbn. symmetry. apply Nat.div_small. lia.
  - rewrite !count_S, C, B, A. unfold iterReport. cbn [Nat.leb orb andb]. rewrite (ceil_S rep n R).
    destruct (Nat.eqb_spec (n mod rep) 0) as [M|M]; cbn [Nat.eqb isMark isNewline isLine]; [|rewrite !Nat.add_0_r; repeat split].
    split; [reflexivity|]. split; [|reflexivity].
    assert (Q : ((n + (rep - 1)) / rep = n / rep)%nat).
    { symmetry. apply Nat.div_unique with (rep - 1)%nat; [lia|]. pose proof (Nat.div_mod n rep ltac:(lia)). lia. }
    rewrite Q. set (k := (n / rep)%nat). clearbody k. pose proof (Nat.div_mod k 50 ltac:(lia)) as D. pose proof (Nat.mod_upper_bound k 50 ltac:(lia)) as U.
    destruct (Nat.eqb_spec (k mod 50) 49) as [E|E].
    + apply Nat.div_unique with 0%nat; lia.
    + apply Nat.div_unique with (k mod 50 + 1)%nat; lia.
Qed.
Print Assumptions C92_marks.
Theorem C92_lines v rep n : (1 <= rep)%nat -> count isLine v rep n = (match v with 0 | 1 => 0 | 2 => (n + (rep - 1)) / rep | _ => n end)%nat /\
  (v <> 1%nat -> count isMark v rep n = 0%nat).
Proof.
  intro R. destruct v as [|[|[|v]]].
  - split; [|intros _]; induction n as [|n IH]; try reflexivity; rewrite count_S, IH; reflexivity.
  - split; [apply (C92_marks rep n R)|intro H; contradiction H; reflexivity].
  - split; [|intros _]; induction n as [|n IH].
    + cbn. symmetry. apply Nat.div_small. lia.
    + rewrite count_S, IH, (ceil_S rep n R). unfold iterReport. cbn [Nat.leb orb andb Nat.eqb]. destruct (n mod rep =? 0)%nat; reflexivity.
    + reflexivity.
    + rewrite count_S, IH. unfold iterReport. cbn [Nat.leb orb andb Nat.eqb]. destruct (n mod rep =? 0)%nat; reflexivity.
  - split; [|intros _]; induction n as [|n IH]; try reflexivity; rewrite count_S, IH; cbn; lia.
Qed.
Print Assumptions C92_lines.
Example C92_marks_case : count isMark 1 2 101 = 51%nat /\ count isNewline 1 2 101 = 1%nat /\ count isLine 2 10 25 = 3%nat.
Proof. repeat split. Qed.

(** ** Engines *)

Lemma reports_cons e es c : reports (e :: es) c = reports es (report e c).
Proof. reflexivity. Qed.
Definition tries (es : list event) : nat := length (filter (fun e => match e with Success | Reject | Failed => true | _ => false end) es).
Definition wins (es : list event) : nat := length (filter (fun e => match e with Success => true | _ => false end) es).
Lemma reports_counts es : forall c, c_success (reports es c) = (c_success c + wins es)%nat /\ trials (reports es c) = (trials c + tries es)%nat.
Proof.
  induction es as [|e es IH]; intro c; [split; cbn; lia|]. rewrite reports_cons. destruct (IH (report e c)) as [A B]. rewrite A, B.
  destruct e; unfold trials, wins, tries; cbn [report c_success c_reject c_failed filter length]; split; lia.
Qed.
Lemma wins_tries es : (wins es <= tries es)%nat.
Proof. unfold wins, tries. induction es as [|[] es IH]; cbn [filter length]; lia. Qed.
(** The rate is the percentage of the successes among the trials since the last time that it was asked. *)
Theorem C92_rate es c : (0 < tries es)%nat ->
  successRate (reports es c) (Some (c_success c, trials c)) =
    (Some (100 * INR (wins es) / INR (tries es)), (c_success (reports es c), trials (reports es c))) /\
  0 <= 100 * INR (wins es) / INR (tries es) <= 100.
Proof.
  intro T. assert (P : 0 < INR (tries es)) by (apply lt_0_INR; exact T). split.
  - unfold successRate. cbn [fst snd]. destruct (reports_counts es c) as [-> ->]. rewrite !plus_INR.
    replace (INR (trials c) + INR (tries es) - INR (trials c)) with (INR (tries es)) by ring.
    replace (INR (c_success c) + INR (wins es) - INR (c_success c)) with (INR (wins es)) by ring. destruct (Req_EM_T _ _); [lra|reflexivity].
  - assert (W : INR (wins es) <= INR (tries es)) by (apply le_INR, wins_tries). pose proof (pos_INR (wins es)).
    split; [apply Rmult_le_pos; [lra|left; apply Rinv_0_lt_compat, P]|]. apply Rmult_le_reg_r with (INR (tries es)); [exact P|]. unfold Rdiv. rewrite Rmult_assoc, Rinv_l by lra. lra.
Qed.
Print Assumptions C92_rate.
(** The first time it is over all trials. *)
Theorem C92_rate_first es : (0 < tries es)%nat -> let c := reports es (mkC 0 0 0 0 0) in
  successRate c None = (Some (100 * INR (wins es) / INR (tries es)), (c_success c, trials c)).
Proof. intros T c. exact (proj1 (C92_rate es (mkC 0 0 0 0 0) T)). Qed.
Print Assumptions C92_rate_first.
(** When there were no trials in between, it is a division by zero. *)
Theorem C92_rate_refuted es c : tries es = 0%nat -> fst (successRate (reports es c) (Some (c_success c, trials c))) = None.
Proof.
  intro T. unfold successRate. cbn [snd]. destruct (reports_counts es c) as [_ ->]. rewrite T, Nat.add_0_r. destruct (Req_EM_T _ _) as [|N]; [reflexivity|]. exfalso. apply N. ring.
Qed.
Print Assumptions C92_rate_refuted.
(** Each event is counted once, in its place. *)
Theorem C92_reports es : let c := reports es (mkC 0 0 0 0 0) in let n e := length (filter (fun f => match e, f with Call, Call | Success, Success | Reject, Reject | Failed, Failed | Best, Best => true | _, _ => false end) es) in
  c_success c = n Success /\ c_reject c = n Reject /\ c_failed c = n Failed /\ c_best c = n Best /\ c_calls c = n Call.
Proof.
  cbn zeta beta.
  assert (G : forall a b d e f, let n e := length (filter (fun f => match e, f with Call, Call | Success, Success | Reject, Reject | Failed, Failed | Best, Best => true | _, _ => false end) es) in
     reports es (mkC a b d e f) = mkC (a + n Success) (b + n Reject) (d + n Failed) (e + n Best) (f + n Call)).
  { induction es as [|x es IH]; intros a b d e f; [cbn; rewrite !Nat.add_0_r; reflexivity|]. rewrite reports_cons. destruct x; cbn [report c_success c_reject c_failed c_best c_calls]; rewrite IH; cbn [filter length]; f_equal; lia. }
  rewrite G. repeat split.
Qed.
Print Assumptions C92_reports.
Example C92_rate_case : exists r, fst (successRate (reports [Call; Success; Reject; Reject; Failed] (mkC 0 0 0 0 0)) None) = Some r /\ r = 25.
Proof.
  eexists. split.
  - rewrite C92_rate_first by (cbn; lia). reflexivity.
  - cbn. field.
Qed.

(** The length of a journey is at least the distance between its begin and its end. *)
Definition vadd (a b : list R) : list R := map (fun p => fst p + snd p) (combine a b).
Definition sq (v : list R) : R := fold_right (fun x s => x * x + s) 0 v.
Fixpoint dot (a b : list R) : R := match a, b with x :: a, y :: b => x * y + dot a b | _, _ => 0 end.
Lemma sq_pos v : 0 <= sq v.
Proof. induction v as [|x v IH]; cbn [sq fold_right]; [lra|]. fold (sq v). nra. Qed.
Lemma cauchy a : forall b, dot a b * dot a b <= sq a * sq b.
Proof.
  induction a as [|x a IH]; intros [|y b]; try (cbn [dot]; pose proof (sq_pos (x :: a)); cbn; nra); try (cbn; lra).
  cbn [dot]. change (sq (x :: a)) with (x * x + sq a). change (sq (y :: b)) with (y * y + sq b). specialize (IH b).
  pose proof (sq_pos a) as A. pose proof (sq_pos b) as B. set (p := sq a) in *. set (q := sq b) in *. set (c := dot a b) in *. clearbody p q c.
  assert (H : 2 * (x * y * c) <= x * x * q + y * y * p).
  { apply Rle_trans with (Rabs (2 * (x * y * c))); [apply Rle_abs|].
    rewrite <- (Rabs_pos_eq (x * x * q + y * y * p)) by nra. apply Rsqr_le_abs_0. unfold Rsqr.
    assert (X : (x * y) * (x * y) * (c * c) <= (x * y) * (x * y) * (p * q)) by (apply Rmult_le_compat_l; [nra|exact IH]).
    pose proof (Rle_0_sqr (x * x * q - y * y * p)) as Y. unfold Rsqr in Y. nra. }
  nra.
Qed.
Lemma norm_sq v : norm v * norm v = sq v.
Proof. unfold norm. apply sqrt_sqrt, sq_pos. Qed.
Lemma norm_pos v : 0 <= norm v.
Proof. apply sqrt_pos. Qed.
Lemma sq_vadd a : forall b, length a = length b -> sq (vadd a b) = sq a + 2 * dot a b + sq b.
Proof.
  induction a as [|x a IH]; intros [|y b] L; try discriminate; [cbn; lra|]. change (vadd (x :: a) (y :: b)) with (x + y :: vadd a b).
  change (sq (x + y :: vadd a b)) with ((x + y) * (x + y) + sq (vadd a b)). rewrite IH by (cbn in L; lia). cbn [dot sq fold_right]. fold (sq a) (sq b). ring.
Qed.
Lemma norm_triangle a b : length a = length b -> norm (vadd a b) <= norm a + norm b.
Proof.
  intro L. pose proof (norm_pos a) as A. pose proof (norm_pos b) as B. pose proof (norm_pos (vadd a b)) as C.
  assert (D : dot a b <= norm a * norm b).
  { apply Rle_trans with (Rabs (dot a b)); [apply Rle_abs|]. rewrite <- (Rabs_pos_eq (norm a * norm b)) by nra. apply Rsqr_le_abs_0. unfold Rsqr.
    pose proof (cauchy a b) as K. rewrite <- (norm_sq a), <- (norm_sq b) in K. lra. }
  apply Rsqr_incr_0; [|exact C|lra]. unfold Rsqr. rewrite norm_sq, sq_vadd by exact L. rewrite <- (norm_sq a), <- (norm_sq b). nra.
Qed.
Definition travel (start : list R) (ds : list (list R)) : journey := fold_left (fun j d => calcJourney d j) ds (startJourney start).
Definition endPoint (start : list R) (ds : list (list R)) : list R := fold_left vadd ds start.
Lemma vadd_length a b : length a = length b -> length (vadd a b) = length a.
Proof. intro L. unfold vadd. rewrite map_length, combine_length, <- L. lia. Qed.
Theorem C92_journey n start ds : length start = n -> (forall d, In d ds -> length d = n) ->
  reportJourney (travel start ds) = (norm start, fold_right (fun d s => norm d + s) 0 ds) /\
  norm (endPoint start ds) <= norm start + snd (reportJourney (travel start ds)) /\
  norm (endPoint (repeat 0 n) ds) <= snd (reportJourney (travel start ds)).
Proof.
  intros L D.
  assert (G : forall ds s l, fold_left (fun j d => calcJourney d j) ds (Some (s, l)) = Some (s, l + fold_right (fun d s => norm d + s) 0 ds)).
  { clear. induction ds as [|d ds IH]; intros s l; cbn [fold_left fold_right calcJourney]; [rewrite Rplus_0_r; reflexivity|]. rewrite IH. do 2 f_equal. ring. }
  assert (E : reportJourney (travel start ds) = (norm start, fold_right (fun d s => norm d + s) 0 ds)).
  { unfold travel, startJourney. rewrite G. cbn [reportJourney]. f_equal. ring. }
  assert (H : forall st, length st = n -> norm (endPoint st ds) <= norm st + fold_right (fun d s => norm d + s) 0 ds).
  { clear E L start. induction ds as [|d ds IH]; intros st L; cbn [endPoint fold_left fold_right]; [lra|].
    assert (Ld : length d = n) by (apply D; left; reflexivity).
    specialize (IH ltac:(intros; apply D; right; assumption) (vadd st d) ltac:(rewrite vadd_length; congruence)). unfold endPoint in IH.
    pose proof (norm_triangle st d ltac:(congruence)). lra. }
  split; [exact E|]. rewrite E. cbn [snd]. split; [apply H, L|].
  assert (Z : norm (repeat 0 n) = 0).
  { unfold norm. replace (fold_right _ 0 (repeat 0 n)) with 0; [apply sqrt_0|]. clear. induction n as [|n IH]; [reflexivity|]. cbn. rewrite <- IH. ring. }
  specialize (H (repeat 0 n) (repeat_length 0 n)). lra.
Qed.
Print Assumptions C92_journey.
(** Before it is started the report is (0,0) *)
Theorem C92_journey_none ds : reportJourney (fold_left (fun j d => calcJourney d j) ds None) = (0, 0).
Proof. induction ds as [|d ds IH]; [reflexivity|exact IH]. Qed.
Print Assumptions C92_journey_none.
Example C92_journey_case : reportJourney (travel [0; 0] [[3; 4]; [-3; -4]]) = (0, 10) /\ norm (endPoint [0; 0] [[3; 4]; [-3; -4]]) = 0.
Proof.
  assert (N : forall x y z, 0 <= z -> x * x + y * y = z * z -> norm [x; y] = z) by (intros x y z P Q; unfold norm; cbn; rewrite Rplus_0_r, Q; apply sqrt_square, P).
  destruct (C92_journey 2 [0; 0] [[3; 4]; [-3; -4]] eq_refl) as (-> & _ & _); [intros d [<-|[<-|[]]]; reflexivity|]. cbn [fold_right].
  rewrite (N 0 0 0), (N 3 4 5), (N (-3) (-4) 5) by lra. split; [f_equal; lra|]. cbn [endPoint fold_left vadd combine map fst snd]. apply N; lra.
Qed.

(** ** Stepping out *)

(** The step ends below the likelihood at a point before tmax, reached by doublings above it, or else at tmax. *)
Theorem C92_stepOut L low tmax fuel t r : stepOut L low tmax fuel t = Some r -> let t' := if Req_EM_T t 0 then 1 / 100 * tmax else t in
  exists k, (forall i, (i < k)%nat -> low < L (t' * 2 ^ i)) /\ (forall i, (0 < i < k)%nat -> Rabs (t' * 2 ^ i) < Rabs tmax) /\
    (r = t' * 2 ^ k /\ L r <= low /\ ((0 < k)%nat -> Rabs r < Rabs tmax) \/ r = tmax /\ Rabs tmax <= Rabs (t' * 2 ^ k)).
Proof.
  unfold stepOut. set (t' := if Req_EM_T t 0 then 1 / 100 * tmax else t). cbn zeta. clearbody t'. revert t'.
  induction fuel as [|f IH]; intros t' H; [discriminate|]. cbn [stepLoop] in H. destruct (Rle_dec (L t') low) as [A|A].
  - injection H as <-. exists 0%nat. split; [intros; lia|]. split; [intros; lia|]. left. cbn. rewrite Rmult_1_r. split; [reflexivity|]. split; [exact A|lia].
  - destruct (Rle_dec (Rabs tmax) (Rabs (t' * 2))) as [B|B].
    + injection H as <-. exists 1%nat. split; [intros i Hi; replace i with 0%nat by lia; cbn; rewrite Rmult_1_r; lra|]. split; [intros; lia|]. right. rewrite pow_1. split; [reflexivity|exact B].
    + destruct (IH _ H) as (k & P & Q & S).
      assert (M : forall i, t' * 2 * 2 ^ i = t' * 2 ^ Datatypes.S i) by (intro i; cbn [pow]; ring).
      exists (Datatypes.S k). rewrite (M k) in S. split; [|split].
      * intros [|i] Hi; [cbn; rewrite Rmult_1_r; lra|]. rewrite <- M. apply P. lia.
      * intros [|[|i]] Hi; [lia|rewrite pow_1; lra|]. rewrite <- M. apply Q. lia.
      * destruct S as [(S1 & S2 & S3)|S]; [left|right; exact S]. split; [exact S1|]. split; [exact S2|]. intros _.
        destruct k as [|k]; [rewrite S1, pow_1; lra|apply S3; lia].
Qed.
Print Assumptions C92_stepOut.
(** It always ends. *)
Theorem C92_stepOut_ends L low tmax t : exists fuel r, stepOut L low tmax fuel t = Some r.
Proof.
  set (t' := if Req_EM_T t 0 then 1 / 100 * tmax else t).
  assert (G : forall n u, Rabs tmax <= Rabs (u * 2 ^ n) -> exists fuel r, stepLoop L low tmax fuel u = Some r).
  { induction n as [|n IH]; intros u H.
    - exists 1%nat. cbn [stepLoop]. destruct (Rle_dec (L u) low); [eauto|]. destruct (Rle_dec (Rabs tmax) (Rabs (u * 2))) as [|N]; [eauto|]. exfalso. apply N.
      cbn in H. rewrite Rmult_1_r in H. rewrite Rabs_mult, (Rabs_pos_eq 2) by lra. pose proof (Rabs_pos u). lra.
    - destruct (IH (u * 2)) as (f & r & E); [replace (u * 2 * 2 ^ n) with (u * 2 ^ Datatypes.S n) by (cbn [pow]; ring); exact H|].
      exists (Datatypes.S f). cbn [stepLoop]. destruct (Rle_dec (L u) low); [eauto|]. destruct (Rle_dec (Rabs tmax) (Rabs (u * 2))); [eauto|]. exists r. exact E. }
  destruct (Req_EM_T t' 0) as [Z|Z].
  - assert (T : Rabs tmax <= 0 \/ t <> 0).
    { unfold t' in Z. destruct (Req_EM_T t 0); [left; replace tmax with 0 by lra; rewrite Rabs_R0; lra|right; assumption]. }
    destruct T as [T|T].
    + destruct (G 0%nat t') as (f & r & E); [pose proof (Rabs_pos (t' * 2 ^ 0)); lra|]. exists f, r. exact E.
    + exfalso. unfold t' in Z. destruct (Req_EM_T t 0); contradiction.
  - destruct (Pow_x_infinity 2 ltac:(rewrite Rabs_pos_eq; lra) (Rabs tmax / Rabs t')) as [n N]. specialize (N n (le_n n)).
    assert (P : 0 < Rabs t') by (apply Rabs_pos_lt, Z).
    destruct (G n t') as (f & r & E); [|exists f, r; exact E].
    rewrite Rabs_mult. apply Rge_le in N. apply (Rmult_le_compat_l (Rabs t')) in N; [|lra]. unfold Rdiv in N. replace (Rabs t' * (Rabs tmax * / Rabs t')) with (Rabs tmax) in N by (field; lra). exact N.
Qed.
Print Assumptions C92_stepOut_ends.
Example C92_stepOut_case : stepOut (fun t => - t) (-5) 100 9 1 = Some (1 * 2 * 2 * 2) /\ stepOut (fun t => 0) (-5) 3 9 1 = Some 3.
Proof.
  unfold stepOut. destruct (Req_EM_T 1 0); [lra|]. split; cbn [stepLoop].
  - destruct (Rle_dec (- (1)) (-5)); [lra|]. assert (A : forall x, 0 <= x -> Rabs x = x) by (intros; apply Rabs_pos_eq; assumption). rewrite !A by lra.
    destruct (Rle_dec 100 (1 * 2)); [lra|]. destruct (Rle_dec (- (1 * 2)) (-5)); [lra|]. destruct (Rle_dec 100 (1 * 2 * 2)); [lra|].
    destruct (Rle_dec (- (1 * 2 * 2)) (-5)); [lra|]. destruct (Rle_dec 100 (1 * 2 * 2 * 2)); [lra|]. destruct (Rle_dec (- (1 * 2 * 2 * 2)) (-5)); [reflexivity|lra].
  - assert (A : forall x, 0 <= x -> Rabs x = x) by (intros; apply Rabs_pos_eq; assumption). rewrite !A by lra.
    destruct (Rle_dec 0 (-5)); [lra|]. destruct (Rle_dec 3 (1 * 2)); [lra|]. destruct (Rle_dec 3 (1 * 2 * 2)); [reflexivity|lra].
Qed.
