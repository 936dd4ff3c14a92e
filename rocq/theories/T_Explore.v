(** C88: the explorer and the PhantomSampler. *)
From Coq Require Import List Arith ZArith Reals Bool Lia Lra Sorting.Permutation Sorting.Sorted.
From Verif Require Import M_Order M_Nested P_Nested M_Explore.
Import ListNotations.
Local Open Scope R_scope.

(** *** Which engines *)
(** Engines without slow are always used, the others every slow-th iteration. *)
Theorem C88_select iteration es : (forall e, In e es -> e_slow e <> Some 0%nat) ->
  selectEngines iteration es = Some (filter (fun e => match e_slow e with None => true | Some s => (Nat.modulo iteration s =? 0)%nat end) es).
Proof.
  intro H. unfold selectEngines.
  assert (S : selEngines iteration es = Some (filter (fun e => match e_slow e with None => true | Some s => (Nat.modulo iteration s =? 0)%nat end) es)).
  { induction es as [|e r IH]; [reflexivity|]. cbn [selEngines filter]. rewrite IH by (intros; apply H; right; assumption).
    specialize (H e (or_introl eq_refl)). destruct (e_slow e) as [[|s]|]; [congruence| |reflexivity].
    destruct (Nat.modulo iteration (S s) =? 0)%nat; reflexivity. }
  destruct (existsb _ es) eqn:E; [exact S|]. f_equal. clear S H. induction es as [|e r IH]; [reflexivity|].
  cbn [existsb filter] in *. destruct (e_slow e); [discriminate|]. cbn in E. f_equal. apply IH. exact E.
Qed.
Print Assumptions C88_select.

(** *** The passes over the engines *)
(** Walkers and moves after n passes *)
Fixpoint after (perm : nat -> list engine) (kw : nat) (low : R) (append : bool) (ws : list nwalker) (n : nat) : list nwalker * nat :=
  match n with
  | O => (ws, 0%nat)
  | S m => let '(ws', mv) := after perm kw low append ws m in runEngines (perm m) kw low append ws' mv
  end.

Lemma passes_spec perm mm mt kw low append ws : forall fuel n set x,
  passes fuel perm mm mt kw low append (mkX (fst (after perm kw low append ws n)) (snd (after perm kw low append ws n)) n set) = Some x ->
  exists m, (n <= m)%nat /\ x_trials x = m /\ after perm kw low append ws m = (x_ws x, x_moves x) /\
    (forall k, (n <= k < m)%nat -> INR (snd (after perm kw low append ws k)) < mm /\ INR k < mt) /\
    ~ (INR (x_moves x) < mm /\ INR m < mt) /\
    x_set x = orb set (existsb (fun k => match perm k with [] => false | _ => true end) (seq n (m - n))).
Proof.
  induction fuel as [|f IH]; intros n set x H; cbn [passes x_moves x_trials x_ws x_set] in H.
  - destruct (Rlt_dec _ mm) as [A|A]; [destruct (Rlt_dec _ mt) as [B|B]; [discriminate|]|].
    all: injection H as <-; exists n; cbn [x_trials x_ws x_moves x_set]; rewrite <- surjective_pairing, Nat.sub_diag; cbn [seq existsb];
      rewrite Bool.orb_false_r; repeat split; try lia; try tauto.
  - destruct (Rlt_dec _ mm) as [A|A]; [destruct (Rlt_dec _ mt) as [B|B]|].
    + assert (E : after perm kw low append ws (S n) = runEngines (perm n) kw low append (fst (after perm kw low append ws n)) (snd (after perm kw low append ws n))).
      { cbn [after]. destruct (after perm kw low append ws n); reflexivity. }
      rewrite <- E in H. rewrite (surjective_pairing (after perm kw low append ws (S n))) in H.
      destruct (IH (S n) _ x H) as (m & Hm & T & Ex & Lo & St & Se). exists m. split; [lia|]. split; [exact T|]. split; [exact Ex|].
      split; [|split; [exact St|]].
      * intros k Hk. destruct (Nat.eq_dec k n) as [->|]; [split; assumption|]. apply Lo. lia.
      * rewrite Se. replace (m - n)%nat with (S (m - S n)) by lia. cbn [seq existsb]. rewrite Bool.orb_assoc. reflexivity.
    + injection H as <-; exists n; cbn [x_trials x_ws x_moves x_set]; rewrite <- surjective_pairing, Nat.sub_diag; cbn [seq existsb];
      rewrite Bool.orb_false_r; repeat split; try lia; try tauto.
    + injection H as <-; exists n; cbn [x_trials x_ws x_moves x_set]; rewrite <- surjective_pairing, Nat.sub_diag; cbn [seq existsb];
      rewrite Bool.orb_false_r; repeat split; try lia; try tauto.
Qed.

Lemma passes_end perm mm mt kw low append : forall fuel x, mt <= INR (fuel + x_trials x) -> passes fuel perm mm mt kw low append x <> None.
Proof.
  induction fuel as [|f IH]; intros x H; cbn [passes].
  - destruct (Rlt_dec _ mm); [|discriminate]. destruct (Rlt_dec _ mt); [cbn in H; lra|discriminate].
  - destruct (Rlt_dec _ mm); [|discriminate]. destruct (Rlt_dec _ mt); [|discriminate].
    destruct (runEngines _ _ _ _ _ _) as [w mv]. apply IH. cbn [x_trials]. replace (f + S (x_trials x))%nat with (S f + x_trials x)%nat by lia. exact H.
Qed.

(** Exploring a walker always ends: within maxtrials / rate passes. *)
Theorem C88_ends fuel perm check npars maxtrials rate append kw low ws :
  maxtrials / rate <= INR fuel -> exploreWalker fuel perm check npars maxtrials rate append kw low ws <> NotYet.
Proof.
  intro F. unfold exploreWalker. destruct (nth_error ws kw) as [w|]; [|discriminate].
  destruct (passes _ _ _ _ _ _ _ _) as [x|] eqn:E; [|exfalso; revert E; apply passes_end; cbn [x_trials]; rewrite Nat.add_0_r; exact F].
  destruct (if (x_moves x =? 0)%nat then _ else _); [|discriminate]. destruct (x_set x); [|discriminate].
  destruct (nth_error _ _); [|discriminate]. destruct (Rlt_dec _ _); discriminate.
Qed.
Print Assumptions C88_ends.

(** It makes passes over all engines, each time once in some order, and stops at the first moment that the number of moves is
    at least (number of parameters) / rate or the number of passes at least maxtrials / rate. *)
Theorem C88_passes fuel perm check npars maxtrials rate append kw low ws w ws' : nth_error ws kw = Some w ->
  exploreWalker fuel perm check npars maxtrials rate append kw low ws = Done ws' ->
  exists n, ws' = fst (after perm kw low append ws n) /\
    (forall k, (k < n)%nat -> INR (snd (after perm kw low append ws k)) < INR (npars w) / rate /\ INR k < maxtrials / rate) /\
    (INR (npars w) / rate <= INR (snd (after perm kw low append ws n)) \/ maxtrials / rate <= INR n).
Proof.
  intros W H. unfold exploreWalker in H. rewrite W in H.
  destruct (passes _ _ _ _ _ _ _ _) as [x|] eqn:E; [|discriminate].
  destruct (passes_spec perm _ _ kw low append ws fuel 0 false x E) as (n & _ & T & Ex & Lo & St & _).
  assert (Ws : ws' = x_ws x).
  { destruct (if (x_moves x =? 0)%nat then _ else _) in H; [|discriminate]. destruct (x_set x); [|discriminate].
    destruct (nth_error _ _) in H; [|discriminate]. destruct (Rlt_dec _ _) in H; [discriminate|]. injection H; auto. }
  exists n. rewrite Ex. cbn [fst snd]. split; [exact Ws|]. split; [intros k Hk; apply Lo; lia|].
  destruct (Rle_dec (INR (npars w) / rate) (INR (x_moves x))) as [A|A]; [left; exact A|]. right.
  destruct (Rle_dec (maxtrials / rate) (INR n)) as [B|B]; [exact B|]. exfalso. apply St. split; lra.
Qed.
Print Assumptions C88_passes.

(** Whatever the engines do, a walker that was explored in place is not below the limit when no exception was raised. *)
Theorem C88_above fuel perm check npars maxtrials rate kw low ws ws' :
  exploreWalker fuel perm check npars maxtrials rate false kw low ws = Done ws' ->
  exists u, nth_error ws' kw = Some u /\ low <= nw_logL u.
Proof.
  intro H. unfold exploreWalker in H. destruct (nth_error ws kw) as [w|]; [|discriminate].
  destruct (passes _ _ _ _ _ _ _ _) as [x|]; [|discriminate].
  destruct (if (x_moves x =? 0)%nat then _ else _) in H; [|discriminate]. destruct (x_set x); [|discriminate].
  destruct (nth_error (x_ws x) kw) as [u|] eqn:N; [|discriminate]. destruct (Rlt_dec _ _); [discriminate|]. injection H as <-.
  exists u. split; [exact N|]. lra.
Qed.
Print Assumptions C88_above.

(** What engines do: in place only walker kw changes, a move leads to a walker that is not below the limit, without a move
    nothing changes; appending adds walkers that are not below the limit, at least one for a move. *)
Definition inPlace (e : engine) : Prop := forall kw low ws ws' mv, e_exec e kw low false ws = (ws', mv) ->
  length ws' = length ws /\ (forall i, i <> kw -> nth_error ws' i = nth_error ws i) /\
  (mv = 0%nat -> ws' = ws) /\ (mv <> 0%nat -> forall u, nth_error ws' kw = Some u -> low <= nw_logL u).
Definition appends (e : engine) : Prop := forall kw low ws ws' mv, e_exec e kw low true ws = (ws', mv) ->
  exists new, ws' = ws ++ new /\ Forall (fun u => low <= nw_logL u) new /\ (mv = 0%nat <-> new = []).

Lemma run_inPlace es kw low : Forall inPlace es -> forall ws m ws' m', runEngines es kw low false ws m = (ws', m') ->
  length ws' = length ws /\ (forall i, i <> kw -> nth_error ws' i = nth_error ws i) /\ (m <= m')%nat /\
  (m' = m -> ws' = ws) /\ ((forall u, nth_error ws kw = Some u -> low <= nw_logL u) -> forall u, nth_error ws' kw = Some u -> low <= nw_logL u).
Proof.
  induction 1 as [|e r He Hr IH]; intros ws m ws' m' E; cbn [runEngines] in E.
  - injection E as <- <-. repeat split; auto; try lia.
  - destruct (e_exec e kw low false ws) as [w1 mv] eqn:X. destruct (He _ _ _ _ _ X) as (L & O & Z & P).
    destruct (IH _ _ _ _ E) as (L2 & O2 & M2 & Z2 & P2). split; [lia|]. split; [intros i Hi; rewrite O2, O by exact Hi; reflexivity|]. split; [lia|]. split.
    + intro Q. assert (mv = 0)%nat by lia. rewrite Z2 by lia. apply Z. assumption.
    + intros Hu. apply P2. destruct (Nat.eq_dec mv 0) as [->|Nz]; [rewrite (Z eq_refl); exact Hu|apply P; exact Nz].
Qed.
Lemma after_inPlace perm kw low ws : (forall k, Forall inPlace (perm k)) -> forall n,
  let ws' := fst (after perm kw low false ws n) in
  length ws' = length ws /\ (forall i, i <> kw -> nth_error ws' i = nth_error ws i) /\
  ((forall u, nth_error ws kw = Some u -> low <= nw_logL u) -> forall u, nth_error ws' kw = Some u -> low <= nw_logL u).
Proof.
  intros P n. induction n as [|n IH]; cbn [after fst]; [repeat split; auto|].
  destruct (after perm kw low false ws n) as [w1 m1]. cbn [fst] in IH.
  destruct (runEngines (perm n) kw low false w1 m1) as [w2 m2] eqn:E. cbn [fst].
  destruct (run_inPlace _ _ _ (P n) _ _ _ _ E) as (L & O & _ & _ & A). destruct IH as (L1 & O1 & A1).
  split; [lia|]. split; [intros i Hi; rewrite O, O1 by exact Hi; reflexivity|]. intro H. apply A. apply A1. exact H.
Qed.

(** Exploring in place changes no other walker. *)
Theorem C88_others fuel perm check npars maxtrials rate kw low ws ws' : (forall k, Forall inPlace (perm k)) ->
  exploreWalker fuel perm check npars maxtrials rate false kw low ws = Done ws' ->
  length ws' = length ws /\ forall i, i <> kw -> nth_error ws' i = nth_error ws i.
Proof.
  intros P H. assert (W : exists w, nth_error ws kw = Some w) by (unfold exploreWalker in H; destruct (nth_error ws kw) as [w|]; [eauto|discriminate]).
  destruct W as [w W]. destruct (C88_passes _ _ _ _ _ _ _ _ _ _ _ _ W H) as (n & -> & _).
  pose proof (after_inPlace perm kw low ws P n) as Q. cbn zeta in Q. tauto.
Qed.
Print Assumptions C88_others.

(** Exploring a walker that is itself within the limit never raises, provided there are engines and parameters. *)
Theorem C88_fine fuel perm check npars maxtrials rate kw low ws w : (forall k, Forall inPlace (perm k)) -> (forall k, perm k <> []) ->
  nth_error ws kw = Some w -> low <= nw_logL w -> check w = true -> (1 <= npars w)%nat -> 0 < rate -> 0 < maxtrials -> maxtrials / rate <= INR fuel ->
  exists ws', exploreWalker fuel perm check npars maxtrials rate false kw low ws = Done ws'.
Proof.
  intros P Ne W Lw Ck Np Rp Tp F. unfold exploreWalker. rewrite W.
  destruct (passes _ _ _ _ _ _ _ _) as [x|] eqn:E; [|exfalso; revert E; apply passes_end; cbn [x_trials]; rewrite Nat.add_0_r; exact F].
  destruct (passes_spec perm _ _ kw low false ws fuel 0 false x E) as (n & _ & T & Ex & Lo & St & Se).
  assert (N1 : (1 <= n)%nat).
  { destruct n; [|lia]. exfalso. apply St. cbn [after] in Ex. injection Ex as _ <-. split.
    - apply Rdiv_lt_0_compat; [apply lt_0_INR; lia|exact Rp].
    - apply Rdiv_lt_0_compat; assumption. }
  assert (S1 : x_set x = true).
  { rewrite Se. cbn [orb]. rewrite Nat.sub_0_r. apply existsb_exists. exists 0%nat. split; [apply in_seq; lia|]. specialize (Ne 0%nat). destruct (perm 0%nat); [congruence|reflexivity]. }
  pose proof (after_inPlace perm kw low ws P n) as Q. cbn zeta in Q. rewrite Ex in Q. cbn [fst] in Q. destruct Q as (L & O & A).
  assert (K : (kw < length (x_ws x))%nat) by (rewrite L; apply nth_error_Some; congruence).
  destruct (nth_error (x_ws x) kw) as [u|] eqn:U; [|apply nth_error_None in U; lia].
  assert (Lu : low <= nw_logL u) by (apply A; [intros v Hv; congruence|reflexivity]).
  assert (C : (if (x_moves x =? 0)%nat then check u else true) = true).
  { destruct (Nat.eqb_spec (x_moves x) 0) as [Z|Z]; [|reflexivity].
    assert (Same : forall m, snd (after perm kw low false ws m) = 0%nat -> fst (after perm kw low false ws m) = ws).
    { induction m as [|m IH]; [reflexivity|]. cbn [after]. destruct (after perm kw low false ws m) as [w1 m1]. cbn [fst snd] in IH.
      destruct (runEngines (perm m) kw low false w1 m1) as [w2 m2] eqn:R. cbn [fst snd]. intros ->.
      destruct (run_inPlace _ _ _ (P m) _ _ _ _ R) as (_ & _ & M & Zr & _). assert (m1 = 0)%nat by lia. subst. rewrite Zr by reflexivity. apply IH. reflexivity. }
    specialize (Same n). rewrite Ex in Same. cbn [fst snd] in Same. rewrite (Same Z) in U. congruence. }
  rewrite C, S1. destruct (Rlt_dec (nw_logL u) low); [lra|]. eexists; reflexivity.
Qed.
Print Assumptions C88_fine.

(** With append the walkers stay and get a tail of walkers that are not below the limit. *)
Theorem C88_appended fuel perm check npars maxtrials rate kw low ws ws' : (forall k, Forall appends (perm k)) ->
  exploreWalker fuel perm check npars maxtrials rate true kw low ws = Done ws' ->
  exists new, ws' = ws ++ new /\ Forall (fun u => low <= nw_logL u) new.
Proof.
  intros P H. assert (W : exists w, nth_error ws kw = Some w) by (unfold exploreWalker in H; destruct (nth_error ws kw) as [w|]; [eauto|discriminate]).
  destruct W as [w W]. destruct (C88_passes _ _ _ _ _ _ _ _ _ _ _ _ W H) as (n & -> & _). clear H.
  assert (Re : forall es, Forall appends es -> forall v m v' m', runEngines es kw low true v m = (v', m') -> exists new, v' = v ++ new /\ Forall (fun u => low <= nw_logL u) new).
  { induction 1 as [|e r He Hr IH]; intros v m v' m' E; cbn [runEngines] in E.
    - injection E as <- <-. exists []. rewrite app_nil_r. split; [reflexivity|constructor].
    - destruct (e_exec e kw low true v) as [w1 mv] eqn:X. destruct (He _ _ _ _ _ X) as (n1 & -> & F1 & _).
      destruct (IH _ _ _ _ E) as (n2 & -> & F2). exists (n1 ++ n2). rewrite app_assoc. split; [reflexivity|]. apply Forall_app. split; assumption. }
  induction n as [|n IH]; cbn [after fst]; [exists []; rewrite app_nil_r; split; [reflexivity|constructor]|].
  destruct (after perm kw low true ws n) as [w1 m1]. cbn [fst] in IH. destruct IH as (n1 & -> & F1).
  destruct (runEngines (perm n) kw low true (ws ++ n1) m1) as [w2 m2] eqn:E. cbn [fst].
  destruct (Re _ (P n) _ _ _ _ E) as (n2 & -> & F2). exists (n1 ++ n2). rewrite app_assoc. split; [reflexivity|]. apply Forall_app. split; assumption.
Qed.
Print Assumptions C88_appended.

(** Whatever the engines do: with append the last walker, without it the walker itself, is not below the limit. *)
Theorem C88_checked fuel perm check npars maxtrials rate append kw low ws ws' :
  exploreWalker fuel perm check npars maxtrials rate append kw low ws = Done ws' ->
  exists u, nth_error ws' (if append then length ws' - 1 else kw)%nat = Some u /\ low <= nw_logL u.
Proof.
  intros H. unfold exploreWalker in H. destruct (nth_error ws kw) as [w|]; [|discriminate].
  destruct (passes _ _ _ _ _ _ _ _) as [x|]; [|discriminate].
  destruct (if (x_moves x =? 0)%nat then _ else true); [|discriminate].
  destruct (x_set x); [|discriminate].
  destruct (nth_error (x_ws x) (if append then length (x_ws x) - 1 else kw)%nat) as [u|] eqn:E; [|discriminate].
  destruct (Rlt_dec (nw_logL u) low) as [L|L]; [discriminate|]. injection H as <-. exists u. split; [exact E|lra].
Qed.
Print Assumptions C88_checked.

(** Without engines to run, or without parameters, the explorer raises: it uses its variable update, which was never set. *)
Theorem C88_unset_refuted fuel perm check npars maxtrials rate append kw low ws w : nth_error ws kw = Some w ->
  (forall k, perm k = []) \/ npars w = 0%nat -> forall ws', exploreWalker fuel perm check npars maxtrials rate append kw low ws <> Done ws'.
Proof.
  intros W H ws' E. unfold exploreWalker in E. rewrite W in E.
  destruct (passes _ _ _ _ _ _ _ _) as [x|] eqn:Q; [|discriminate].
  destruct (passes_spec perm _ _ kw low append ws fuel 0 false x Q) as (n & _ & T & Ex & Lo & St & Se).
  assert (S0 : x_set x = false).
  { rewrite Se. cbn [orb]. destruct H as [H|H].
    - clear - H. generalize (seq 0 (n - 0)). induction l as [|k l IH]; [reflexivity|]. cbn. rewrite H. exact IH.
    - destruct n as [|n]; [reflexivity|]. exfalso. destruct (Lo 0%nat) as [A _]; [lia|]. cbn in A. rewrite H in A. unfold Rdiv in A. cbn in A. lra. }
  rewrite S0 in E. destruct (if (x_moves x =? 0)%nat then _ else _) in E; discriminate.
Qed.
Print Assumptions C88_unset_refuted.

(** So a list of engines that are all slow raises at every iteration at which none of them is due. *)
Theorem C88_slow_refuted iteration es fuel perm check npars maxtrials rate append kw low ws w :
  (forall e, In e es -> exists s, e_slow e = Some (S s) /\ Nat.modulo iteration (S s) <> 0%nat) -> nth_error ws kw = Some w ->
  exists sel, selectEngines iteration es = Some sel /\
    ((forall k, Permutation sel (perm k)) -> forall ws', exploreWalker fuel perm check npars maxtrials rate append kw low ws <> Done ws').
Proof.
  intros H W. exists []. split.
  - rewrite C88_select.
    + f_equal. induction es as [|e r IH]; [reflexivity|]. cbn [filter]. destruct (H e (or_introl eq_refl)) as (s & -> & N).
      destruct (Nat.eqb_spec (Nat.modulo iteration (S s)) 0); [contradiction|]. apply IH. intros; apply H; right; assumption.
    + intros e I Q. destruct (H e I) as (s & Z & _). congruence.
  - intro P. apply (C88_unset_refuted _ _ _ _ _ _ _ _ _ _ w W). left. intro k. apply Permutation_nil. apply P.
Qed.
Print Assumptions C88_slow_refuted.

(** *** Threads *)
(** The reports of the threads are added up, *)
Theorem C88_reports e ts : let r := fold_left addReport ts e in
  r_success r = (r_success e + list_sum (map r_success ts))%nat /\ r_reject r = (r_reject e + list_sum (map r_reject ts))%nat /\
  r_failed r = (r_failed e + list_sum (map r_failed ts))%nat /\ r_best r = (r_best e + list_sum (map r_best ts))%nat.
Proof.
  cbn zeta. revert e; induction ts as [|t ts IH]; intro e; cbn [fold_left map list_sum fold_right]; [cbn; lia|].
  destruct (IH (addReport e t)) as (A & B & C & D). unfold list_sum in *. rewrite A, B, C, D. cbn. lia.
Qed.
Print Assumptions C88_reports.

(** ... but the number of calls is not: instead of calls, the steps are added.  One call with 4 rejected steps and a success
    counts as 5 calls. *)
Theorem C88_calls_refuted : exists e t, r_calls (addReport e t) <> (r_calls e + r_calls t)%nat.
Proof. exists (mkRep 0 0 0 0 0), (mkRep 1 4 0 0 1). cbn. lia. Qed.
Print Assumptions C88_calls_refuted.

(** An error in a thread raises; errors are never forgotten: after one, exploring with threads raises ever after, also
    without errors. *)
Theorem C88_threads errors new : fst (exploreThreads errors new) = false <-> errors = [] /\ forall e, In e new -> e = None.
Proof.
  unfold exploreThreads. cbn [fst]. split.
  - intro H. destruct (errors ++ _) eqn:E in H; [|discriminate]. apply app_eq_nil in E. destruct E as [E1 E2]. split; [exact E1|].
    intros [w|] I; [|reflexivity]. exfalso. assert (In w []) as []. rewrite <- E2. apply in_flat_map. exists (Some w). split; [exact I|left; reflexivity].
  - intros [-> H]. cbn [app]. replace (flat_map _ new) with (@nil nat); [reflexivity|].
    induction new as [|e r IH]; [reflexivity|]. cbn. rewrite (H e (or_introl eq_refl)). cbn. apply IH. intros; apply H; right; assumption.
Qed.
Print Assumptions C88_threads.
(** After one error in a thread, exploring with threads raises ever after, also without errors: the list of errors of the module
    is never emptied. *)
Theorem C88_errors_refuted errors new later : (exists w, In (Some w) new) ->
  fst (exploreThreads (snd (exploreThreads errors new)) later) = true.
Proof.
  intros [w I]. destruct (fst (exploreThreads (snd (exploreThreads errors new)) later)) eqn:E; [reflexivity|]. exfalso.
  apply C88_threads in E. destruct E as [E _]. unfold exploreThreads in E. cbn [snd] in E. apply app_eq_nil in E. destruct E as [_ E].
  assert (In w []) as []. rewrite <- E. apply in_flat_map. exists (Some w). split; [exact I|left; reflexivity].
Qed.
Print Assumptions C88_errors_refuted.

(** *** PhantomSampler *)
(** The random choices are in their ranges; exploring adds walkers that are not below the limit. *)
Definition choices (o : poracle) : Prop :=
  (forall c a n, (a < n)%nat -> (a <= po_start o c a n < n)%nat) /\ (forall c n, (0 < n)%nat -> (po_del o c n < n)%nat).
Definition extends (o : poracle) : Prop := forall c low kw ws ws', po_explore o c low kw ws = Done ws' ->
  exists new, ws' = ws ++ new /\ Forall (fun u => low <= nw_logL u) new.

(** a list with some items left out *)
Inductive sub {A : Type} : list A -> list A -> Prop :=
  | sub_nil : sub [] []
  | sub_keep a l m : sub l m -> sub (a :: l) (a :: m)
  | sub_drop a l m : sub l m -> sub l (a :: m).
Lemma sub_refl {A} (l : list A) : sub l l.
Proof. induction l; constructor; assumption. Qed.
Lemma sub_trans {A} (l m : list A) : sub l m -> forall n, sub m n -> sub l n.
Proof.
  intros H n K. revert l H. induction K as [|a m n K IH|a m n K IH]; intros l H; [exact H| |constructor; apply IH; exact H].
  inversion H; subst; constructor; apply IH; assumption.
Qed.
Lemma sub_del {A} k (l : list A) : sub (del k l) l.
Proof.
  unfold del. revert k; induction l as [|a l IH]; intro k; [rewrite firstn_nil, skipn_nil; constructor|].
  destruct k as [|k]; [cbn; constructor; apply sub_refl|]. cbn [firstn skipn app]. constructor. apply IH.
Qed.
Lemma sub_In {A} (l m : list A) : sub l m -> forall x, In x l -> In x m.
Proof. induction 1; intros x H'; [exact H'|destruct H' as [->|H']; [left; reflexivity|right; auto]|right; auto]. Qed.

Lemma fillUp_spec o low init worst : extends o -> forall fuel c ws ws', fillUp fuel o c low init worst ws = Done ws' ->
  (init < length ws')%nat /\ exists new, ws' = ws ++ new /\ Forall (fun u => low <= nw_logL u) new /\ ((init < length ws)%nat -> new = []).
Proof.
  intro X. induction fuel as [|f IH]; intros c ws ws' H; cbn [fillUp] in H; destruct (Nat.leb_spec (length ws) init) as [L|L]; try discriminate.
  - injection H as <-. split; [exact L|]. exists []. rewrite app_nil_r. repeat split; constructor.
  - destruct (worst <? length ws)%nat; [|discriminate]. destruct (po_explore _ _ _ _ _) as [w1| |] eqn:E; try discriminate.
    destruct (X _ _ _ _ _ E) as (n1 & -> & F1). destruct (IH _ _ _ H) as (Li & n2 & -> & F2 & _). split; [exact Li|].
    exists (n1 ++ n2). rewrite app_assoc. split; [reflexivity|]. split; [apply Forall_app; split; assumption|lia].
  - injection H as <-. split; [exact L|]. exists []. rewrite app_nil_r. repeat split; constructor.
Qed.

Lemma del_length {A} k (l : list A) : (k < length l)%nat -> length (del k l) = (length l - 1)%nat.
Proof. intro H. unfold del. rewrite app_length, firstn_length, skipn_length. lia. Qed.
Lemma del_front {A} k j (l : list A) : (j <= k)%nat -> (k < length l)%nat -> firstn j (del k l) = firstn j l.
Proof.
  intros H K. unfold del. rewrite firstn_app, firstn_firstn. rewrite firstn_length.
  replace (j - Nat.min k (length l))%nat with 0%nat by lia. replace (Nat.min j k) with j by lia. cbn. apply app_nil_r.
Qed.
Lemma del_last {A} k (l : list A) d : (k < length l - 1)%nat -> last (del k l) d = last l d.
Proof.
  intro H. unfold del. rewrite <- (firstn_skipn (S k) l) at 3.
  assert (N : skipn (S k) l <> []). { intro E. apply (f_equal (@length A)) in E. rewrite skipn_length in E. cbn in E. lia. }
  assert (La : forall a b : list A, b <> [] -> last (a ++ b) d = last b d).
  { intros a b Nb. induction a as [|x a IH]; [reflexivity|]. cbn [app]. destruct (a ++ b) eqn:E; [apply app_eq_nil in E; tauto|]. rewrite <- IH. reflexivity. }
  rewrite !La by exact N. reflexivity.
Qed.

Lemma trim_spec o init step : choices o -> (1 <= step <= init)%nat -> forall fuel c ws, (length ws - init <= fuel)%nat -> (init <= length ws)%nat ->
  exists ws', trim fuel o c init step ws = Done ws' /\ length ws' = init /\ sub ws' ws /\
    firstn (init - step) ws' = firstn (init - step) ws /\ (forall d, last ws' d = last ws d).
Proof.
  intros [_ Ch] St. induction fuel as [|f IH]; intros c ws F L; cbn [trim].
  - destruct (Nat.ltb_spec init (length ws)); [lia|]. exists ws. split; [reflexivity|]. split; [lia|]. split; [apply sub_refl|]. split; reflexivity.
  - destruct (Nat.ltb_spec init (length ws)) as [B|B]; [|exists ws; split; [reflexivity|]; split; [lia|]; split; [apply sub_refl|]; split; reflexivity].
    replace (Z.of_nat init - Z.of_nat step)%Z with (Z.of_nat (init - step)) by lia.
    replace (Z.of_nat (length ws) - Z.of_nat (init - step) - 1)%Z with (Z.of_nat (length ws - (init - step) - 1)) by lia.
    destruct (Z.leb_spec (Z.of_nat (length ws - (init - step) - 1)) 0); [lia|]. rewrite Nat2Z.id.
    set (d := po_del o c (length ws - (init - step) - 1)).
    assert (D : (d < length ws - (init - step) - 1)%nat) by (apply Ch; lia).
    unfold pyIndex. destruct (Z.ltb_spec (Z.of_nat (init - step) + Z.of_nat d) 0); [lia|].
    replace (Z.to_nat (Z.of_nat (init - step) + Z.of_nat d)) with (init - step + d)%nat by lia.
    destruct (IH (S c) (del (init - step + d) ws)) as (ws' & E & Le & Su & Fr & La).
    { rewrite del_length by lia. lia. } { rewrite del_length by lia. lia. }
    exists ws'. split; [exact E|]. split; [exact Le|]. split; [eapply sub_trans; [exact Su|apply sub_del]|].
    split; [rewrite Fr; apply del_front; lia|]. intro d'. rewrite La. apply del_last. lia.
Qed.

(** Updating the walkers: the worst are removed, new walkers are added, all not below the limit; then some are removed until the
    original number is left: none of the first (ensemble - step), nor the newest; when enough are left no new ones are added. *)
Theorem C88_update fuel o low init step worst ws ws' : choices o -> extends o -> (1 <= step <= init)%nat ->
  updateWalkers fuel o low init step worst ws = Done ws' ->
  length ws' = init /\ exists new, sub ws' (skipn worst ws ++ new) /\ Forall (fun u => low <= nw_logL u) new /\
    firstn (init - step) ws' = firstn (init - step) (skipn worst ws ++ new) /\ (forall d, last ws' d = last (skipn worst ws ++ new) d) /\
    ((init < length ws - worst)%nat -> new = []).
Proof.
  intros C X S H. unfold updateWalkers in H. destruct (fillUp _ _ _ _ _ _ _) as [w1| |] eqn:E; try discriminate.
  destruct (fillUp_spec o low init worst X _ _ _ _ E) as (L & new & -> & F & N).
  destruct (trim_spec o init step C S (length (skipn worst ws ++ new)) 0 (skipn worst ws ++ new)) as (w2 & T & Le & Su & Fr & La); [lia|lia|].
  rewrite T in H. injection H as <-. split; [exact Le|]. exists new. split; [exact Su|]. split; [exact F|]. split; [exact Fr|]. split; [exact La|].
  intro B. apply N. rewrite skipn_length. exact B.
Qed.
Print Assumptions C88_update.

(** It ends when every exploration adds something. *)
Theorem C88_update_ends fuel o low init step worst ws : choices o -> (1 <= step <= init)%nat -> (worst < length ws - worst)%nat -> (init < fuel)%nat ->
  (forall c kw v, exists new, new <> [] /\ po_explore o c low kw v = Done (v ++ new)) ->
  exists ws', updateWalkers fuel o low init step worst ws = Done ws'.
Proof.
  intros C S W F X. unfold updateWalkers.
  assert (A : forall f c v, (init < length v + f)%nat -> (worst < length v)%nat -> exists v', fillUp f o c low init worst v = Done v' /\ (init < length v')%nat).
  { induction f as [|f IH]; intros c v H Wv; cbn [fillUp]; destruct (Nat.leb_spec (length v) init) as [L|L]; try lia; try (exists v; split; [reflexivity|exact L]).
    destruct (Nat.ltb_spec worst (length v)); [|lia]. destruct (X c (po_start o c worst (length v)) v) as (new & N & ->).
    destruct new; [congruence|]. apply IH; rewrite app_length; cbn [length]; lia. }
  destruct (A fuel 0%nat (skipn worst ws)) as (v & -> & L); [rewrite skipn_length; lia..|].
  destruct (trim_spec o init step C S (length v) 0 v) as (w2 & T & _); [lia|lia|]. exists w2. exact T.
Qed.
Print Assumptions C88_update_ends.

(** The number of worst walkers, at most one in ten, leaves walkers to choose from. *)
Theorem C88_worst step ws : (step <= 10)%nat -> ws <> [] -> (10 * worstOf step ws <= length ws)%nat /\ (worstOf step ws < length ws - worstOf step ws)%nat.
Proof.
  intros S N. unfold worstOf. assert (L : (1 <= length ws)%nat) by (destruct ws; [congruence|cbn; lia]).
  assert (H : (10 * (length ws * step / 100) <= length ws)%nat).
  { pose proof (Nat.mul_div_le (length ws * step) 100 ltac:(lia)). nia. }
  split; [exact H|]. lia.
Qed.
Print Assumptions C88_worst.

(** Engines that move walkers in place, like those of order problems, add nothing: the update never ends. *)
Theorem C88_stuck_refuted fuel o low init step worst ws : (length ws <= init)%nat ->
  (forall c kw v v', po_explore o c low kw v = Done v' -> length v' = length v) ->
  forall ws', updateWalkers fuel o low init step worst ws <> Done ws'.
Proof.
  intros L X ws' H. unfold updateWalkers in H.
  assert (A : forall f c v v', (length v <= init)%nat -> fillUp f o c low init worst v <> Done v').
  { induction f as [|f IH]; intros c v v' Hv; cbn [fillUp]; destruct (Nat.leb_spec (length v) init) as [B|B]; try lia; [discriminate|].
    destruct (worst <? length v)%nat; [|discriminate]. destruct (po_explore _ _ _ _ _) as [w1| |] eqn:E; try discriminate.
    apply IH. rewrite (X _ _ _ _ E). exact Hv. }
  destruct (fillUp _ _ _ _ _ _ _) as [w1| |] eqn:E; try discriminate.
  revert E. apply A. rewrite skipn_length. lia.
Qed.
Print Assumptions C88_stuck_refuted.

(** Too few walkers for the step: ensemble * step < 100, as 24 walkers with the standard step 4; also a step of 0 is allowed.
    The iteration raises. *)
Theorem C88_few_refuted fuel o init step ws : (length ws * step < 100)%nat -> pIteration fuel o init step ws = Raised.
Proof.
  intro H. unfold pIteration, worstOf. rewrite nsort_length, Nat.div_small by exact H. reflexivity.
Qed.
Print Assumptions C88_few_refuted.

Lemma skipn_In {A} k : forall (l : list A) x, In x (skipn (S k) l) -> In x (skipn k l).
Proof.
  induction k as [|k IH]; intros [|a l] x H; cbn [skipn] in *; try contradiction; [right; exact H|].
  destruct l as [|b l]; [contradiction|]. exact (IH (b :: l) x H).
Qed.
Lemma pIteration_spec fuel o init step ws low ws' : choices o -> extends o -> (1 <= step <= init)%nat ->
  pIteration fuel o init step ws = Done (low, ws') ->
  length ws' = init /\ Forall (fun u => low <= nw_logL u) ws' /\ In low (map nw_logL ws).
Proof.
  intros C X S H. unfold pIteration in H. set (srt := nsort ws) in *. set (worst := worstOf step srt) in *.
  destruct (Nat.eqb_spec worst 0) as [|W]; [discriminate|]. destruct (nth_error srt (worst - 1)) as [w|] eqn:N; [|discriminate].
  destruct (updateWalkers _ _ _ _ _ _ _) as [v| |] eqn:U; try discriminate. injection H as <- <-.
  destruct (C88_update _ _ _ _ _ _ _ _ C X S U) as (L & new & Su & F & _). split; [exact L|]. split.
  - apply Forall_forall. intros u I. apply (sub_In _ _ Su) in I. apply in_app_or in I. destruct I as [I|I].
    + destruct (sorted_split _ _ _ (nsort_sorted ws) N) as [_ G]. rewrite Forall_forall in G. apply G.
      fold srt. replace worst with (Datatypes.S (worst - 1))%nat in I by lia. apply skipn_In in I. exact I.
    + rewrite Forall_forall in F. apply F. exact I.
  - apply in_map. apply nth_error_In in N. apply (Permutation_in w (Permutation_sym (nsort_perm ws))). exact N.
Qed.

(** A run of any number of iterations: the limit never goes down, after each iteration there are again as many walkers as at
    the start, none below the last limit. *)
Theorem C88_run fuel os init step ws lows ws' : Forall choices os -> Forall extends os -> (1 <= step <= init)%nat ->
  pRun fuel os init step ws = Done (lows, ws') -> length lows = length os /\ Sorted Rle lows /\
  (os <> [] -> length ws' = init) /\ forall low, In low lows -> Forall (fun u => low <= nw_logL u) ws'.
Proof.
  intros C X S. revert ws lows ws'.
  enough (G : forall ws lows ws' b, Forall (fun u => b <= nw_logL u) ws -> pRun fuel os init step ws = Done (lows, ws') ->
    length lows = length os /\ Sorted Rle lows /\ Forall (Rle b) lows /\ Forall (fun u => b <= nw_logL u) ws' /\ (os <> [] -> length ws' = init) /\ forall low, In low lows -> Forall (fun u => low <= nw_logL u) ws').
  { intros ws lows ws' H.
    assert (B : exists b, Forall (fun u => b <= nw_logL u) ws).
    { clear. induction ws as [|u ws [b IH]]; [exists 0; constructor|]. exists (Rmin b (nw_logL u)). constructor; [apply Rmin_r|].
      eapply Forall_impl; [|exact IH]. intros a Ha. cbn in Ha |- *. pose proof (Rmin_l b (nw_logL u)). lra. }
    destruct B as [b B]. destruct (G ws lows ws' b B H) as (A1 & A2 & _ & _ & A3 & A4). repeat split; assumption. }
  induction os as [|o os IH]; intros ws lows ws' b B H; cbn [pRun] in H.
  - injection H as <- <-. split; [reflexivity|]. split; [constructor|]. split; [constructor|]. split; [exact B|]. split; [congruence|intros low []].
  - destruct (pIteration fuel o init step ws) as [[low v]| |] eqn:P; try discriminate.
    destruct (pRun fuel os init step v) as [[ls v2]| |] eqn:Q; try discriminate. injection H as <- <-.
    inversion C as [|? ? C1 C2]; subst. inversion X as [|? ? X1 X2]; subst.
    destruct (pIteration_spec _ _ _ _ _ _ _ C1 X1 S P) as (L & F & I).
    assert (Bl : b <= low). { apply in_map_iff in I. destruct I as (u & <- & I). rewrite Forall_forall in B. apply B. exact I. }
    destruct (IH C2 X2 v ls v2 low F Q) as (A1 & A2 & A3 & A4 & A5 & A6). split; [cbn; lia|]. split.
    { constructor; [exact A2|]. destruct ls; constructor. inversion A3; assumption. }
    split; [constructor; [exact Bl|eapply Forall_impl; [|exact A3]; intros; cbn in *; lra]|].
    split; [eapply Forall_impl; [|exact A4]; intros; cbn in *; lra|]. split.
    + intros _. destruct os as [|o2 os]; [cbn in Q; injection Q as <- <-; exact L|apply A5; discriminate].
    + intros l [<-|Il]; [exact A4|apply A6; exact Il].
Qed.
Print Assumptions C88_run.

(** The step is at most 10. *)
Theorem C88_step step : setStep step = None <-> (10 < step)%Z.
Proof. unfold setStep. destruct (Z.leb_spec step 10); split; intro; try discriminate; try lia; reflexivity. Qed.
Print Assumptions C88_step.

(** *** Cases *)
(** An engine that goes to the limit itself *)
Definition toLimit : engine := mkE None (fun kw low append ws =>
  if append then (ws ++ [mkNW 0 low 0 []], 1%nat) else (upd kw (mkNW 0 low 0 []) ws, 1%nat)).
Lemma upd_facts {A} k (x : A) l : length (upd k x l) = length l /\ (forall i, i <> k -> nth_error (upd k x l) i = nth_error l i) /\
  (forall u, nth_error (upd k x l) k = Some u -> u = x).
Proof.
  revert k; induction l as [|a l IH]; intro k.
  - destruct k; cbn; repeat split; intros; try reflexivity; discriminate.
  - destruct k as [|k]; cbn.
    + split; [reflexivity|]. split; [intros [|i] H; [congruence|reflexivity]|]. intros u H. injection H; auto.
    + destruct (IH k) as (L & O & N). split; [rewrite L; reflexivity|]. split; [intros [|i] H; [reflexivity|cbn; apply O; congruence]|]. exact N.
Qed.
Example C88_engine : inPlace toLimit /\ appends toLimit.
Proof.
  split.
  - intros kw low ws ws' mv E. cbn in E. injection E as <- <-. destruct (upd_facts kw (mkNW 0 low 0 []) ws) as (L & O & N).
    split; [exact L|]. split; [exact O|]. split; [discriminate|]. intros _ u H. rewrite (N u H). cbn. lra.
  - intros kw low ws ws' mv E. cbn in E. injection E as <- <-. exists [mkNW 0 low 0 []]. split; [reflexivity|]. split; [constructor; [cbn; lra|constructor]|].
    split; discriminate.
Qed.

Example C88_explored : exists ws', exploreWalker 5 (fun _ => [toLimit]) (fun _ => true) (fun _ => 2%nat) 5 1 false 1 (-3) [mkNW 0 (-1) 0 []; mkNW 1 (-2) 0 []; mkNW 2 (-5) 0 []] = Done ws'.
Proof.
  apply (C88_fine _ _ _ _ _ _ _ _ _ (mkNW 1 (-2) 0 [])).
  - intro. constructor; [apply C88_engine|constructor].
  - discriminate.
  - reflexivity.
  - cbn. lra.
  - reflexivity.
  - lia.
  - lra.
  - lra.
  - unfold Rdiv. rewrite Rinv_1. cbn. lra.
Qed.

(** Runs of any length with 20 walkers and step 10 *)
Definition adding : poracle := mkPO (fun _ a _ => a) (fun _ low _ ws => Done (ws ++ [mkNW 0 low 0 []])) (fun _ _ => 0%nat).
Example C88_adding : choices adding /\ extends adding.
Proof.
  split; [split; intros; cbn; lia|]. intros c low kw ws ws' E. cbn in E. injection E as <-. exists [mkNW 0 low 0 []]. split; [reflexivity|].
  constructor; [cbn; lra|constructor].
Qed.
Example C88_running n ws : length ws = 20%nat -> exists r, pRun 21 (repeat adding n) 20 10 ws = Done r.
Proof.
  revert ws; induction n as [|n IH]; intros ws L; [eexists; reflexivity|]. cbn [repeat pRun].
  assert (P : exists low v, pIteration 21 adding 20 10 ws = Done (low, v)).
  { unfold pIteration, worstOf. rewrite nsort_length, L. change (20 * 10 / 100)%nat with 2%nat. cbn [Nat.eqb].
    destruct (nth_error (nsort ws) (2 - 1)) as [w|] eqn:N; [|apply nth_error_None in N; rewrite nsort_length in N; lia].
    destruct (C88_update_ends 21 adding (nw_logL w) 20 10 2 (nsort ws) (proj1 C88_adding)) as [v ->]; [lia|rewrite nsort_length; lia|lia| |eexists; eexists; reflexivity].
    intros c kw v. exists [mkNW 0 (nw_logL w) 0 []]. split; [discriminate|reflexivity]. }
  destruct P as (low & v & P). rewrite P.
  destruct (pIteration_spec 21 adding 20 10 ws low v (proj1 C88_adding) (proj2 C88_adding) ltac:(lia) P) as (Lv & _).
  destruct (IH v Lv) as [[ls v2] ->]. eexists; reflexivity.
Qed.
