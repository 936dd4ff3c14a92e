(** Theorems C31: AnnealingAmoeba. *)
From Coq Require Import List Arith Reals Bool Lia Lra.
From Verif Require Import M_Order P_Order M_Fitter M_Amoeba P_Amoeba P_Amoeba2 P_Amoeba3.
Import ListNotations.
Local Open Scope R_scope.

(** xopt is an array of its own until a shrink or an expansion finds the best point *)
Definition ownmv (s : ast) : Prop := forall k, a_xopt s = Row k -> In Shrink (a_moves s) \/ In Expand (a_moves s).

Lemma trial_ownmv func ls rnd s i y f m : ownmv s -> ownmv (snd (trialStep func ls rnd s i y f m)).
Proof.
  unfold ownmv. intros H k E. rewrite !trial_moves.
  assert (a_xopt s = Row k). { revert E. unfold trialStep. repeat destruct (Rlt_dec _ _); cbn; congruence. }
  destruct (H k H0); auto.
Qed.

Lemma turn_ownmv func ls abstol reltol callback rnd s tr : ownmv s -> ownmv (snd (fst (turn func ls abstol reltol callback rnd s tr))).
Proof.
  intros O. unfold turn. set (z := select _). set (s0 := draw s _). assert (O0 : ownmv s0) by exact O. clearbody s0 z. clear O.
  destruct (stops _ _ _ _).
  - destruct (swap_fields s0 (z_ilo z)) as (_ & f2 & _). assert (O1 : ownmv (swap s0 (z_ilo z))).
    { unfold ownmv in *. rewrite f2. unfold swap. destruct (0 <? z_ilo z)%nat; exact O0. }
    set (s1 := swap s0 (z_ilo z)) in *. clearbody s1.
    destruct (Rlt_dec _ _); [|destruct (a_iter s1 =? 0)%nat]; cbn [fst snd]; auto.
    + intros k E. cbn in E. cbn. rewrite !in_app_iff. destruct (O1 k E); auto.
    + intros k E. rewrite !inflate_moves. auto.
  - assert (K : forall s1, ownmv s1 -> ownmv (tickiter match callback with None => s1 | Some f => setrow s1 (z_ihi z) (f (row s1 (z_ihi z))) (val s1 (z_ihi z)) end)).
    { intros s1 O1. destruct callback; exact O1. }
    assert (T := trial_ownmv func ls rnd s0 (z_ihi z) (z_hi z) (-1) Reflect O0).
    destruct (trialStep func ls rnd s0 (z_ihi z) (z_hi z) (-1) Reflect) as [y1 s1]. cbn [snd] in T.
    destruct (Rlt_dec y1 _); [|destruct (Rle_dec _ y1)]; cbn [fst snd].
    + apply K, trial_ownmv, T.
    + assert (T2 := trial_ownmv func ls rnd s1 (z_ihi z) (z_hi z) (/2) Contract T).
      destruct (trialStep func ls rnd s1 (z_ihi z) (z_hi z) (/2) Contract) as [y2 s2]. cbn [snd] in T2.
      destruct (Rle_dec _ y2); cbn [fst snd]; apply K; auto.
      intros k E. left. cbn. apply inflate_moves. auto.
    + apply K, T.
Qed.

Lemma turns_ownmv func ls abstol reltol callback rnd fuel mx : forall s tr s' tr', ownmv s -> turns func ls abstol reltol callback rnd fuel mx s tr = Some (s', tr') -> ownmv s'.
Proof.
  induction fuel as [|n IH]; intros s tr s' tr' I E; [discriminate|]. cbn [turns] in E.
  destruct (_ <? _)%nat; [|injection E as <- _; auto].
  assert (I1 := turn_ownmv func ls abstol reltol callback rnd s tr I). destruct (turn _ _ _ _ _ _ s tr) as [[b s1] t1]. cbn [fst snd] in *.
  destruct b; [injection E as <- _; auto|eauto].
Qed.

Lemma loop_ownmv func ls abstol reltol maxiter0 steps cooling callback rnd fuel mx : forall s r s', ownmv s ->
  loop func ls abstol reltol maxiter0 steps cooling callback rnd fuel mx s = Some (r, s') -> ownmv s'.
Proof.
  induction fuel as [|n IH]; intros s r s' I E; [discriminate|]. cbn [loop] in E.
  destruct (_ <? _)%nat; [|injection E as <- <-; auto].
  unfold temperatureStep in E. destruct (turns _ _ _ _ _ _ _ _ _ _) as [[s1 t1]|] eqn:F; [|discriminate].
  apply turns_ownmv in F; [|exact I].
  set (s2 := if Rlt_dec 0 (a_temp s1) then _ else _) in E. assert (I2 : ownmv s2) by (unfold s2; destruct (Rlt_dec _ _); exact F).
  clearbody s2. destruct (t1 =? 0)%nat; [|eapply IH; eauto]. injection E as <- <-. exact I2.
Qed.

(** The amoeba keeps the lowest value it has seen, at any temperature, with any callback.  Without shrinks and
    expansions the point returned is the one of that value. *)
Theorem C31_lowest func ls abstol reltol maxiter0 steps cooling callback rnd xini size temp s fuel r s' :
  length xini = length ls -> (1 <= length ls)%nat ->
  makeSimplex func ls xini size temp = Ret s ->
  minimize func ls abstol reltol maxiter0 steps cooling callback rnd fuel s = Some (r, s') ->
  (exists p, In (p, a_fopt s') (a_seen s')) /\
  (forall p v, In (p, v) (a_seen s') -> v = func p /\ a_fopt s' <= v) /\
  (forall x, r = Ret x -> ~ In Shrink (a_moves s') -> ~ In Expand (a_moves s') -> func x = a_fopt s').
Proof.
  intros L N M E. destruct (make_inv func ls xini size temp s M L N) as [I S].
  assert (O : ownmv s). { revert M. unfold makeSimplex. destruct (insides _ _ _) as [[x' st']|]; [|discriminate]. cbv zeta. destruct (degenerate _ _); [discriminate|]. intros H. injection H as <-. intros k H. discriminate H. }
  unfold minimize in E. assert (O' := loop_ownmv _ _ _ _ _ _ _ _ _ _ _ _ _ _ O E).
  destruct (loop_inv _ _ _ _ _ _ _ _ _ _ _ _ _ _ I S E) as (I' & _ & X).
  split; [|split].
  - destruct I' as [_ B _ _ _]. unfold seen_at in B. apply in_map_iff in B. destruct B as ([p v] & <- & B). exists p. exact B.
  - intros p v H. split; [eapply i_true; eauto|]. apply I'. apply in_map_iff. exists (p, v). auto.
  - intros x -> NS NE. rewrite (X x eq_refl). unfold xopt. destruct (a_xopt s') as [p|k] eqn:F.
    + symmetry. eapply i_true; [exact I'|]. apply I'. exact F.
    + destruct (O' k F); contradiction.
Qed.
Print Assumptions C31_lowest.

(** At temperature zero the point returned is the best one seen, when the first corners are not all alike
    and no value was found at two different points. *)
Theorem C31_zero func ls abstol reltol maxiter0 steps cooling rnd xini size s fuel x s' a b :
  ordered ls -> length xini = length ls -> length size = length ls -> (1 <= length ls)%nat ->
  makeSimplex func ls xini size 0 = Ret s ->
  In a (a_vals s) -> In b (a_vals s) -> (exists t, abstol = Some t /\ t <= Rabs (a - b)) ->
  minimize func ls abstol reltol maxiter0 steps cooling None rnd fuel s = Some (Ret x, s') ->
  (forall p q, In p (map fst (a_seen s')) -> In q (map fst (a_seen s')) -> func p = func q -> p = q) ->
  forall p v, In (p, v) (a_seen s') -> func x <= v.
Proof.
  intros O LX LS N M A B (t & -> & T) E U p v PV.
  assert (P := make_A func ls xini size s O LX LS N M).
  destruct (make_inv func ls xini size 0 s M LX N) as [I SH].
  destruct (loop_inv _ _ _ _ _ _ _ _ _ _ _ _ _ _ I SH E) as (I' & _ & _).
  assert (UU : uniq s').
  { intros p0 q0 u H1 H2. apply U; [apply in_map_iff; exists (p0, u); auto|apply in_map_iff; exists (q0, u); auto|].
    rewrite <- (i_true _ _ I' _ _ H1). exact (i_true _ _ I' _ _ H2). }
  assert (C : calm (Some t) reltol s).
  { intros _. assert (Z := sel_zero ls s SH). destruct SH as (e & _). unfold stops.
    destruct (In_nth _ _ 0 A) as (i & Bi & <-). destruct (In_nth _ _ 0 B) as (j & Bj & <-).
    assert (K1 := k_min _ _ _ Z). assert (K2 := k_max _ _ _ Z). unfold P_Amoeba3.N in *. rewrite <- e in *.
    assert (K1i := K1 i Bi). assert (K1j := K1 j Bj). assert (K2i := K2 i Bi). assert (K2j := K2 j Bj).
    destruct (Rlt_dec _ _) as [q|]; [|reflexivity]. exfalso.
    rewrite Rabs_right in q by lra. revert T. unfold Rabs. destruct (Rcase_abs _); lra. }
  unfold minimize in E. rewrite (loopA _ _ _ _ _ _ _ _ fuel _ s x s' (or_introl (conj P C)) E UU).
  apply I'. apply in_map_iff. exists (p, v). auto.
Qed.
Print Assumptions C31_zero.

(** Every point tried and the point returned stay within the limits, unless the simplex was expanded. *)
Theorem C31_limits func ls abstol reltol maxiter0 steps cooling rnd xini size temp s fuel r s' :
  ordered ls -> length xini = length ls -> length size = length ls -> (1 <= length ls)%nat ->
  makeSimplex func ls xini size temp = Ret s ->
  minimize func ls abstol reltol maxiter0 steps cooling None rnd fuel s = Some (r, s') ->
  ~ In Expand (a_moves s') ->
  (forall p v, In (p, v) (a_seen s') -> within ls p) /\ (forall x, r = Ret x -> within ls x).
Proof.
  intros O LX LS N M E NE. destruct (make_all func ls xini size temp s O LX LS N M) as (A & _ & _).
  unfold minimize in E. assert (A' := loop_lim _ _ _ _ _ _ _ _ _ _ _ _ _ A E).
  destruct A' as (I & SH & RK & L). destruct L as [L|L]; [contradiction|].
  destruct A as (I0 & SH0 & _). destruct (loop_inv _ _ _ _ _ _ _ _ _ _ _ _ _ _ I0 SH0 E) as (_ & _ & X). split.
  - intros p v H. destruct L as [_ S2 _]. rewrite Forall_forall in S2. apply S2. apply in_map_iff. exists (p, v). auto.
  - intros x ->. rewrite (X x eq_refl). eapply lim0_xopt; eauto.
Qed.
Print Assumptions C31_limits.
