(** C102: the linear parameters of a mixed model. *)
From Coq Require Import ZArith List Bool Lia FinFun.
From Verif Require Import M_LinIdx.
Import ListNotations.
Local Open Scope Z_scope.

Lemma inb_spec : forall i l, inb i l = true <-> In i l.
Proof. intros i l. unfold inb. rewrite existsb_exists. split; [intros (j & H & E); apply Z.eqb_eq in E; subst; exact H|intros H; exists i; split; [exact H|apply Z.eqb_refl]]. Qed.
Lemma nonLinear_in : forall p r l, nonLinear (p :: r) = Some l -> forall i, In i l <-> 0 <= i < Z.of_nat (nPars (p :: r)) /\ ~ In i (plin p).
Proof.
  intros p r l H i. unfold nonLinear in H. destruct (pnon p); [|discriminate]. injection H as <-. rewrite filter_In, in_map_iff.
  rewrite negb_true_iff, <- not_true_iff_false, inb_spec. split.
  - intros [(k & <- & Hk) Hn]. apply in_seq in Hk. split; [lia|exact Hn].
  - intros [Hi Hn]. split; [|exact Hn]. exists (Z.to_nat i). split; [lia|apply in_seq; lia].
Qed.
Lemma set_pars : forall li m m', setMixed li m = Some m' -> nPars m' = nPars m /\ length m' = length m.
Proof. intros li [|p r] m' H; [discriminate|]. cbn in H. destruct (pnon p); [|discriminate]. injection H as <-. split; reflexivity. Qed.
(** With linear parameters stated, the non-linear ones are exactly all the others. *)
Theorem C102_split : forall lindex m m', setMixed (Some lindex) m = Some m' ->
  exists l, nonLinear m' = Some l /\ NoDup l /\ (forall i, In i l <-> 0 <= i < Z.of_nat (nPars m) /\ ~ In i lindex)
  /\ isMixed m' = negb (Nat.eqb (length lindex) 0) /\ nPars m' = nPars m.
Proof.
  intros li [|p r] m' H; [discriminate|]. assert (E := set_pars _ _ _ H). destruct E as [E _]. cbn in H. destruct (pnon p); [|discriminate]. injection H as <-.
  match goal with |- exists l, nonLinear ?m = _ /\ _ => destruct (nonLinear m) as [l|] eqn:G; [|discriminate] end.
  exists l. split; [reflexivity|]. split; [|split; [|split; [reflexivity|exact E]]].
  - cbn [nonLinear pnon] in G. injection G as <-. apply NoDup_filter. apply Injective_map_NoDup; [intros a b; apply Nat2Z.inj|apply seq_NoDup].
  - intros i. rewrite (nonLinear_in _ _ _ G i). rewrite E. reflexivity.
Qed.
(** None takes the statement back: the model is as one of which nothing has been stated. *)
Theorem C102_reset : forall m m', setMixed None m = Some m' -> isMixed m' = false /\
  exists l, nonLinear m' = Some l /\ forall i, In i l <-> 0 <= i < Z.of_nat (nPars m).
Proof.
  intros [|p r] m' H; [discriminate|]. assert (E := set_pars _ _ _ H). destruct E as [E _]. cbn in H. destruct (pnon p); [|discriminate]. injection H as <-. split; [reflexivity|].
  match goal with |- exists l, nonLinear ?m = _ /\ _ => destruct (nonLinear m) as [l|] eqn:G; [|discriminate] end.
  exists l. split; [reflexivity|]. intros i. rewrite (nonLinear_in _ _ _ G i), E. cbn. tauto.
Qed.
(** A later statement replaces the earlier one. *)
Theorem C102_last : forall a b m m1 m2, setMixed a m = Some m1 -> setMixed b m1 = Some m2 -> setMixed b m = Some m2.
Proof. intros a b [|p r] m1 m2 H1 H2; [discriminate|]. cbn in *. destruct (pnon p); [|discriminate]. injection H1 as <-. exact H2. Qed.
(** Only the members count: not the order, nor repetitions. *)
Theorem C102_members : forall a b m m1 m2, (forall i, In i a <-> In i b) -> setMixed (Some a) m = Some m1 -> setMixed (Some b) m = Some m2 ->
  nonLinear m1 = nonLinear m2 /\ isMixed m1 = isMixed m2.
Proof.
  intros a b [|p r] m1 m2 H H1 H2; [discriminate|]. cbn in H1, H2. destruct (pnon p); [|discriminate]. injection H1 as <-. injection H2 as <-. cbn [nonLinear isMixed pnon plin]. split.
  - f_equal. apply filter_ext. intros i. f_equal. apply eq_true_iff_eq. rewrite !inb_spec. apply H.
  - destruct a as [|x a], b as [|y b]; try reflexivity; exfalso; [apply (proj2 (H y)); left; reflexivity|apply (proj1 (H x)); left; reflexivity].
Qed.
(** A copy says the same as the original. *)
Theorem C102_copy : forall m, nonLinear (copyChain m) = nonLinear m /\ isMixed (copyChain m) = isMixed m /\ nPars (copyChain m) = nPars m.
Proof.
  intros m. assert (E : nPars (copyChain m) = nPars m) by (unfold nPars, copyChain; rewrite map_map; reflexivity).
  split; [|split; [|exact E]]; destruct m as [|p r]; try reflexivity.
  - destruct (pnon p) eqn:N.
    + transitivity (Some (filter (fun i => negb (inb i (plin p))) (map Z.of_nat (seq 0 (nPars (copyChain (p :: r))))))).
      * cbn [nonLinear copyChain map pnon plin]. rewrite N. reflexivity.
      * rewrite E. cbn [nonLinear]. rewrite N. reflexivity.
    + cbn [nonLinear copyChain map pnon plin]. rewrite N. reflexivity.
  - cbn. destruct (pnon p); reflexivity.
Qed.
(** Appending a model leaves what the first one says of its own parameters; all parameters behind them count as non-linear unless the
    first one names them. *)
Theorem C102_append : forall m m' l l', nonLinear m = Some l -> nonLinear (append m m') = Some l' ->
  nPars (append m m') = (nPars m + nPars m')%nat /\ isMixed (append m m') = isMixed m /\
  (forall i, i < Z.of_nat (nPars m) -> (In i l' <-> In i l)) /\
  (forall i, Z.of_nat (nPars m) <= i < Z.of_nat (nPars m + nPars m') -> (In i l' <-> ~ exists p r, m = p :: r /\ In i (plin p))).
Proof.
  intros [|p r] m' l l' H H'; [discriminate|].
  assert (E : nPars (append (p :: r) m') = (nPars (p :: r) + nPars m')%nat).
  { unfold append, nPars. rewrite map_app, list_sum_app. f_equal. destruct m' as [|q [|q2 s]]; [reflexivity|reflexivity|]. cbn [map newPart pnp]. unfold nPars. cbn. lia. }
  split; [exact E|]. split; [reflexivity|].
  assert (G : exists s, append (p :: r) m' = p :: s) by (eexists; reflexivity). destruct G as [s G]. rewrite G in H'.
  split; intros i Hi.
  - rewrite (nonLinear_in _ _ _ H' i), (nonLinear_in _ _ _ H i). rewrite <- G, E. split; intros [A B]; split; try exact B; lia.
  - rewrite (nonLinear_in _ _ _ H' i). rewrite <- G, E. split.
    + intros [_ B] (q & t & Eq & C). injection Eq as <- <-. exact (B C).
    + intros B. split; [lia|]. intros C. apply B. exists p, r. split; [reflexivity|exact C].
Qed.
(** What has been stated of the appended model is lost: a gauss with its amplitude stated to be linear, appended to another one. *)
Theorem C102_append_refuted : exists m m', isMixed m' = true /\ nonLinear m' = Some [1; 2] /\ isMixed (append m m') = false /\
  nonLinear (append m m') = Some [0; 1; 2; 3; 4; 5].
Proof. exists [newPart 3 true], [{| pnp := 3; pnon := true; plin := [0] |}]. repeat split. Qed.
(** A chain that starts with a linear model is never mixed, and cannot be asked for its non-linear parameters. *)
Theorem C102_linear_head : forall p r m', pnon p = false -> isMixed (append (p :: r) m') = false /\ nonLinear (append (p :: r) m') = None
  /\ forall li, setMixed li (append (p :: r) m') = None.
Proof. intros p r m' H. cbn. rewrite H. repeat split; reflexivity. Qed.
(** Indices outside the parameters are accepted; counted from the end they mean nothing: the model says to be mixed, though all its
    parameters are non-linear. *)
Theorem C102_negative : forall lindex m m', (forall i, In i lindex -> i < 0 \/ Z.of_nat (nPars m) <= i) -> setMixed (Some lindex) m = Some m' ->
  exists l, nonLinear m' = Some l /\ forall i, In i l <-> 0 <= i < Z.of_nat (nPars m).
Proof.
  intros li m m' H G. destruct (C102_split _ _ _ G) as (l & E & _ & S & _). exists l. split; [exact E|]. intros i. rewrite S. split; [tauto|].
  intros K. split; [exact K|]. intros C. apply H in C. lia.
Qed.
(** setMixedModel( [-1] ) does not make the last parameter a linear one. *)
Theorem C102_negative_refuted : exists m', setMixed (Some [-1]) [newPart 3 true] = Some m' /\ isMixed m' = true /\ nonLinear m' = Some [0; 1; 2].
Proof. eexists. split; [reflexivity|]. split; reflexivity. Qed.
Example C102_ex : exists m', setMixed (Some [0; 3; 0]) (append [newPart 3 true] [newPart 2 false]) = Some m' /\ isMixed m' = true /\
  nonLinear m' = Some [1; 2; 4] /\ setMixed None m' = Some (append [newPart 3 true] [newPart 2 false]).
Proof. eexists. split; [reflexivity|]. repeat split; reflexivity. Qed.

Print Assumptions C102_split.
Print Assumptions C102_append.
