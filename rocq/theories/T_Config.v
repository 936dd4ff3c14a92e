(** C85: how a NestedSampler and a NestedSolver are put together. *)
From Coq Require Import String Ascii List ZArith Bool Arith Reals Lia.
From Verif Require Import M_Config.
Import ListNotations.
Local Open Scope string_scope.

(** the engines refer to the distribution, walkers, phantoms and verbosity that the sampler has now *)
Definition wiredE (s : sampler) (e : engine) : Prop := e_walkers e = s_walkers s /\ e_phantoms e = s_phantoms s /\ e_verbose e = s_verbose s.
Definition wired (s : sampler) : Prop := Forall (wiredE s) (s_engines s).
Definition agrees (s : sampler) : Prop := Forall (fun e => e_errdis e = d_id (s_dist s)) (s_engines s).

(** engines as asked for: one for each name or instance, new ones with seeds drawn one after the other *)
Fixpoint made (rnd : nat -> Z) (dict : string -> option cls) (n : nat) (names : list (arg engine)) (es : list engine) : Prop :=
  match names, es with
  | [], [] => True
  | AName s :: ns, e :: es' => e_class e = dict s /\ dict s <> None /\ e_seed e = rnd n /\ made rnd dict (S n) ns es'
  | AInst i :: ns, e :: es' => e_class e = e_class i /\ e_seed e = e_seed i /\ made rnd dict n ns es'
  | _, _ => False
  end.

Lemma makeEngines_made rnd dict w d ph v : forall names n es n', makeEngines rnd dict w d ph v n names = inl (es, n') ->
  made rnd dict n names es /\ Forall (fun e => e_walkers e = w /\ e_phantoms e = ph /\ e_verbose e = v /\ e_errdis e = d) es /\
  n' = (n + length (filter (fun a => match a with AName _ => true | _ => false end) names))%nat.
Proof.
  induction names as [|a names IH]; intros n es n' E; cbn [makeEngines] in E.
  - injection E as <- <-. cbn. split; [exact I|]. split; [constructor|lia].
  - destruct a as [s|i|]; [| |discriminate].
    + destruct (dict s) as [c|] eqn:D; [|discriminate]. destruct (makeEngines rnd dict w d ph v (S n) names) as [[es0 n0]|] eqn:M; [|discriminate].
      injection E as <- <-. destruct (IH _ _ _ M) as (A & B & C). cbn. split; [|split].
      * rewrite D. split; [reflexivity|]. split; [discriminate|]. split; [reflexivity|exact A].
      * constructor; [cbn; auto|exact B].
      * lia.
    + destruct (makeEngines rnd dict w d ph v n names) as [[es0 n0]|] eqn:M; [|discriminate].
      injection E as <- <-. destruct (IH _ _ _ M) as (A & B & C). cbn. split; [|split].
      * split; [reflexivity|]. split; [reflexivity|exact A].
      * constructor; [cbn; auto|exact B].
      * lia.
Qed.

(** it raises exactly when an item is neither an engine nor a known name *)
Lemma makeEngines_raises rnd dict w d ph v : forall names n,
  (exists x, makeEngines rnd dict w d ph v n names = inr x) <-> Exists (fun a => match a with AName s => dict s = None | AInst _ => False | AOther => True end) names.
Proof.
  induction names as [|a names IH]; intro n; cbn [makeEngines].
  - split; [intros [x E]; discriminate|intro E; inversion E].
  - destruct a as [s|i|].
    + destruct (dict s) as [c|] eqn:D.
      * specialize (IH (S n)). destruct (makeEngines rnd dict w d ph v (S n) names) as [[es0 n0]|x0] eqn:M.
        -- split; [intros [x E]; discriminate|]. intro E. apply Exists_cons in E. destruct E as [E|E]; [congruence|]. apply IH in E. destruct E; discriminate.
        -- split; [|intros _; eexists; reflexivity]. intros _. apply Exists_cons. right. apply IH. eexists; reflexivity.
      * split; [|intros _; eexists; reflexivity]. intros _. apply Exists_cons. left. exact D.
    + specialize (IH n). destruct (makeEngines rnd dict w d ph v n names) as [[es0 n0]|x0] eqn:M.
      * split; [intros [x E]; discriminate|]. intro E. apply Exists_cons in E. destruct E as [[]|E]. apply IH in E. destruct E; discriminate.
      * split; [|intros _; eexists; reflexivity]. intros _. apply Exists_cons. right. apply IH. eexists; reflexivity.
    + split; [|intros _; eexists; reflexivity]. intros _. apply Exists_cons. left. exact I.
Qed.

(** setEngines: the engines that were asked for, by default those of the problem, all connected to the
    sampler; new ones have the next seeds of the random generator. *)
Theorem C85_engines rnd s names s' : setEngines rnd s names = inl s' ->
  made rnd (if s_solver s then solverDict else samplerDict) (s_drawn s) (match names with Some l => l | None => map AName (myEngines (s_problem s)) end) (s_engines s') /\
  wired s' /\ agrees s' /\ s_dist s' = s_dist s /\ s_problem s' = s_problem s /\ s_walkers s' = s_walkers s /\ s_phantoms s' = s_next s.
Proof.
  unfold setEngines. cbv zeta. destruct (makeEngines _ _ _ _ _ _ _ _) as [[es n]|] eqn:M; [|discriminate]. intros [= <-].
  destruct (makeEngines_made _ _ _ _ _ _ _ _ _ _ M) as (A & B & _). cbn. split; [exact A|]. split; [|split; [|auto]].
  - eapply Forall_impl; [|exact B]. intros e (X & Y & Z & _). cbn. repeat split; assumption.
  - eapply Forall_impl; [|exact B]. intros e (_ & _ & _ & X). exact X.
Qed.
Print Assumptions C85_engines.

(** It raises, a ValueError, exactly when an item is neither an engine nor one of the names (with lower case letters only). *)
Theorem C85_engines_unknown rnd s l :
  (exists x, setEngines rnd s (Some l) = inr x) <->
  Exists (fun a => match a with
                   | AName n => ~ In n (if s_solver s then ["move"; "reverse"; "loop"; "near"; "shuffle"; "switch"]
                                        else ["galilean"; "chord"; "birth"; "death"; "struct"; "gibbs"; "random"; "step"])
                   | AInst _ => False
                   | AOther => True
                   end) l.
Proof.
  assert (D : forall n, (if s_solver s then solverDict else samplerDict) n = None <->
    ~ In n (if s_solver s then ["move"; "reverse"; "loop"; "near"; "shuffle"; "switch"] else ["galilean"; "chord"; "birth"; "death"; "struct"; "gibbs"; "random"; "step"])).
  { intro n. destruct (s_solver s); unfold solverDict, samplerDict; cbn [In];
      repeat match goal with |- context [n =? ?x] => destruct (String.eqb_spec n x) as [-> |] end;
      (split; [try discriminate; intros _ H; intuition congruence|intro H; try reflexivity; exfalso; apply H; intuition congruence]). }
  unfold setEngines. cbv zeta. split.
  - intros [x E]. destruct (makeEngines _ _ _ _ _ _ _ l) as [[es n]|x'] eqn:M; [discriminate|].
    assert (X : exists x, makeEngines rnd (if s_solver s then solverDict else samplerDict) (s_walkers s) (d_id (s_dist s)) (s_next s) (s_verbose s) (s_drawn s) l = inr x) by (eexists; exact M).
    apply makeEngines_raises in X. revert X. apply Exists_impl. intros [n| |]; auto. apply D.
  - intro X. assert (Y : Exists (fun a => match a with AName s0 => (if s_solver s then solverDict else samplerDict) s0 = None | AInst _ => False | AOther => True end) l).
    { revert X. apply Exists_impl. intros [n| |]; auto. apply D. }
    apply (makeEngines_raises rnd _ (s_walkers s) (d_id (s_dist s)) (s_next s) (s_verbose s) l (s_drawn s)) in Y. destruct Y as [x E]. rewrite E. eexists; reflexivity.
Qed.
Print Assumptions C85_engines_unknown.

(** ** Whatever is called, the engines stay connected *)
Lemma run1_wired rnd s c s' : run1 rnd s c = inl s' -> wired s -> wired s'.
Proof.
  intros E W. destruct c; cbn in E.
  - apply C85_engines in E. apply E.
  - unfold setDist in E. destruct (if s_solver s then _ else _) as [d|]; [|discriminate]. injection E as <-. exact W.
  - injection E as <-. unfold wired, initSample. cbn. apply Forall_map. eapply Forall_impl; [|exact W]. intros e (A & B & C). cbn. repeat split; assumption.
  - injection E as <-. unfold wired, setVerbose. cbn. apply Forall_map. eapply Forall_impl; [|exact W]. intros e (A & B & C). cbn. repeat split; assumption.
  - injection E as <-. exact W.
  - injection E as <-. exact W.
Qed.

Lemma run1_agrees rnd s c s' : run1 rnd s c = inl s' -> (match c with CDist _ _ _ _ => False | _ => True end) -> agrees s -> agrees s'.
Proof.
  intros E ND W. destruct c; cbn in E; [| contradiction | | | |].
  - apply C85_engines in E. apply E.
  - injection E as <-. unfold agrees, initSample. cbn. apply Forall_map. exact W.
  - injection E as <-. unfold agrees, setVerbose. cbn. apply Forall_map. exact W.
  - injection E as <-. exact W.
  - injection E as <-. exact W.
Qed.

Lemma newSampler_inv rnd first problem m x y w acc distribution limits boost engines verbose s :
  newSampler rnd first problem m x y w acc distribution limits boost engines verbose = inl s -> wired s /\ agrees s.
Proof.
  unfold newSampler. destruct (setProblem _ _ _ _ _ _) as [p|]; [|discriminate]. destruct (samplerDist _ _ _ _ _ _) as [d|]; [|discriminate].
  intro E. apply C85_engines in E. tauto.
Qed.

Lemma newSolver_inv rnd first problem distribution engines verbose s :
  newSolver rnd first problem distribution engines verbose = inl s -> wired s /\ agrees s.
Proof.
  unfold newSolver. destruct (setProblem _ _ _ _ _ _) as [p|]; [|discriminate]. destruct distribution; [discriminate|].
  destruct (solverDist _ _ _) as [d|]; [|discriminate]. destruct (setEngines _ _ _) as [s0|]; [|discriminate].
  intro E. apply C85_engines in E. tauto.
Qed.

Lemma run_wired rnd cs : forall s s', run rnd s cs = inl s' -> wired s -> wired s'.
Proof.
  induction cs as [|c cs IH]; intros s s' E W; cbn [run] in E; [injection E as <-; exact W|].
  destruct (run1 rnd s c) as [s1|] eqn:R; [|discriminate]. apply (IH s1); [exact E|]. apply (run1_wired rnd s c); assumption.
Qed.

Lemma run_agrees rnd cs : forall s s', run rnd s cs = inl s' -> (forall c, In c cs -> match c with CDist _ _ _ _ => False | _ => True end) -> agrees s -> agrees s'.
Proof.
  induction cs as [|c cs IH]; intros s s' E N W; cbn [run] in E; [injection E as <-; exact W|].
  destruct (run1 rnd s c) as [s1|] eqn:R; [|discriminate]. apply (IH s1); [exact E|intros; apply N; right; assumption|].
  apply (run1_agrees rnd s c); [exact R|apply N; left; reflexivity|exact W].
Qed.

Lemma run_app rnd c1 c2 : forall s s', run rnd s (c1 ++ c2) = inl s' -> exists s1, run rnd s c1 = inl s1 /\ run rnd s1 c2 = inl s'.
Proof.
  induction c1 as [|c c1 IH]; intros s s' E; cbn [app run] in *; [eauto|]. destruct (run1 rnd s c) as [s1|]; [|discriminate]. apply IH. exact E.
Qed.

(** After a constructor and any calls, all engines refer to the present walkers, phantoms and verbosity;
    also to the present distribution if setErrorDistribution has not been called since the last setEngines. *)
Theorem C85_connected : forall rnd s cs s',
  (exists first problem m x y w acc distribution limits boost engines verbose,
     newSampler rnd first problem m x y w acc distribution limits boost engines verbose = inl s) \/
  (exists first problem distribution engines verbose, newSolver rnd first problem distribution engines verbose = inl s) ->
  run rnd s cs = inl s' ->
  Forall (fun e => e_walkers e = s_walkers s' /\ e_phantoms e = s_phantoms s' /\ e_verbose e = s_verbose s') (s_engines s') /\
  ((forall c, In c cs -> match c with CDist _ _ _ _ => False | _ => True end) \/
   (exists c1 names c2, cs = (c1 ++ CEngines names :: c2)%list /\ forall c, In c c2 -> match c with CDist _ _ _ _ => False | _ => True end) ->
   Forall (fun e => e_errdis e = d_id (s_dist s')) (s_engines s')).
Proof.
  intros rnd s cs s' N E.
  assert (WA : wired s /\ agrees s).
  { destruct N as [(a&b&c&d&e&f&g&h&i&j&k&l&N)|(a&b&c&d&e&N)]; [eapply newSampler_inv; exact N|eapply newSolver_inv; exact N]. }
  destruct WA as [W A]. clear N. split; [exact (run_wired rnd cs s s' E W)|].
  intros [N|(c1 & names & c2 & -> & N)]; [exact (run_agrees rnd cs s s' E N A)|].
  apply run_app in E. destruct E as (s1 & _ & E). cbn [run run1] in E. destruct (setEngines rnd s1 names) as [s2|] eqn:SE; [|discriminate].
  apply C85_engines in SE. apply (run_agrees rnd c2 s2 s' E N). apply SE.
Qed.
Print Assumptions C85_connected.

(** the initial engine has the present distribution whenever the walkers have been made *)
Theorem C85_initial : forall s, s_initial (initSample s) = Some (d_id (s_dist (initSample s))) /\
  s_walkers (initSample s) = s_next s /\ s_dist (initSample s) = s_dist s /\ length (s_engines (initSample s)) = length (s_engines s).
Proof. intro s. cbn. rewrite map_length. auto. Qed.
Print Assumptions C85_initial.

(** A distribution that is set on an existing sampler is used for the walkers and by the explorer, but the
    engines go on with the previous one: they compare likelihoods of different distributions. *)
Theorem C85_new_distribution_refuted : forall rnd s d s', s_engines s <> [] -> Forall (fun e => e_errdis e = d_id (s_dist s)) (s_engines s) -> d_id d <> d_id (s_dist s) ->
  run rnd s [CDist (Some (AInst d)) None 1%R 2%R; CSample] = inl s' ->
  s_dist s' = d /\ s_initial s' = Some (d_id d) /\ Forall (fun e => e_errdis e <> d_id (s_dist s')) (s_engines s').
Proof.
  intros rnd s d s' NE A ND E. cbn [run run1] in E. unfold setDist in E.
  assert (X : (if s_solver s then solverDist (s_next s) (Some (s_problem s)) (Some (AInst d)) else samplerDist (s_next s) (s_problem s) (Some (AInst d)) None 1%R 2%R) = inl d) by (destruct (s_solver s); reflexivity).
  rewrite X in E. injection E as <-. cbn. split; [reflexivity|]. split; [reflexivity|]. apply Forall_map. eapply Forall_impl; [|exact A]. cbn. intros e -> H. apply ND. symmetry. exact H.
Qed.
Print Assumptions C85_new_distribution_refuted.

(** ** The distribution *)
(** names are read without regard to case; the distribution has the scale, power and limits that were given *)
Theorem C85_distribution : forall id p n limits scale power d, samplerDist id p (Some (AName n)) limits scale power = inl d ->
  d_id d = id /\
  In (lower n, d_kind d) [("gauss", DGauss); ("laplace", DLaplace); ("poisson", DPoisson); ("cauchy", DCauchy); ("uniform", DUniform);
                          ("exponential", DExponential); ("gauss2d", DGauss2d); ("model", DModel); ("bernoulli", DBernoulli)] /\
  (match d_kind d with DPoisson | DBernoulli => d_scale d = None /\ d_limits d = None | _ => d_scale d = Some scale /\ d_limits d = limits end) /\
  d_power d = (match d_kind d with DExponential => Some power | _ => None end).
Proof.
  intros id p n limits scale power d. unfold samplerDist. cbv zeta. generalize (lower n). intro l.
  repeat match goal with |- (if l =? ?x then _ else _) = _ -> _ => destruct (String.eqb_spec l x) as [-> |]; [intros [= <-]; cbn; tauto|] end. discriminate.
Qed.
Print Assumptions C85_distribution.

Theorem C85_distribution_known : forall id p n limits scale power,
  (exists d, samplerDist id p (Some (AName n)) limits scale power = inl d) <->
  In (lower n) ["gauss"; "laplace"; "poisson"; "cauchy"; "uniform"; "exponential"; "gauss2d"; "model"; "bernoulli"].
Proof.
  intros id p n limits scale power. unfold samplerDist. cbv zeta. generalize (lower n). intro l.
  repeat match goal with |- context [if l =? ?x then _ else _] => destruct (String.eqb_spec l x) as [-> |]; [split; [intros _; cbn; tauto|intros _; eexists; reflexivity]|] end.
  split; [intros [d E]; discriminate|]. cbn. intuition congruence.
Qed.
Print Assumptions C85_distribution_known.

(** limits that are given along with a distribution are ignored: its hyper-parameters remain as they were *)
Theorem C85_limits_refuted : forall id p d limits scale power, samplerDist id p (Some (AInst d)) limits scale power = inl d.
Proof. reflexivity. Qed.
Print Assumptions C85_limits_refuted.

(** ** Construction *)
Definition samplerKind (k : pkind) : bool := match k with Order => false | _ => true end.

Lemma default_engines rnd s : s_solver s = false -> samplerKind (p_kind (s_problem s)) = true -> exists s', setEngines rnd s None = inl s'.
Proof.
  intros SO K. unfold setEngines. rewrite SO. cbv zeta. destruct (makeEngines _ _ _ _ _ _ _ _) as [[es n]|x] eqn:M; [eexists; reflexivity|]. exfalso.
  assert (X : exists x, makeEngines rnd samplerDict (s_walkers s) (d_id (s_dist s)) (s_next s) (s_verbose s) (s_drawn s) (map AName (myEngines (s_problem s))) = inr x) by (eexists; exact M).
  apply makeEngines_raises in X. apply Exists_exists in X. destruct X as (a & I & X). apply in_map_iff in I. destruct I as (n & <- & I).
  revert I X. unfold myEngines. destruct (p_kind (s_problem s)); [| | | |discriminate]; destruct (isDynamic (s_problem s)), (isModifiable (s_problem s)); cbn;
    intuition; subst; discriminate.
Qed.

(** a problem gives a sampler with its own distribution of scale 1 and its own engines, nothing else given *)
Theorem C85_sampler rnd first p : samplerKind (p_kind p) = true ->
  exists s, newSampler rnd first (Some (AInst p)) None None None None None None None BFalse None 1 = inl s /\ s_problem s = p /\
    d_kind (s_dist s) = (match p_kind p with Errors => DGauss2d | Evidence => DModel | _ => DGauss end) /\
    d_scale (s_dist s) = Some 1%R /\ d_limits (s_dist s) = None /\
    made rnd samplerDict 0 (map AName (myEngines p)) (s_engines s) /\ wired s /\ agrees s.
Proof.
  intro K. unfold newSampler, setProblem. cbn [orElse].
  set (q := mkP (p_kind p) (p_model p) (p_x p) (p_y p) (p_w p) (p_acc p)). assert (Q : q = p) by (destruct p; reflexivity). 
  assert (D : exists d, samplerDist first q None None 1%R 2%R = inl d /\ d_kind d = (match p_kind p with Errors => DGauss2d | Evidence => DModel | _ => DGauss end) /\ d_scale d = Some 1%R /\ d_limits d = None).
  { rewrite Q. unfold samplerDist. destruct (p_kind p); [| | | |discriminate]; cbn; eexists; repeat split; reflexivity. }
  destruct D as (d & E & D1 & D2 & D3). rewrite E.
  destruct (default_engines rnd (mkS false q d [] 0 0 0 (S first) 1 None false None FromWalkers)) as [s S]; [reflexivity|rewrite Q; exact K|].
  exists s. split; [exact S|]. apply C85_engines in S. cbn in S. destruct S as (A & B & C & D4 & D5 & _ & _). rewrite Q in A, D5. rewrite D4, D5. auto 10.
Qed.
Print Assumptions C85_sampler.

(** a NestedSampler without engines of an ordering problem cannot be made, a NestedSolver can *)
Theorem C85_solver rnd first p : p_kind p = Order ->
  newSampler rnd first (Some (AInst p)) None None None None None None None BFalse None 1 = inr ValueError /\
  (isDynamic p = false -> exists s, newSolver rnd first (AInst p) None None 1 = inl s /\ s_problem s = p /\ d_kind (s_dist s) = DDistance /\
     made rnd solverDict 4 (map AName ["move"; "reverse"; "switch"; "loop"]) (s_engines s) /\ wired s /\ agrees s).
Proof.
  intro K. split.
  - unfold newSampler, setProblem. cbn [orElse]. unfold samplerDist. cbn [p_kind]. rewrite K. reflexivity.
  - intro ND. unfold newSolver, setProblem. cbn [orElse].
    set (q := mkP (p_kind p) (p_model p) (p_x p) (p_y p) (p_w p) (p_acc p)). assert (Q : q = p) by (destruct p; reflexivity).
    rewrite Q. unfold solverDist. rewrite K. cbn [myDistribution]. replace (lower "distance" =? "distance") with true by reflexivity.
    assert (ME : myEngines p = ["move"; "reverse"; "switch"; "loop"]) by (unfold myEngines; rewrite K, ND; reflexivity).
    unfold setEngines. cbn [s_problem s_solver s_walkers s_dist s_next s_verbose s_drawn s_initial s_boost s_fitter s_copier d_id]. rewrite ME. cbn. rewrite ME. cbn.
    eexists. split; [reflexivity|]. cbn. repeat split; try discriminate; repeat constructor.
Qed.
Print Assumptions C85_solver.

(** a NestedSolver cannot be given a distribution: it raises TypeError, also for "distance" and for an object *)
Theorem C85_solver_distribution_refuted : forall rnd first p d engines verbose, exists x, newSolver rnd first p (Some d) engines verbose = inr x.
Proof. intros. unfold newSolver. destruct (setProblem _ _ _ _ _ _); eexists; reflexivity. Qed.
Print Assumptions C85_solver_distribution_refuted.

(** an ordering problem that is dynamic has birth and death among its engines, which NestedSolver does not know *)
Theorem C85_solver_dynamic_refuted : forall rnd first p, p_kind p = Order -> isDynamic p = true -> newSolver rnd first (AInst p) None None 1 = inr ValueError.
Proof.
  intros rnd first p K D. unfold newSolver, setProblem. cbn [orElse].
  set (q := mkP (p_kind p) (p_model p) (p_x p) (p_y p) (p_w p) (p_acc p)). assert (Q : q = p) by (destruct p; reflexivity).
  rewrite Q. unfold solverDist. rewrite K. cbn [myDistribution]. replace (lower "distance" =? "distance") with true by reflexivity.
  assert (ME : myEngines p = ["move"; "reverse"; "switch"; "loop"; "birth"; "death"]) by (unfold myEngines; rewrite K, D; reflexivity).
  unfold setEngines. cbn [s_problem s_solver s_walkers s_dist s_next s_verbose s_drawn s_initial s_boost s_fitter s_copier d_id]. rewrite ME. reflexivity.
Qed.
Print Assumptions C85_solver_dynamic_refuted.

(** ** The problem *)
(** by name, in any case; nothing means classic *)
Theorem C85_problem : forall n m x y w acc p, setProblem (AName n) m x y w acc = inl p ->
  In (lower n, p_kind p) [("classic", Classic); ("errors", Errors); ("multiple", Multiple)] /\
  p_model p = m /\ p_x p = x /\ p_y p = y /\ p_w p = w /\ p_acc p = acc.
Proof.
  intros n m x y w acc p. unfold setProblem. cbv zeta. generalize (lower n). intro l.
  repeat match goal with |- (if l =? ?x then _ else _) = _ -> _ => destruct (String.eqb_spec l x) as [-> |]; [try discriminate; intros [= <-]; cbn; tauto|] end. discriminate.
Qed.
Print Assumptions C85_problem.

(** "evidence" is in the list of names but it raises TypeError: its constructor does not take the accuracy *)
Theorem C85_evidence_refuted : forall m x y w acc, setProblem (AName "evidence") m x y w acc = inr TypeError.
Proof. reflexivity. Qed.
Print Assumptions C85_evidence_refuted.

(** according to the documentation data that come along with a problem are not used; they replace those of the problem *)
Theorem C85_problem_data_refuted : forall p m x y w acc q, setProblem (AInst p) (Some m) (Some x) (Some y) (Some w) acc = inl q ->
  p_model q = Some m /\ p_x q = Some x /\ p_y q = Some y /\ p_w q = Some w.
Proof. intros p m x y w acc q [= <-]. cbn. auto. Qed.
Print Assumptions C85_problem_data_refuted.

(** what is not given stays what it was *)
Theorem C85_problem_kept : forall p, setProblem (AInst p) None None None None None = inl p.
Proof. intros []. reflexivity. Qed.
Print Assumptions C85_problem_kept.

(** ** Boost *)
Lemma boost_const rnd s c s' : run1 rnd s c = inl s' -> s_boost s' = s_boost s /\ s_fitter s' = match c with CBestUpdate f => f | _ => s_fitter s end.
Proof.
  destruct c; cbn; try (intros [= <-]; cbn; auto).
  - unfold setEngines. cbv zeta. destruct (makeEngines _ _ _ _ _ _ _ _) as [[es n]|]; [|discriminate]. intros [= <-]. cbn. auto.
  - unfold setDist. destruct (if s_solver s then _ else _); [|discriminate]. intros [= <-]. cbn. auto.
Qed.

(** the fitter of the boost is that of the last setting of bestUpdate *)
Theorem C85_boost : forall rnd cs s s', run rnd s cs = inl s' ->
  boostFitter s' = if s_boost s then Some (fold_left (fun f c => match c with CBestUpdate g => g | _ => f end) cs (s_fitter s)) else None.
Proof.
  intros rnd cs. induction cs as [|c cs IH]; intros s s' E; cbn [run] in E.
  - injection E as <-. reflexivity.
  - destruct (run1 rnd s c) as [s1|] eqn:R; [|discriminate]. rewrite (IH s1 s' E). destruct (boost_const rnd s c s1 R) as [-> ->]. reflexivity.
Qed.
Print Assumptions C85_boost.

(** a fitter that is given as bestBoost is not used, the default one is *)
Theorem C85_boost_refuted : forall rnd first problem m x y w acc distribution limits f engines verbose s,
  newSampler rnd first problem m x y w acc distribution limits (BFitter f) engines verbose = inl s -> boostFitter s = Some None.
Proof.
  intros rnd first problem m x y w acc distribution limits f engines verbose s. unfold newSampler.
  destruct (setProblem _ _ _ _ _ _) as [p|]; [|discriminate]. destruct (samplerDist _ _ _ _ _ _) as [d|]; [|discriminate].
  unfold setEngines. cbv zeta. destruct (makeEngines _ _ _ _ _ _ _ _) as [[es n]|]; [|discriminate]. intros [= <-]. reflexivity.
Qed.
Print Assumptions C85_boost_refuted.

(** ** Copies of phantoms: once switched on they stay on *)
Theorem C85_copymode : forall s v, 
  s_copier (setCopymode s 1) = (if isDynamic (s_problem s) then FromDynamicPhantoms else FromPhantoms) /\
  (v <> 1%nat -> s_copier (setCopymode s v) = s_copier s).
Proof. intros s v. split; [reflexivity|]. intro N. cbn. destruct (Nat.eqb_spec v 1); [contradiction|reflexivity]. Qed.
Print Assumptions C85_copymode.

(** ** Names are read without regard to case *)
Definition upper (c : ascii) : Prop := (65 <= nat_of_ascii c <= 90)%nat.
(** a reads as the small letters b *)
Fixpoint reads (a b : string) : Prop :=
  match a, b with
  | EmptyString, EmptyString => True
  | String c a, String d b => (c = d \/ (upper c /\ nat_of_ascii d = (nat_of_ascii c + 32)%nat)) /\ reads a b
  | _, _ => False
  end.
Fixpoint small (b : string) : Prop := match b with EmptyString => True | String d b => ~ upper d /\ small b end.
Lemma lowerA_reads : forall c d, ~ upper d -> (lowerA c = d <-> c = d \/ (upper c /\ nat_of_ascii d = (nat_of_ascii c + 32)%nat)).
Proof.
  intros c d N. unfold lowerA, upper in *.
  destruct (Nat.leb_spec 65 (nat_of_ascii c)) as [A|A]; destruct (Nat.leb_spec (nat_of_ascii c) 90) as [B|B]; cbn [andb].
  - split.
    + intros <-. right. split; [lia|]. apply nat_ascii_embedding. lia.
    + intros [->|[_ E]]; [lia|]. rewrite <- E. apply ascii_nat_embedding.
  - split; [intros ->; left; reflexivity|intros [->|[H _]]; [reflexivity|lia]].
  - split; [intros ->; left; reflexivity|intros [->|[H _]]; [reflexivity|lia]].
  - split; [intros ->; left; reflexivity|intros [->|[H _]]; [reflexivity|lia]].
Qed.
Theorem C85_case : forall s t, small t -> (lower s = t <-> reads s t).
Proof.
  induction s as [|c s IH]; intros [|d t] H; cbn [lower reads]; try (split; [discriminate|contradiction]); [tauto|].
  destruct H as [H1 H2]. specialize (IH t H2). pose proof (lowerA_reads c d H1) as L. split.
  - intros [= E1 E2]. tauto.
  - intros [A B]. f_equal; tauto.
Qed.
Print Assumptions C85_case.
(** so that a problem is found by its name, in any case *)
Theorem C85_problem_name : forall s m x y w acc,
  (reads s "classic" -> setProblem (AName s) m x y w acc = inl (mkP Classic m x y w acc)) /\
  (reads s "errors" -> setProblem (AName s) m x y w acc = inl (mkP Errors m x y w acc)) /\
  (reads s "multiple" -> setProblem (AName s) m x y w acc = inl (mkP Multiple m x y w acc)).
Proof.
  intros s m x y w acc. unfold setProblem.
  repeat split; intros H; apply C85_case in H; try (rewrite H; reflexivity); cbn; unfold upper; cbn; repeat split; lia.
Qed.
Print Assumptions C85_problem_name.
Example C85_case_ex : reads "ClaSSic" "classic" /\ lower "ClaSSic" = "classic".
Proof. split; [|reflexivity]. cbn. unfold upper. cbn. repeat split; (left; reflexivity) || (right; split; [lia|reflexivity]). Qed.

(** ** The engines a problem prefers *)
Theorem C85_preferred : forall p,
  (In "birth" (myEngines p) <-> isDynamic p = true /\ (p_kind p = Classic \/ p_kind p = Evidence \/ p_kind p = Order)) /\
  (In "death" (myEngines p) <-> In "birth" (myEngines p)) /\
  (In "struct" (myEngines p) <-> isModifiable p = true /\ (p_kind p = Classic \/ p_kind p = Evidence)) /\
  (In "galilean" (myEngines p) <-> p_kind p = Classic \/ p_kind p = Errors \/ p_kind p = Multiple) /\
  (In "chord" (myEngines p) <-> In "galilean" (myEngines p)) /\
  (In "gibbs" (myEngines p) <-> p_kind p = Errors) /\
  (forall e, In e ["move"; "reverse"; "switch"; "loop"] -> (In e (myEngines p) <-> p_kind p = Order)) /\
  NoDup (myEngines p).
Proof.
  intros p. unfold myEngines. destruct (p_kind p), (isDynamic p), (isModifiable p); cbn;
    (split; [intuition discriminate|]); (split; [intuition discriminate|]); (split; [intuition discriminate|]); (split; [intuition discriminate|]);
    (split; [intuition discriminate|]); (split; [intuition discriminate|]);
    (split; [intros e [<-|[<-|[<-|[<-|[]]]]]; intuition discriminate|]);
    repeat constructor; cbn; intuition discriminate.
Qed.
Print Assumptions C85_preferred.

(** ** Cases *)
Definition rnd0 (n : nat) : Z := Z.of_nat (100 + n).
Definition classicP := mkP Classic (Some (mkM 1 true false)) (Some 1%nat) (Some 2%nat) None None.
Definition orderP (dyn : bool) := mkP Order (Some (mkM 2 dyn false)) (Some 1%nat) None None None.

Example C85_example : exists s s', newSampler rnd0 10 (Some (AInst classicP)) None None None None None (Some (AName "LaPlace")) (Some (1, 2)%R) BFalse None 1 = inl s /\
  run rnd0 s [CSample; CEngines (Some [AName "chord"; AName "step"]); CVerbose 3] = inl s' /\
  map e_class (s_engines s) = [Some Galilean; Some Chord; Some Birth; Some Death] /\ map e_seed (s_engines s) = [100; 101; 102; 103]%Z /\
  d_kind (s_dist s) = DLaplace /\ map e_class (s_engines s') = [Some Chord; Some Step] /\ map e_verbose (s_engines s') = [3; 3]%nat.
Proof. eexists. eexists. split; [reflexivity|]. split; [reflexivity|]. cbn. repeat split; reflexivity. Qed.

Example C85_example_distribution : exists s s' d, newSampler rnd0 10 (Some (AInst classicP)) None None None None None None None BFalse None 1 = inl s /\
  d_id d <> d_id (s_dist s) /\ s_engines s <> [] /\ run rnd0 s [CDist (Some (AInst d)) None 1%R 2%R; CSample] = inl s' /\ map e_errdis (s_engines s') = [10; 10; 10; 10]%nat /\ d_id (s_dist s') = 77%nat.
Proof.
  eexists. eexists. exists (mkD 77 DCauchy (Some 1%R) None None). split; [reflexivity|]. split; [cbn; discriminate|]. split; [cbn; discriminate|]. split; [reflexivity|]. split; reflexivity.
Qed.

Example C85_example_solver : p_kind (orderP false) = Order /\ isDynamic (orderP false) = false /\ isDynamic (orderP true) = true.
Proof. repeat split. Qed.
