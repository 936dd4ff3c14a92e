(** Theorems C17 - C20: compound models, fixed parameters, attributes of parameters. *)
From Coquelicot Require Import Coquelicot.
From Coq Require Import List Arith ZArith Reals Lra Lia Bool.
From Verif Require Import L_List M_Chain S_Chain P_Chain M_Fixed P_Fixed M_Attr P_Attr.
Import ListNotations.
Local Open Scope R_scope.

(** ** C17: a compound model is worth what its expression is worth. *)
Theorem C17_value e x p : user e -> length p = enp e -> cres (build e) x p = Some (den e x p).
Proof.
  intros U L. destruct (build_rep e U) as [B Rb]. unfold cres.
  rewrite (proj2 (rep_value B) _ _ Rb) by lia. rewrite firstn_all2 by lia. reflexivity.
Qed.
Print Assumptions C17_value.

Theorem C17_count e : user e -> npchain (build e) = enp e.
Proof. intro U. destruct (build_rep e U) as [B Rb]. apply (proj2 (rep_np B) _ _ Rb). Qed.
Print Assumptions C17_count.

(** A copy is worth the same. *)
Theorem C17_copy e x p : user e -> length p = enp e ->
  cres (ccopy (build e)) x p = cres (build e) x p /\ npchain (ccopy (build e)) = npchain (build e).
Proof.
  intros U L. rewrite (C17_value e x p U L), (C17_count e U).
  destruct (build_rep e U) as [B Rb]. apply (proj2 (rep_copy B)) in Rb. split.
  - unfold cres. rewrite (proj2 (rep_value true) _ _ Rb) by lia. rewrite firstn_all2 by lia. reflexivity.
  - apply (proj2 (rep_np true) _ _ Rb).
Qed.
Print Assumptions C17_copy.

(** A straight line and a constant. *)
Definition line : base := mkBase 2 false
  (fun x p => nth 0 p 0 + nth 1 p 0 * x) (fun x p => nth 1 p 0) (fun x p => [1; x]).
Definition const : base := mkBase 1 false
  (fun x p => nth 0 p 0) (fun x p => 0) (fun x p => [1]).

(** (line + const) * line - (line | line), 2+1+2+4 parameters. *)
Definition ex_e : expr :=
  EOp SUB (EOp MUL (EOp ADD (EB line) (EB const)) (EB line)) (EOp PIP (EB line) (EB line)).

Example C17_ex : user ex_e /\ enp ex_e = 9%nat /\
  cres (build ex_e) 2 [1; 2; 3; 4; 5; 6; 7; 8; 9] = Some (-76).
Proof.
  split; [cbn; intuition discriminate|]. split; [reflexivity|].
  rewrite C17_value; [|cbn; intuition discriminate|reflexivity].
  f_equal. cbn. ring.
Qed.

(** ** C18: derivatives of a compound model. *)
Theorem C18_gradient e x p : user e -> length p = enp e -> goodp e x p ->
  nofixpipe true e -> nopipe2 e ->
  exists g, cpar (build e) x p = Some g /\ gradient (den e x) p g.
Proof.
  intros U L G F N. pose proof (build_rep_true e U N) as Rb.
  destruct (proj2 rep_par _ _ Rb x p) as [g [A [B _]]]; [lia|rewrite firstn_all2 by lia; exact G|exact F|].
  rewrite firstn_all2 in B by lia. exists g. split; [exact A|exact B].
Qed.
Print Assumptions C18_gradient.

Theorem C18_derivative e x p : user e -> length p = enp e -> goodx e x p -> nopipe2 e ->
  exists d, cder (build e) x p = Some d /\ is_derive (fun t => den e t p) x d.
Proof.
  intros U L G N. pose proof (build_rep_true e U N) as Rb.
  destruct (proj2 rep_der _ _ Rb x p) as [d [A [B _]]]; [lia|rewrite firstn_all2 by lia; exact G|].
  rewrite firstn_all2 in B by lia. exists d. split; [exact A|exact B].
Qed.
Print Assumptions C18_derivative.

(** In a copy of the compound model all pipes are in order. *)
Theorem C18_copy e x p : user e -> length p = enp e ->
  (goodp e x p -> nofixpipe true e ->
   exists g, cpar (ccopy (build e)) x p = Some g /\ gradient (den e x) p g) /\
  (goodx e x p -> exists d, cder (ccopy (build e)) x p = Some d /\ is_derive (fun t => den e t p) x d).
Proof.
  intros U L. destruct (build_rep e U) as [B Rb]. apply (proj2 (rep_copy B)) in Rb. split.
  - intros G F. destruct (proj2 rep_par _ _ Rb x p) as [g [A [C _]]]; [lia|rewrite firstn_all2 by lia; exact G|exact F|].
    rewrite firstn_all2 in C by lia. exists g. split; [exact A|exact C].
  - intros G. destruct (proj2 rep_der _ _ Rb x p) as [g [A [C _]]]; [lia|rewrite firstn_all2 by lia; exact G|].
    rewrite firstn_all2 in C by lia. exists g. split; [exact A|exact C].
Qed.
Print Assumptions C18_copy.

Lemma line_good x a b : gradient (b_f line x) [a; b] (b_dp line x [a; b]) /\
  is_derive (fun t => b_f line t [a; b]) x (b_dx line x [a; b]).
Proof.
  split.
  - split; [reflexivity|]. intros [|[|k]] H; cbn in H; try lia; cbn; auto_derive; auto; ring.
  - cbn. auto_derive; auto. ring.
Qed.

Lemma const_good x a : gradient (b_f const x) [a] (b_dp const x [a]) /\
  is_derive (fun t => b_f const t [a]) x (b_dx const x [a]).
Proof.
  split.
  - split; [reflexivity|]. intros [|k] H; cbn in H; try lia; cbn; auto_derive; auto; ring.
  - cbn. auto_derive; auto.
Qed.

(** ex_e with 3 for DIV: (line + const) / line - (line | line) at x = 2 *)
Definition ex_d : expr :=
  EOp SUB (EOp DIV (EOp ADD (EB line) (EB const)) (EB line)) (EOp PIP (EB line) (EB line)).

Example C18_ex : user ex_d /\ goodp ex_d 2 [1; 2; 3; 4; 5; 6; 7; 8; 9] /\ nofixpipe true ex_d /\
  nopipe2 ex_d /\ goodx ex_d 2 [1; 2; 3; 4; 5; 6; 7; 8; 9].
Proof.
  split; [cbn; intuition discriminate|].
  split; [|split; [cbn; intuition congruence|split; [exact I|]]].
  - refine (conj (conj (conj _ _) (conj _ _)) (conj _ (conj _ _))).
    + exact (proj1 (line_good 2 1 2)).
    + exact (proj1 (const_good 2 3)).
    + exact (proj1 (line_good 2 4 5)).
    + cbn. lra.
    + exact (proj1 (line_good 2 6 7)).
    + exact (proj1 (line_good (6 + 7 * 2) 8 9)).
    + exact (proj2 (line_good (6 + 7 * 2) 8 9)).
  - refine (conj (conj (conj _ _) (conj _ _)) (conj _ _)).
    + exact (proj2 (line_good 2 1 2)).
    + exact (proj2 (const_good 2 3)).
    + exact (proj2 (line_good 2 4 5)).
    + cbn. lra.
    + exact (proj2 (line_good 2 6 7)).
    + exact (proj2 (line_good (6 + 7 * 2) 8 9)).
Qed.

(** Finding: a pipe into a compound model: A | (B + C).  Its result is all right, its partial and
    derivative raise an exception, for all models, inputs and parameters. *)
Theorem C18_pipe_into_compound_refuted : forall a b c x p,
  let e := EOp PIP (EB a) (EOp ADD (EB b) (EB c)) in
  length p = enp e ->
  cres (build e) x p = Some (den e x p) /\ cpar (build e) x p = None /\ cder (build e) x p = None.
Proof.
  intros a b c x p e L. split; [apply C17_value; [cbn; intuition discriminate|exact L]|].
  assert (E : build e = [(NOP, true, MBase a); (PIP, false, MBr [(NOP, true, MBase b); (ADD, true, MBase c)])]) by reflexivity.
  rewrite E. split.
  - unfold cpar. rewrite chain_par_cons. cbn zeta.
    destruct (pstep _ _ _ _ _ _) as [g|]; [|reflexivity].
    destruct (rstep _ _ _ _ _) as [r|]; [|reflexivity].
    rewrite chain_par_cons. cbn zeta.
    assert (Q : forall par, pstep mpar (PIP, false, MBr [(NOP, true, MBase b); (ADD, true, MBase c)]) x par (Some r) (Some g) = None).
    { intro par. unfold pstep. destruct (mpar _ r par); [|reflexivity]. destruct (mder _ r par); reflexivity. }
    rewrite Q. reflexivity.
  - unfold cder. rewrite chain_der_cons.
    destruct (dstep _ _ _ _ _ _) as [d|]; [|reflexivity].
    destruct (rstep _ _ _ _ _) as [r|]; [|reflexivity].
    rewrite chain_der_cons.
    assert (Q : forall q, dstep mder (PIP, false, MBr [(NOP, true, MBase b); (ADD, true, MBase c)]) x q (Some r) d = None).
    { intro q. unfold dstep. destruct (mder _ _ _); reflexivity. }
    rewrite Q. reflexivity.
Qed.
Print Assumptions C18_pipe_into_compound_refuted.

(** Finding: a model with a fixed parameter behind a pipe, followed by another one:
    (A | B) + C, partial raises an exception although result is all right. *)
Theorem C18_fixed_behind_pipe_refuted : forall a b c x p,
  let e := EOp ADD (EOp PIP (EB a) (EB b)) (EB c) in
  b_fixed b = true -> (0 < b_np c)%nat -> length p = enp e ->
  cres (build e) x p = Some (den e x p) /\ cpar (build e) x p = None.
Proof.
  intros a b c x p e Fb Nc L. split; [apply C17_value; [cbn; intuition discriminate|exact L]|].
  assert (E : build e = [(NOP, true, MBase a); (PIP, true, MBase b); (ADD, true, MBase c)]) by reflexivity.
  rewrite E. unfold cpar. rewrite chain_par_cons. cbn zeta.
  destruct (pstep _ _ _ _ _ _) as [g|]; [|reflexivity].
  destruct (rstep _ _ _ _ _) as [r|]; [|reflexivity].
  rewrite chain_par_cons. cbn zeta.
  destruct (pstep _ _ _ _ _ _) as [g'|]; [|reflexivity].
  unfold rstep. cbn [mres snd npbase Nat.add].
  destruct (base_result b x _) as [n|]; [|reflexivity]. cbn [operate].
  assert (Q : base_result b r (skipn (b_np a) p) = None); [|rewrite Q; reflexivity].
  unfold base_result. rewrite Fb, skipn_length. cbn [enp e] in L.
  destruct (Nat.ltb_spec (length p - b_np a) (b_np b)); [reflexivity|].
  destruct (Nat.eqb_spec (length p - b_np a) (b_np b)) as [Z|Z]; [cbn in L; lia|reflexivity].
Qed.
Print Assumptions C18_fixed_behind_pipe_refuted.

(** ** C19: fixed parameters. *)

(** What is given and what comes out: fixed values at their place, the value of the model where
    a model is fixed, free parameters in order at the other places. *)
Theorem C19_expand n fx x param :
  good_keys n fx -> length param = fnpbase (mkFixed n fx) ->
  let fd := natkeys n fx in
  exists full, expand (mkFixed n fx) x param = Some full /\
    (forall k c, In (k, FVal c) fd -> nth k full 0 = c) /\
    (forall fd1 k ne f df fd2, fd = fd1 ++ (k, FMod ne f df) :: fd2 ->
       nth k full 0 = f x (firstn ne (skipn (n - length fx + nmods fd1) param))) /\
    map (fun k => nth k full 0) (filter (fun k => negb (existsb (Nat.eqb k) (map fst fd))) (seq 0 n)) =
      firstn (n - length fx) param.
Proof.
  intros G L fd. pose proof (mkFixed_wf n fx G) as W. fold fd in W.
  rewrite (wf_npbase n fd _ W) in L.
  assert (Lfd : length fd = length fx) by (unfold fd, natkeys; apply map_length).
  destruct (expand_spec n fd _ W x param L) as [full [A [B [C D]]]].
  exists full. split; [exact A|]. split; [|split].
  - intros k c I. apply in_split in I. destruct I as [fd1 [fd2 Ef]].
    rewrite (D fd1 k (FVal c) fd2 Ef). reflexivity.
  - intros fd1 k ne f df fd2 Ef. rewrite (D _ _ _ _ Ef). unfold nfree. rewrite Lfd. reflexivity.
  - change (filter _ (seq 0 n)) with (freeidx n fd).
    pose proof (freeidx_length n fd (wf_nd _ _ _ W) (wf_rg _ _ _ W)) as [Lfr _].
    apply nth_ext with (d := 0) (d' := 0).
    + rewrite map_length, Lfr, firstn_length. unfold nfree in L. lia.
    + intros i Hi. rewrite map_length, Lfr in Hi.
      rewrite nth_firstn_lt' by lia.
      rewrite (nth_indep _ 0 ((fun k => nth k full 0) 0%nat)) by (rewrite map_length; lia).
      rewrite (map_nth (fun k => nth k full 0)).
      rewrite <- (free_low n fd _ W) by (unfold nfree; lia). apply C. unfold nfree in L. lia.
Qed.
Print Assumptions C19_expand.

(** Number of parameters to be given. *)
Theorem C19_count n fx : good_keys n fx ->
  fnpbase (mkFixed n fx) =
  (n - length fx + list_sum (map (fun kv => match snd kv with FMod np _ _ => np | _ => 0 end) fx))%nat /\
  (length fx <= n)%nat.
Proof.
  intro G. pose proof (mkFixed_wf n fx G) as W.
  assert (Lfd : length (natkeys n fx) = length fx) by (unfold natkeys; apply map_length).
  rewrite (wf_npbase n _ _ W). unfold nfree. rewrite Lfd. split.
  - f_equal. unfold nmods, natkeys. rewrite map_map. reflexivity.
  - rewrite <- Lfd. apply (freeidx_length n _ (wf_nd _ _ _ W) (wf_rg _ _ _ W)).
Qed.
Print Assumptions C19_count.

(** Selecting the free parameters from the expanded list returns the original. *)
Theorem C19_select_expand n fx x param own :
  good_keys n fx -> length param = fnpbase (mkFixed n fx) ->
  (forall kv, In kv fx -> exists c, snd kv = FVal c) ->
  exists full, expand (mkFixed n fx) x param = Some full /\ select (mkFixed n fx) own full = param.
Proof.
  intros G L HV. pose proof (mkFixed_wf n fx G) as W. set (fd := natkeys n fx) in *.
  rewrite (wf_npbase n fd _ W) in L.
  destruct (expand_spec n fd _ W x param L) as [full [A [B [C D]]]].
  exists full. split; [exact A|]. unfold select.
  rewrite (wf_ml _ _ _ W), (wf_par _ _ _ W).
  assert (E : filter (fun kv => ismod (snd kv)) (zk fd) = []).
  { assert (HV' : forall kv, In kv (zk fd) -> ismod (snd kv) = false).
    { intros kv I. unfold zk, fd, natkeys in I. rewrite map_map in I. apply in_map_iff in I.
      destruct I as [kv' [<- I]]. cbn. destruct (HV kv' I) as [c ->]. reflexivity. }
    induction (zk fd) as [|a l IH]; [reflexivity|]. cbn. rewrite HV' by (left; reflexivity).
    apply IH. intros. apply HV'. right. assumption. }
  rewrite E. cbn [map]. rewrite map_map.
  pose proof (wf_free_length n fd _ W) as Lf.
  apply nth_ext with (d := 0) (d' := 0).
  - rewrite map_length. lia.
  - intros i Hi. rewrite map_length in Hi.
    rewrite (nth_indep _ 0 ((fun k => nth (Z.to_nat (Z.of_nat k)) full 0) 0%nat)) by (rewrite map_length; lia).
    rewrite (map_nth (fun k => nth (Z.to_nat (Z.of_nat k)) full 0)). cbn beta. rewrite Nat2Z.id. apply C. lia.
Qed.
Print Assumptions C19_select_expand.

(** The partials returned are the partial derivatives of the result to the parameters given. *)
Theorem C19_gradient n fx F DF x param full :
  good_keys n fx -> length param = fnpbase (mkFixed n fx) ->
  expand (mkFixed n fx) x param = Some full ->
  gradient (F x) (firstn n full) (DF x (firstn n full)) ->
  (forall fd1 k ne f df fd2, natkeys n fx = fd1 ++ (k, FMod ne f df) :: fd2 ->
     let s := firstn ne (skipn (n - length fx + nmods fd1) param) in gradient (f x) s (df x s)) ->
  exists g, fpartial DF (mkFixed n fx) x param = Some g /\
    gradient (fun p => match fresult F (mkFixed n fx) x p with Some v => v | None => 0 end) param g.
Proof.
  intros G L E HF HM. pose proof (mkFixed_wf n fx G) as W. set (fd := natkeys n fx) in *.
  rewrite (wf_npbase n fd _ W) in L.
  assert (Lfd : length fd = length fx) by (unfold fd, natkeys; apply map_length).
  eapply (fixed_gradient n fd _ W); eauto.
  unfold nfree. rewrite Lfd. exact HM.
Qed.
Print Assumptions C19_gradient.

(** y = p0 + p1 x + p2 x^2 with p1 replaced by a line and the last one fixed at 7. *)
Definition parab (x : R) (p : list R) : R := nth 0 p 0 + nth 1 p 0 * x + nth 2 p 0 * x * x.
Definition dparab (x : R) (p : list R) : list R := [1; x; x * x].
Definition ex_fx : list (Z * fixval) := [((-2)%Z, FMod 2 (b_f line) (b_dp line)); (2%Z, FVal 7)].

Example C19_ex : good_keys 3 ex_fx /\ fnpbase (mkFixed 3 ex_fx) = 3%nat /\
  expand (mkFixed 3 ex_fx) 2 [10; 20; 30] = Some [10; 20 + 30 * 2; 7; 20; 30] /\
  gradient (parab 2) (firstn 3 [10; 20 + 30 * 2; 7; 20; 30]) (dparab 2 [10; 20 + 30 * 2; 7]) /\
  fpartial dparab (mkFixed 3 ex_fx) 2 [10; 20; 30] = Some [1; 2 * 1; 2 * 2].
Proof.
  assert (E : expand (mkFixed 3 ex_fx) 2 [10; 20; 30] = Some [10; 20 + 30 * 2; 7; 20; 30]) by reflexivity.
  split; [|split; [reflexivity|split; [exact E|split]]].
  - split.
    + repeat apply Forall_cons; try apply Forall_nil; cbn; lia.
    + cbn. repeat constructor; cbn; intuition discriminate.
  - split; [reflexivity|]. intros [|[|[|k]]] H; cbn in H; try lia; cbn; unfold parab; cbn;
      auto_derive; auto; ring.
  - unfold fpartial. rewrite E. reflexivity.
Qed.

(** Finding: an index out of range is accepted by the constructor, which counts one parameter
    less; but no list of parameters can be expanded. *)
Theorem C19_out_of_range_refuted :
  let m := mkFixed 2 [(5%Z, FVal 1)] in
  fnpbase m = 1%nat /\ forall x param, expand m x param = None.
Proof.
  cbn zeta. split; [reflexivity|]. intros x param. unfold expand.
  assert (E : npassign (parlist (mkFixed 2 [(5%Z, FVal 1)])) param (repeat 0 (npb (mkFixed 2 [(5%Z, FVal 1)]))) = None).
  { cbn. unfold npassign. destruct param as [|a [|b [|c [|d l]]]]; reflexivity. }
  rewrite E. reflexivity.
Qed.
Print Assumptions C19_out_of_range_refuted.

(** Finding: one value for two free parameters is accepted and used for both. *)
Theorem C19_short_list_refuted :
  let m := mkFixed 3 [(0%Z, FVal 1)] in
  fnpbase m = 2%nat /\ forall x a, expand m x [a] = Some [1; a; a].
Proof. cbn zeta. split; [reflexivity|]. intros x a. reflexivity. Qed.
Print Assumptions C19_short_list_refuted.

(** ** C20: attributes of parameter k. *)
Section C20.
Context {P N : Type}.
Notation leaf := (leaf P N).
Notation atree := (atree P N).

Theorem C20_get_prior (c : list atree) k :
  getPrior c k = match nth_error (slots (leaves c)) k with Some (l, i) => basePrior l i | None => None end.
Proof. apply getPrior_slots. Qed.

Theorem C20_get_name (c : list atree) k :
  getName c k = match nth_error (slots (leaves c)) k with Some (l, i) => nth_error (l_names l) i | None => None end.
Proof. apply getName_slots. Qed.

Lemma slots_mid a (l : leaf) b i : (i < l_np l)%nat ->
  nth_error (slots (a ++ l :: b)) (length (slots a) + i) = Some (l, i).
Proof.
  intro H. rewrite slots_app. rewrite nth_error_app2 by lia.
  replace (length (slots a) + i - length (slots a))%nat with i by lia.
  unfold slots. cbn. rewrite nth_error_app1 by (rewrite lslots_length; exact H). apply lslots_nth. exact H.
Qed.

(** After setPrior( k, prior ): parameter k has that prior; all other parameters have the prior they
    had, except the parameters after k of the same base model which have no prior of their own
    and borrow the last one.  Names and number of parameters stay. *)
Theorem C20_set_prior dflt p (c c' : list atree) k : setPrior dflt (Some p) c k = Some c' ->
  getPrior c' k = Some p /\
  (forall j, getName c' j = getName c j) /\
  length (slots (leaves c')) = length (slots (leaves c)) /\
  forall j, j <> k ->
    (forall l i i', nth_error (slots (leaves c)) k = Some (l, i) ->
       nth_error (slots (leaves c)) j = Some (l, i') -> (k < j)%nat -> (i' - i = j - k)%nat ->
       (length (l_priors l) <= i')%nat -> (S i < length (l_priors l))%nat) ->
    getPrior c' j = getPrior c j.
Proof.
  intro E. destruct (setPrior_slots _ _ _ _ _ E) as [a [l [l' [b [i [A [B [C [D F]]]]]]]]].
  destruct (baseSet_spec _ _ _ _ _ F) as [F1 [F2 [F3 F4]]].
  assert (Ls : length (slots (leaves c')) = length (slots (leaves c))).
  { rewrite A, B, !slots_app, !app_length. f_equal. unfold slots. cbn. rewrite !app_length, !lslots_length, F1. reflexivity. }
  assert (SK : forall j, nth_error (slots (leaves c)) j = nth_error (slots (leaves c')) j \/
    exists i', j = (length (slots a) + i')%nat /\ (i' < l_np l)%nat /\ nth_error (slots (leaves c)) j = Some (l, i') /\
       nth_error (slots (leaves c')) j = Some (l', i')).
  { intro j. rewrite A, B.
    destruct (Nat.lt_ge_cases j (length (slots a))) as [J|J].
    - left. rewrite !slots_app, !nth_error_app1 by assumption. reflexivity.
    - destruct (Nat.lt_ge_cases (j - length (slots a)) (l_np l)) as [J2|J2].
      + right. exists (j - length (slots a))%nat. split; [lia|]. split; [exact J2|].
        assert (Ej : j = (length (slots a) + (j - length (slots a)))%nat) by lia.
        split; rewrite Ej at 1; apply slots_mid; lia.
      + left. rewrite !slots_app, !nth_error_app2 by assumption.
        change (slots (l :: b)) with (lslots l ++ slots b). change (slots (l' :: b)) with (lslots l' ++ slots b).
        rewrite !nth_error_app2 by (rewrite lslots_length; lia). rewrite !lslots_length, F1. reflexivity. }
  split; [|split; [|split; [exact Ls|]]].
  - rewrite C20_get_prior, B, C, slots_mid by lia. exact F3.
  - intro j. rewrite !C20_get_name. destruct (SK j) as [Q|[i' [_ [_ [Q1 Q2]]]]].
    + rewrite Q. reflexivity.
    + rewrite Q1, Q2, F2. reflexivity.
  - intros j Hj Hp. rewrite !C20_get_prior. destruct (SK j) as [Q|[i' [Ej [Li [Q1 Q2]]]]].
    + rewrite Q. reflexivity.
    + rewrite Q1, Q2. apply F4; [intro; subst; lia|].
      destruct (Nat.lt_ge_cases i' i) as [X|X]; [left; exact X|].
      destruct (Nat.lt_ge_cases i' (length (l_priors l))) as [Y|Y]; [right; right; exact Y|].
      right; left. apply (Hp l i i'); auto; try lia.
      rewrite A, C. apply slots_mid. lia.
Qed.

(** The generator used for a whole list of values takes the prior of each parameter in turn,
    when there are no brackets and all base models have parameters and priors. *)
Theorem C20_next_prior (ls : list leaf) n :
  Forall (fun l => l_priors l <> [] /\ (0 < l_np l)%nat) ls ->
  (n <= length (slots ls))%nat ->
  exists ps, nextPrior n (map ALeaf ls) 0 = Some ps /\ length ps = n /\
    forall k, (k < n)%nat -> nth_error ps k = getPrior (map ALeaf ls) k.
Proof.
  intros H Hn.
  assert (EL : leaves (map ALeaf ls) = ls).
  { unfold leaves. rewrite map_map. cbn. clear. induction ls as [|l ls IH]; cbn; [reflexivity|]. rewrite IH. reflexivity. }
  assert (GEN : forall n (ls : list leaf) k, Forall (fun l => l_priors l <> [] /\ (0 < l_np l)%nat) ls ->
    (n + k <= length (slots ls))%nat -> (k = 0%nat \/ exists l r, ls = l :: r /\ (k < l_np l)%nat) ->
    exists ps, nextPrior n (map ALeaf ls) k = Some ps /\ length ps = n /\
    forall j, (j < n)%nat -> nth_error ps j =
      match nth_error (slots ls) (k + j) with Some (l, i) => basePrior l i | None => None end).
  { clear. induction n as [|n IH]; intros ls k H Hn Hk.
    - exists []. cbn. repeat split; auto. intros; lia.
    - destruct ls as [|l r]; [cbn in Hn; lia|]. inversion H as [|? ? [H1 H2] H3]; subst.
      assert (Kl : (k < l_np l)%nat).
      { destruct Hk as [->|[l0 [r0 [E K]]]]; [exact H2|]. inversion E; subst. exact K. }
      assert (Bp : exists p, basePrior l k = Some p).
      { rewrite basePrior_nth by exact H1. destruct (nth_error (l_priors l) _) eqn:Q; [eauto|].
        apply nth_error_None in Q. destruct (l_priors l); [congruence|cbn in Q; lia]. }
      destruct Bp as [p Bp].
      assert (Sl : length (slots (l :: r)) = (l_np l + length (slots r))%nat).
      { unfold slots. cbn. rewrite app_length, lslots_length. reflexivity. }
      assert (N0 : nth_error (slots (l :: r)) k = Some (l, k)).
      { apply (slots_mid [] l r k Kl). }
      cbn [map nextPrior]. rewrite Bp.
      destruct (Nat.leb_spec (l_np l) (S k)) as [K|K].
      + assert (k = l_np l - 1)%nat by lia.
        destruct (IH r 0%nat) as [ps [A [B C]]]; [exact H3|lia|left; reflexivity|].
        exists (p :: ps). rewrite A. cbn [option_map length]. split; [reflexivity|]. split; [lia|].
        intros [|j] Hj; cbn [nth_error].
        * rewrite Nat.add_0_r, N0. symmetry. exact Bp.
        * rewrite C by lia. change (slots (l :: r)) with (lslots l ++ slots r). rewrite nth_error_app2 by (rewrite lslots_length; lia).
          rewrite lslots_length. replace (k + S j - l_np l)%nat with (0 + j)%nat by lia. reflexivity.
      + destruct (IH (l :: r) (S k)) as [ps [A [B C]]]; [exact H|lia|right; exists l, r; split; [reflexivity|lia]|].
        exists (p :: ps). cbn [map] in A. rewrite A. cbn [option_map length]. split; [reflexivity|]. split; [lia|].
        intros [|j] Hj; cbn [nth_error].
        * rewrite Nat.add_0_r, N0. symmetry. exact Bp.
        * rewrite C by lia. replace (k + S j)%nat with (S k + j)%nat by lia. reflexivity. }
  destruct (GEN n ls 0%nat H) as [ps [A [B C]]]; [lia|left; reflexivity|].
  exists ps. split; [exact A|]. split; [exact B|]. intros k Hk. rewrite C by exact Hk.
  rewrite C20_get_prior, EL. reflexivity.
Qed.

End C20.
Print Assumptions C20_get_prior.
Print Assumptions C20_get_name.
Print Assumptions C20_set_prior.
Print Assumptions C20_next_prior.

(** Priors are numbers here.  Base model of 2 parameters, (base model of 1 and one of 2). *)
Definition ex_c : list (atree nat nat) :=
  [ALeaf (@mkLeaf nat nat 2 [10; 11] [100; 101])%nat;
   ABr [ALeaf (@mkLeaf nat nat 1 [20] [200])%nat; ALeaf (@mkLeaf nat nat 2 [30] [300; 301])%nat]].

Example C20_ex :
  (map (getPrior ex_c) [0; 1; 2; 3; 4; 5] = [Some 10; Some 11; Some 20; Some 30; Some 30; None] /\
  getName ex_c 4 = Some 301 /\
  exists c', setPrior 0 (Some 99) ex_c 4 = Some c' /\
    map (getPrior c') [0; 1; 2; 3; 4; 5] = [Some 10; Some 11; Some 20; Some 30; Some 99; None])%nat.
Proof. split; [reflexivity|]. split; [reflexivity|]. eexists. split; reflexivity. Qed.

Example C20_next_ex :
  nextPrior 4 (map ALeaf [@mkLeaf nat nat 2 [10; 11] []; @mkLeaf nat nat 2 [30] []])%nat 0 = Some [10; 11; 30; 30]%nat.
Proof. reflexivity. Qed.

(** Finding: setPrior on one parameter changes the prior of another one. *)
Theorem C20_set_prior_spills_refuted : exists (c c' : list (atree nat nat)) k j p,
  setPrior 0%nat (Some p) c k = Some c' /\ j <> k /\ getPrior c' j <> getPrior c j.
Proof.
  exists [ALeaf (@mkLeaf nat nat 3 [1] [])%nat], [ALeaf (@mkLeaf nat nat 3 [1; 2] [])%nat], 1%nat, 2%nat, 2%nat.
  repeat split; discriminate.
Qed.
Print Assumptions C20_set_prior_spills_refuted.

(** Finding: the conversion of a whole list of values raises an exception when the chain has
    brackets, although every parameter has a prior. *)
Theorem C20_next_prior_brackets_refuted : exists (c : list (atree nat nat)) n,
  (forall k, (k < n)%nat -> getPrior c k <> None) /\ nextPrior n c 0 = None.
Proof.
  exists ex_c, 5%nat. split; [|reflexivity].
  intros [|[|[|[|[|k]]]]] H; try discriminate. lia.
Qed.
Print Assumptions C20_next_prior_brackets_refuted.

(** Finding: hasPriors says yes although the second model has none ... *)
Theorem C20_has_priors_refuted : exists (c : list (atree nat nat)) k,
  hasPriors (fun _ => true) true c = true /\ (k < list_sum (map anp c))%nat /\ getPrior c k = None.
Proof.
  exists [ALeaf (@mkLeaf nat nat 1 [1] [])%nat; ALeaf (@mkLeaf nat nat 1 [] [])%nat], 1%nat.
  repeat split. cbn. lia.
Qed.
Print Assumptions C20_has_priors_refuted.

(** Finding: setLimits with only low limits, or only high limits, raises an exception. *)
Theorem C20_set_limits_one_side_refuted : forall V (l : list V), l <> [] ->
  setLimits (Some l) None = None /\ setLimits None (Some l) = None.
Proof. intros V [|v l] H; [congruence|]. split; reflexivity. Qed.
Print Assumptions C20_set_limits_one_side_refuted.

Theorem C20_set_limits {V} (l h : list V) : exists r, setLimits (Some l) (Some h) = Some r /\
  forall k lo hi, In (k, lo, hi) r <->
    (k < max (length l) (length h))%nat /\ lo = nth_error l k /\ hi = nth_error h k.
Proof.
  eexists. split; [reflexivity|]. intros k lo hi. rewrite in_map_iff. split.
  - intros [j [E I]]. inversion E; subst. apply in_seq in I. split; [lia|auto].
  - intros [H [-> ->]]. exists k. split; [reflexivity|]. apply in_seq. lia.
Qed.
Print Assumptions C20_set_limits.
