(** C107: running a NestedSampler, and running it again. *)
From Coq Require Import List Arith Reals Lia Lra Bool.
From Verif Require Import M_Order M_Nested P_Nested P_Samples T_Nested M_Again.
Import ListNotations.
Local Open Scope R_scope.

(** ** A run that starts with samples of before *)
Definition renum (c : nat) (x : nsample) : nsample := mkNS (c + ns_id x) (ns_parent x) (ns_logL x) (ns_logW x) (ns_par x).
Definition after (s0 : slist) (s : slist) : slist := mkSL (sl_count s0 + sl_count s) (sl_items s0 ++ map (renum (sl_count s0)) (sl_items s)).
Definition onto (s0 : slist) (s : nstate) : nstate :=
  mkST (st_walkers s) (after s0 (st_samples s)) (st_logZ s) (st_info s) (st_logWidth s) (st_low s) (st_iter s) (st_logdZ s).
Lemma update_one_onto : forall s0 st k, update_one (option_map (onto s0) st) k = option_map (onto s0) (update_one st k).
Proof.
  intros s0 [s|] k; [|reflexivity]. cbn. destruct (nth_error (st_walkers s) k) as [w|]; [|reflexivity]. cbn. f_equal. unfold onto. cbn. f_equal.
  unfold after, sl_add. cbn. f_equal; [lia|]. rewrite map_app, <- app_assoc. reflexivity.
Qed.
Lemma updateEvidence_onto : forall s0 n st, updateEvidence n (option_map (onto s0) st) = option_map (onto s0) (updateEvidence n st).
Proof.
  intros s0 n. unfold updateEvidence. generalize (seq 0 n). induction l as [|k l IH]; intros st; [reflexivity|]. cbn [fold_left]. now rewrite update_one_onto, IH.
Qed.
Lemma iteration_onto : forall s0 worst o s, ns_iteration worst None o (onto s0 s) = option_map (onto s0) (ns_iteration worst None o s).
Proof.
  intros s0 worst o s. unfold ns_iteration. cbn [onto st_walkers st_samples st_logZ st_info st_logWidth st_iter st_logdZ].
  destruct (nth_error (nsort (st_walkers s)) (worst - 1)) as [wl|]; [|reflexivity].
  set (s1 := mkST (nsort (st_walkers s)) (st_samples s) (st_logZ s) (st_info s) (st_logWidth s) (nw_logL wl) (st_iter s) (st_logdZ s)).
  change (Some (mkST (nsort (st_walkers s)) (after s0 (st_samples s)) (st_logZ s) (st_info s) (st_logWidth s) (nw_logL wl) (st_iter s) (st_logdZ s)))
    with (option_map (onto s0) (Some s1)).
  rewrite updateEvidence_onto. destruct (updateEvidence worst (Some s1)) as [s2|]; [|reflexivity]. cbn [option_map].
  destruct (valid_kcp _ _ _); [|reflexivity]. cbn [onto st_walkers]. destruct (copy_worst _ _ _); [|reflexivity]. destruct (explore _ _ _ _); reflexivity.
Qed.
Lemma loop_onto : forall s0 mi ma tol en worst os s,
  ns_loop mi ma tol en worst None os (onto s0 s) = option_map (fun r => (onto s0 (fst r), snd r)) (ns_loop mi ma tol en worst None os s).
Proof.
  intros s0 mi ma tol en worst os. induction os as [|o os IH]; intros s; cbn [ns_loop].
  - change (nextIteration mi ma tol en worst (onto s0 s)) with (nextIteration mi ma tol en worst s). destruct (nextIteration _ _ _ _ _ s); reflexivity.
  - change (nextIteration mi ma tol en worst (onto s0 s)) with (nextIteration mi ma tol en worst s). destruct (nextIteration _ _ _ _ _ s); [|reflexivity].
    rewrite iteration_onto. destruct (ns_iteration worst None o s) as [s'|]; [|reflexivity]. cbn [option_map]. apply IH.
Qed.
Lemma loop_run : forall mi ma tol en worst mx os s s' b, ns_loop mi ma tol en worst mx os s = Some (s', b) -> exists os', ns_run worst mx os' s = Some s'.
Proof.
  intros mi ma tol en worst mx os. induction os as [|o os IH]; intros s s' b H; cbn [ns_loop] in H.
  - destruct (nextIteration _ _ _ _ _ s); injection H as <- _; exists []; reflexivity.
  - destruct (nextIteration _ _ _ _ _ s); [|injection H as <- _; exists []; reflexivity].
    destruct (ns_iteration worst mx o s) as [s1|] eqn:E; [|discriminate]. destruct (IH _ _ _ H) as (os' & R). exists (o :: os'). unfold ns_run in *. cbn [fold_left ns_step]. now rewrite E.
Qed.
Lemma restart_onto : forall sam ws low, restart false sam ws low = onto (sam_samples sam) (ns_start ws low).
Proof.
  intros sam ws low. unfold restart, onto, ns_start. cbn. f_equal. unfold after. cbn. rewrite app_nil_r, Nat.add_0_r. now destruct (sam_samples sam).
Qed.
Lemma totW_renum : forall c l, totW (map (renum c) l) = totW l.
Proof. intros c l. unfold totW. rewrite map_map. reflexivity. Qed.

(** ** The first run *)
(** What is returned, exp( logZ ), is the sum of the weights before normalization; after it each sample has its share of it *)
Theorem C107_first : forall linear mi ma tol en worst ws low os z sam, (1 <= worst)%nat -> ws <> [] ->
  sample linear mi ma tol en worst None ws low os newSampler = Some (z, sam) ->
  exists logZ raw, z = Some logZ /\ exp logZ = sumL (map exp raw)
    /\ map (fun x => exp (ns_logW x)) (sl_items (sam_samples sam)) = map (fun w => exp w / exp logZ) raw
    /\ sumL (map (fun x => exp (ns_logW x)) (sl_items (sam_samples sam))) = 1.
Proof.
  intros linear mi ma tol en worst ws low os z sam Hw Hn H. unfold sample in H.
  replace (restart linear newSampler ws low) with (ns_start ws low) in H by (destruct linear; reflexivity).
  destruct (ns_loop _ _ _ _ _ _ _ _) as [[s [|]]|] eqn:L; try discriminate. destruct (ns_collect s) as [s'|] eqn:C; [|discriminate]. injection H as <- <-.
  destruct (loop_run _ _ _ _ _ _ _ _ _ _ L) as (os' & R). destruct (C08_evidence_is_sum_of_weights worst os' ws low s s' Hw Hn R C) as (logZ & E & S).
  exists logZ, (map ns_logW (sl_items (st_samples s'))). split; [exact E|]. rewrite map_map. split; [exact S|].
  assert (N : sl_items (st_samples s') <> []). { intros X. rewrite X in S. cbn in S. pose proof (exp_pos logZ). lra. }
  split; [|apply (C08_normalised_weights _ N)]. cbn [sam_samples].
  destruct (sl_normalize_spec _ N) as (c & Z & I). rewrite I. rewrite !map_map. cbn. apply map_ext. intros x. unfold totW in Z. rewrite <- S in Z.
  unfold Rminus; rewrite exp_plus, exp_Ropp, Z. reflexivity.
Qed.
(** The list of samples has an attribute logZ, the natural log of the evidence, and an attribute evidence.  After a run both are still 0. *)
Theorem C107_list_evidence_refuted : forall linear mi ma tol en worst mx ws low os z sam,
  sample linear mi ma tol en worst mx ws low os newSampler = Some (z, sam) -> sam_logZ sam = 0 /\ listEvidence sam = 0.
Proof.
  intros linear mi ma tol en worst mx ws low os z sam H. assert (E : sam_logZ sam = 0).
  { unfold sample in H. destruct (ns_loop _ _ _ _ _ _ _ _) as [[s [|]]|]; try discriminate. destruct (ns_collect s); [|discriminate]. injection H as _ <-. reflexivity. }
  split; [exact E|]. unfold listEvidence. rewrite E. unfold Rdiv. ring.
Qed.

(** ** The second run, of a model that is not linear *)
(** The evidence and the number of iterations are those of a new sampler with the same walkers and random choices *)
Theorem C107_again : forall mi ma tol en worst ws low os sam,
  match sample false mi ma tol en worst None ws low os newSampler, sample false mi ma tol en worst None ws low os sam with
  | Some (z1, s1), Some (z2, s2) => z1 = z2 /\ sam_iter s1 = sam_iter s2
      /\ map ns_par (sl_items (sam_samples s2)) = map ns_par (sl_items (sam_samples sam)) ++ map ns_par (sl_items (sam_samples s1))
  | None, None => True
  | _, _ => False
  end.
Proof.
  intros mi ma tol en worst ws low os sam. unfold sample. change (restart false newSampler ws low) with (ns_start ws low). rewrite restart_onto, loop_onto.
  destruct (ns_loop mi ma tol en worst None os (ns_start ws low)) as [[s [|]]|]; cbn [option_map fst snd]; [|exact Logic.I|exact Logic.I].
  unfold ns_collect. change (Some (onto (sam_samples sam) s)) with (option_map (onto (sam_samples sam)) (Some s)). rewrite updateEvidence_onto. cbn [onto st_walkers].
  destruct (updateEvidence (length (st_walkers s)) (Some s)) as [s'|]; cbn [option_map]; [|exact Logic.I]. split; [reflexivity|]. split; [reflexivity|].
  cbn. rewrite map_map. cbn. rewrite map_app, !map_map. reflexivity.
Qed.
(** but the samples of the first run stay in the list: with their weights, that sum to 1, they are normalized together with those of the second
    run, that sum to the evidence Z.  So the first run counts for 1/(1+Z) of all and the second for Z/(1+Z): next to nothing for a small Z. *)
Theorem C107_again_refuted : forall mi ma tol en worst ws low os sam z sam', (1 <= worst)%nat -> ws <> [] ->
  sumL (map (fun x => exp (ns_logW x)) (sl_items (sam_samples sam))) = 1 ->
  sample false mi ma tol en worst None ws low os sam = Some (z, sam') ->
  exists logZ, z = Some logZ /\ let n := length (sl_items (sam_samples sam)) in let w := map (fun x => exp (ns_logW x)) (sl_items (sam_samples sam')) in
    sumL (firstn n w) = 1 / (1 + exp logZ) /\ sumL (skipn n w) = exp logZ / (1 + exp logZ).
Proof.
  intros mi ma tol en worst ws low os sam z sam' Hw Hn S1 H. unfold sample in H. rewrite restart_onto, loop_onto in H.
  destruct (ns_loop mi ma tol en worst None os (ns_start ws low)) as [[s [|]]|] eqn:L; cbn [option_map fst snd] in H; try discriminate.
  unfold ns_collect in H. change (Some (onto (sam_samples sam) s)) with (option_map (onto (sam_samples sam)) (Some s)) in H. rewrite updateEvidence_onto in H. cbn [onto st_walkers] in H.
  destruct (updateEvidence (length (st_walkers s)) (Some s)) as [s'|] eqn:C; cbn [option_map] in H; [|discriminate]. injection H as <- <-.
  destruct (loop_run _ _ _ _ _ _ _ _ _ _ L) as (os' & R). destruct (C08_evidence_is_sum_of_weights worst os' ws low s s' Hw Hn R C) as (logZ & E & S).
  exists logZ. split; [exact E|]. cbv zeta. cbn [onto st_samples sam_samples].
  set (old := sl_items (sam_samples sam)) in *. set (new := map (renum (sl_count (sam_samples sam))) (sl_items (st_samples s'))).
  assert (I : sl_items (after (sam_samples sam) (st_samples s')) = old ++ new) by reflexivity.
  assert (N : sl_items (after (sam_samples sam) (st_samples s')) <> []). { rewrite I. destruct old; [cbn in S1; lra|discriminate]. }
  assert (Tn : totW new = exp logZ) by (unfold new; rewrite totW_renum; symmetry; exact S).
  assert (To : totW old = 1) by exact S1.
  destruct (sl_normalize_spec _ N) as (c & Z & Q). rewrite Q, I. rewrite I in Z. unfold totW in Z. rewrite map_app, sumL_app in Z. fold (totW old) (totW new) in Z. rewrite To, Tn in Z.
  rewrite map_map. cbn [ns_logW]. rewrite map_app.
  assert (D : forall l, sumL (map (fun x => exp (ns_logW x - c)) l) = totW l / (1 + exp logZ)).
  { rewrite <- Z. unfold totW. induction l as [|x l IH]; cbn; [unfold Rdiv; ring|]. rewrite IH; unfold Rminus; rewrite exp_plus, exp_Ropp. unfold Rdiv. ring. }
  assert (Ln : length (map (fun x => exp (ns_logW x - c)) old) = length old) by apply map_length.
  rewrite <- Ln. rewrite firstn_app, skipn_app, Nat.sub_diag, firstn_all, skipn_all. cbn [firstn skipn]. rewrite app_nil_r. cbn [app]. rewrite !D, To, Tn. split; reflexivity.
Qed.

(** ** The second run, of a linear model *)
(** The number of the iteration is not set back.  When it is past the minimum, and the tolerance is not above 0, the second run stops before its
    first iteration: only the first walkers are in the evidence *)
Theorem C107_linear_refuted : forall mi ma tol en worst mx ws low os sam, ws <> [] -> tol <= 0 -> (0 < sam_iter sam)%nat -> (mi <= sam_iter sam)%nat ->
  exists z sam', sample true mi ma tol en worst mx ws low os sam = Some (z, sam') /\ sam_iter sam' = sam_iter sam
    /\ length (sl_items (sam_samples sam')) = (length (sl_items (sam_samples sam)) + length ws)%nat.
Proof.
  intros mi ma tol en worst mx ws low os sam Hn Ht Hi Hm. unfold sample. set (s := restart true sam ws low).
  assert (X : nextIteration mi ma tol en worst s = false).
  { unfold nextIteration, s. cbn [restart st_iter st_logdZ st_info]. destruct (Nat.ltb_spec (sam_iter sam) mi); [lia|]. destruct (Rlt_dec 0 tol); [lra|].
    destruct (match ma with Some m => (m <? sam_iter sam)%nat | None => false end); [reflexivity|]. destruct (Rgt_dec _ _) as [|G]; [reflexivity|]. exfalso. apply G.
    unfold Rdiv. rewrite Rmult_0_r, Rmult_0_l. apply lt_0_INR. exact Hi. }
  assert (L : ns_loop mi ma tol en worst mx os s = Some (s, true)) by (destruct os; cbn [ns_loop]; now rewrite X).
  rewrite L. unfold ns_collect. destruct (updateEvidence_spec (length (st_walkers s)) s (le_n _)) as (s1 & new & E1 & W & Lo & It & Cn & Sm & Nl & _). rewrite E1.
  eexists _, _. split; [reflexivity|]. cbn [sam_iter sam_samples]. split; [rewrite It; reflexivity|]. cbn. rewrite map_length, Sm, app_length. f_equal.
  apply (f_equal (@length _)) in Nl. rewrite !map_length, firstn_all in Nl. exact Nl.
Qed.

(** A run of one walker that stops at once: the log of the evidence is ln( 1 - 1/e ) + 5, and then a second one *)
Example C107_ex : exists sam, sample false 0 None 1 2 1 None [mkNW 0 5 0 [7]] 0 [] newSampler = Some (Some (ln (1 - exp (- 1 / 1)) + 5 + 0), sam)
  /\ sumL (map (fun x => exp (ns_logW x)) (sl_items (sam_samples sam))) = 1
  /\ exists z sam', sample false 0 None 1 2 1 None [mkNW 0 5 0 [8]] 0 [] sam = Some (z, sam') /\ map ns_par (sl_items (sam_samples sam')) = [[7]; [8]].
Proof.
  assert (A : exists sam, sample false 0 None 1 2 1 None [mkNW 0 5 0 [7]] 0 [] newSampler = Some (Some (ln (1 - exp (- 1 / 1)) + 5 + 0), sam)).
  { unfold sample, ns_loop, nextIteration. cbn -[Rlt_dec sl_normalize]. destruct (Rlt_dec 0 1); [|lra]. cbn -[sl_normalize]. eexists. reflexivity. }
  destruct A as (sam & A). exists sam. split; [exact A|]. assert (Hn : [mkNW 0 5 0 [7]] <> []) by discriminate. destruct (C107_first _ _ _ _ _ _ _ _ _ _ _ (le_n 1) Hn A) as (z & raw & _ & _ & _ & S). split; [exact S|].
  assert (P : map ns_par (sl_items (sam_samples sam)) = [[7]]).
  { apply (f_equal (fun o : option (option R * sampler) => match o with Some (_, s) => map ns_par (sl_items (sam_samples s)) | None => [] end)) in A. rewrite <- A.
    unfold sample, ns_loop, nextIteration. cbn -[Rlt_dec]. destruct (Rlt_dec 0 1); [|lra]. reflexivity. }
  pose proof (C107_again 0 None 1 2 1 [mkNW 0 5 0 [8]] 0 [] sam) as G.
  assert (B : exists z1 s1, sample false 0 None 1 2 1 None [mkNW 0 5 0 [8]] 0 [] newSampler = Some (z1, s1) /\ map ns_par (sl_items (sam_samples s1)) = [[8]]).
  { unfold sample, ns_loop, nextIteration. cbn -[Rlt_dec]. destruct (Rlt_dec 0 1); [|lra]. cbn. eexists _, _. split; reflexivity. }
  destruct B as (z1 & s1 & B & Q). rewrite B in G. destruct (sample false 0 None 1 2 1 None [mkNW 0 5 0 [8]] 0 [] sam) as [[z2 s2]|]; [|contradiction].
  destruct G as (_ & _ & G). exists z2, s2. split; [reflexivity|]. rewrite G, P, Q. reflexivity.
Qed.

Print Assumptions C107_first.
Print Assumptions C107_list_evidence_refuted.
Print Assumptions C107_again.
Print Assumptions C107_again_refuted.
Print Assumptions C107_linear_refuted.

(** What the list of samples gives as evidence is that of its sampler in powers of ten. *)
Theorem C107_list_base : forall sam, Rpower 10 (listEvidence sam) = exp (sam_logZ sam).
Proof.
  intro sam. unfold Rpower, listEvidence. f_equal. field.
  apply Rgt_not_eq. rewrite <- ln_1. apply ln_increasing; lra.
Qed.
Print Assumptions C107_list_base.
Example C107_list_base_example : Rpower 10 (listEvidence (mkSam sl_empty (ln 5) 0)) = 5.
Proof. rewrite C107_list_base. cbn [sam_logZ]. apply exp_ln. lra. Qed.
