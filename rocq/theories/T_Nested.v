(** Property theorems C07 - C12 (nested sampling and its sample list), C47, C48. *)
From Coq Require Import List Arith Reals Lia Lra Sorted Permutation.
From Verif Require Import M_Order M_Nested P_Nested P_Samples.
Import ListNotations.
Local Open Scope R_scope.

(** A start of the loop: no samples yet, all walkers obey the start limit, logPrior is 0
    (Walker.py:106; nothing else sets it). *)
Definition good_start (ws : list nwalker) (low : R) : Prop :=
  Forall (fun w => low <= nw_logL w /\ nw_logPrior w = 0) ws.

Lemma good_start_inv ws low : good_start ws low -> climb_inv (ns_start ws low).
Proof.
  intros H. unfold good_start in H. repeat split; try constructor; cbn.
  - eapply Forall_impl; [|exact H]. simpl. tauto.
  - eapply Forall_impl; [|exact H]. simpl. tauto.
Qed.

(** C07: after any number of iterations, with any random choices: the ensemble has kept its
    size, every walker obeys the present limit, the samples collected have
    never-decreasing logL, and none of them is above the limit. *)
Theorem C07_climbs :
  forall (worst : nat) (maxsize : option nat) (os : list oracle) ws low s,
    (1 <= worst)%nat -> good_start ws low ->
    ns_run worst maxsize os (ns_start ws low) = Some s ->
    length (st_walkers s) = length ws /\
    st_iter s = length os /\
    (forall w, In w (st_walkers s) -> st_low s <= nw_logL w) /\
    StronglySorted Rle (map ns_logL (sl_items (st_samples s))) /\
    (forall x, In x (sl_items (st_samples s)) -> ns_logL x <= st_low s).
Proof.
  intros worst mx os ws low s Hw G E.
  destruct (climb_run _ _ _ _ _ Hw (good_start_inv _ _ G) E) as ((A & B & C & D) & L & _ & It).
  rewrite Forall_forall in A, D. repeat split; auto.
Qed.
Print Assumptions C07_climbs.

(** C07: the limit never goes down. *)
Theorem C07_limit_never_decreases :
  forall worst maxsize os1 os2 ws low s1 s2,
    (1 <= worst)%nat -> good_start ws low ->
    ns_run worst maxsize os1 (ns_start ws low) = Some s1 ->
    ns_run worst maxsize os2 s1 = Some s2 -> low <= st_low s1 <= st_low s2.
Proof.
  intros worst mx os1 os2 ws low s1 s2 Hw G E1 E2.
  destruct (climb_run _ _ _ _ _ Hw (good_start_inv _ _ G) E1) as (I & _ & L1 & _).
  destruct (climb_run _ _ _ _ _ Hw I E2) as (_ & _ & L2 & _). split; [exact L1|exact L2].
Qed.
Print Assumptions C07_limit_never_decreases.

(** C07: the walkers added at the end all lie at or above the samples collected before. *)
Theorem C07_final_ensemble_on_top :
  forall worst maxsize os ws low s s',
    (1 <= worst)%nat -> good_start ws low ->
    ns_run worst maxsize os (ns_start ws low) = Some s -> ns_collect s = Some s' ->
    exists last, sl_items (st_samples s') = sl_items (st_samples s) ++ last /\
      Permutation (map ns_logL last) (map nw_logL (st_walkers s)) /\
      (forall a b, In a (sl_items (st_samples s)) -> In b last -> ns_logL a <= ns_logL b).
Proof.
  intros worst mx os ws low s s' Hw G E E'. apply climb_collect; auto.
  apply (climb_run _ _ _ _ _ Hw (good_start_inv _ _ G) E).
Qed.
Print Assumptions C07_final_ensemble_on_top.

(** C07: survivors are left alone, and the walkers keep their set of identities. *)
Theorem C07_survivors_untouched :
  forall worst maxsize o s s',
    (1 <= worst)%nat -> ns_iteration worst maxsize o s = Some s' ->
    (forall j, (worst <= j)%nat -> nth_error (st_walkers s') j = nth_error (nsort (st_walkers s)) j) /\
    Permutation (map nw_id (st_walkers s)) (map nw_id (st_walkers s')).
Proof.
  intros worst mx o s s' Hw E. apply iteration_spec in E; auto.
  destruct E as (wl & new & sm & Kw & Lt & Lo & It & Ln & Pid & Fw & P0 & Hi & _). auto.
Qed.
Print Assumptions C07_survivors_untouched.

Definition ex_ws : list nwalker := [mkNW 0 2 0 [7]; mkNW 1 1 0 [8]].
Definition ex_o : oracle := mkO (fun _ => 1%nat) (fun _ => [(0, [1]); (3, [9])]).

Example nested_hypotheses_met :
  good_start ex_ws 0 /\
  exists s, ns_run 1 None [ex_o] (ns_start ex_ws 0) = Some s /\
            map nw_logL (st_walkers s) = [3; 2] /\ st_low s = 1 /\
            map ns_logL (sl_items (st_samples s)) = [1 + 0].
Proof.
  split.
  - repeat constructor; simpl; lra.
  - assert (S : nsort ex_ws = [mkNW 1 1 0 [8]; mkNW 0 2 0 [7]]).
    { unfold ex_ws. cbn. destruct (Rle_dec 2 1); [lra|reflexivity]. }
    unfold ns_run. cbn [fold_left ns_step]. unfold ns_iteration. cbn [ns_start st_walkers].
    rewrite S. cbn. destruct (Rlt_dec 3 1); [lra|]. cbn.
    eexists. repeat split.
Qed.

(** C08: exp( logZ ) is the sum of the weights of all samples collected (no weeding). *)
Theorem C08_evidence_is_sum_of_weights :
  forall (worst : nat) (os : list oracle) ws low s s',
    (1 <= worst)%nat -> ws <> [] ->
    ns_run worst None os (ns_start ws low) = Some s -> ns_collect s = Some s' ->
    exists logZ, st_logZ s' = Some logZ /\
      exp logZ = sumL (map (fun x => exp (ns_logW x)) (sl_items (st_samples s'))).
Proof.
  intros worst os ws low s s' Hw Hn E E'.
  assert (I : zexp (st_logZ s) = totW (sl_items (st_samples s))).
  { eapply evidence_run; [exact Hw| |exact E]. reflexivity. }
  pose proof (evidence_collect _ _ I E') as I'.
  assert (L : length (st_walkers s) = length ws).
  { assert (HN : (1 <= length ws)%nat) by (destruct ws; [congruence|simpl; lia]).
    apply (mass_run worst os (ns_start ws low) s Hw HN E). }
  destruct (st_logZ s') as [z|] eqn:Ez; [exists z; split; [reflexivity|exact I']|].
  exfalso. unfold ns_collect in E'.
  destruct (updateEvidence_spec (length (st_walkers s)) s (le_n _))
    as (s1 & new & E1 & W & Lo & It & Cn & Sm & Nl & Ni & Np & Nw & Wd & Z & Zs & Inf).
  rewrite E1 in E'. injection E' as <-. apply Zs; auto. rewrite L. destruct ws; [congruence|simpl; lia].
Qed.
Print Assumptions C08_evidence_is_sum_of_weights.

(** C08: the same holds after every iteration. *)
Theorem C08_evidence_during_the_run :
  forall worst os o ws low s,
    (1 <= worst)%nat ->
    ns_run worst None (os ++ [o]) (ns_start ws low) = Some s ->
    exists logZ, st_logZ s = Some logZ /\
      exp logZ = sumL (map (fun x => exp (ns_logW x)) (sl_items (st_samples s))).
Proof.
  intros worst os o ws low s Hw E.
  assert (I : zexp (st_logZ s) = totW (sl_items (st_samples s))).
  { eapply evidence_run; [exact Hw| |exact E]. reflexivity. }
  apply ns_run_app in E. destruct E as (s1 & _ & E). apply ns_run_cons in E.
  destruct E as (s2 & E & E2). injection E2 as <-. apply iteration_spec in E; auto.
  destruct E as (wl & new & sm & Kw & Lt & Lo & It & Ln & Pid & Fw & P0 & Hi & Cn & Sm & Wd
                 & Nl & Ni & Nw & Wdt & Z & Zn & _).
  destruct (st_logZ s2) as [z|]; [exists z; split; [reflexivity|exact I]|congruence].
Qed.
Print Assumptions C08_evidence_during_the_run.

(** C08: every sample weighs its width times its likelihood. *)
Theorem C08_weight_is_width_times_likelihood :
  forall worst o s s', (1 <= worst)%nat -> prior0 (st_walkers s) ->
    ns_iteration worst None o s = Some s' ->
    exists new, sl_items (st_samples s') = sl_items (st_samples s) ++ new /\
      map ns_logL new = map nw_logL (firstn worst (nsort (st_walkers s))) /\
      forall k x, nth_error new k = Some x ->
        ns_logW x = ns_logL x + (st_logWidth s - hsum (length (st_walkers s)) k).
Proof.
  intros worst o s s' Hw P E. apply iteration_spec in E; auto.
  destruct E as (wl & new & sm & Kw & Lt & Lo & It & Ln & Pid & Fw & P0 & Hi & Cn & Sm & Wd
                 & Nl & Ni & Nw & _).
  exists new. simpl in Wd. rewrite Wd. split; [exact Sm|]. split.
  - rewrite Nl. apply eff_prior0. apply Forall_firstn. eapply Permutation_Forall; [apply nsort_perm|exact P].
  - intros k x Hx. apply (map_nth_error (fun x => ns_logW x - ns_logL x)) in Hx. rewrite Nw in Hx.
    unfold widths in Hx. rewrite nth_error_map in Hx.
    destruct (nth_error (seq 0 worst) k) as [j|] eqn:Ej; [|discriminate].
    assert (j = k) as ->.
    { assert (k < worst)%nat. { rewrite <- (seq_length worst 0). apply nth_error_Some. congruence. }
      rewrite (nth_error_nth' _ 0%nat) in Ej by (rewrite seq_length; lia). injection Ej as <-.
      rewrite seq_nth; lia. }
    simpl in Hx. injection Hx as Hx. lra.
Qed.
Print Assumptions C08_weight_is_width_times_likelihood.

(** C08: the weights of a normalised list sum to one, and keep their ratios. *)
Theorem C08_normalised_weights :
  forall s : slist, sl_items s <> [] ->
    let l := sl_items s in let l' := sl_items (sl_normalize s) in
    sumL (map (fun x => exp (ns_logW x)) l') = 1 /\
    (forall w, In w (map (fun x => exp (ns_logW x)) l') -> 0 < w) /\
    map ns_logL l' = map ns_logL l /\ map ns_par l' = map ns_par l /\
    exists c, map ns_logW l = map (fun w => w + c) (map ns_logW l').
Proof.
  intros s H l l'. split; [apply sl_normalize_one; auto|]. split.
  { intros w Hw. apply in_map_iff in Hw. destruct Hw as (x & <- & _). apply exp_pos. }
  destruct (sl_normalize_spec s H) as (z & Z & E). unfold l', l. rewrite E, !map_map.
  split; [reflexivity|]. split; [reflexivity|]. exists z. rewrite map_map. apply map_ext. intros x. simpl. lra.
Qed.
Print Assumptions C08_normalised_weights.

(** C08: at the end of a run without weeding a sample's weight is its share of the evidence. *)
Theorem C08_final_weights_are_shares :
  forall worst os ws low s s' logZ sl,
    (1 <= worst)%nat -> ws <> [] ->
    ns_run worst None os (ns_start ws low) = Some s -> ns_collect s = Some s' ->
    ns_finish s = Some (Some logZ, sl) ->
    map (fun x => exp (ns_logW x)) (sl_items sl)
    = map (fun x => exp (ns_logW x) / exp logZ) (sl_items (st_samples s')).
Proof.
  intros worst os ws low s s' logZ sl Hw Hn E E' F.
  destruct (C08_evidence_is_sum_of_weights _ _ _ _ _ _ Hw Hn E E') as (z & Ez & Sz).
  unfold ns_finish in F. rewrite E' in F. injection F as F1 F2. rewrite Ez in F1. injection F1 as ->.
  assert (Ne : sl_items (st_samples s') <> []).
  { intros N. rewrite N in Sz. simpl in Sz. pose proof (exp_pos logZ). lra. }
  destruct (sl_normalize_spec _ Ne) as (y & Y & Eq). rewrite <- F2, Eq, map_map. apply map_ext.
  intros x. cbn. unfold Rminus. rewrite exp_plus, exp_Ropp, Y. unfold totW. rewrite <- Sz. reflexivity.
Qed.
Print Assumptions C08_final_weights_are_shares.

(** C08: weeding has no effect on the evidence, the information or the walkers. *)
Theorem C08_weeding_keeps_evidence :
  forall worst m1 m2 os s,
    same_opt (ns_run worst m1 os s) (ns_run worst m2 os s).
Proof. intros. apply run_same. repeat split. Qed.
Print Assumptions C08_weeding_keeps_evidence.

(** C09: the prior widths exp( logW - logL ) of all samples sum to at most one; with one
    discard per iteration they sum to exactly 1 - exp( -k/N ) after k iterations. *)
Theorem C09_mass_at_most_one :
  forall worst os ws low s s',
    (1 <= worst)%nat -> ws <> [] ->
    ns_run worst None os (ns_start ws low) = Some s -> ns_collect s = Some s' ->
    sumL (map (fun x => exp (ns_logW x - ns_logL x)) (sl_items (st_samples s'))) <= 1.
Proof.
  intros worst os ws low s s' Hw Hn E E'.
  assert (HN : (1 <= length ws)%nat) by (destruct ws; [congruence|simpl; lia]).
  destruct (ns_start_mass ws low HN) as [M0 Z0].
  destruct (mass_run worst os (ns_start ws low) s Hw HN E) as (L & M & A & _).
  destruct (final_mass s s') as [F _]; auto. { rewrite L. exact HN. }
  fold (mass (sl_items (st_samples s'))). lra.
Qed.
Print Assumptions C09_mass_at_most_one.

Theorem C09_mass_exact :
  forall os ws low s, ws <> [] ->
    ns_run 1 None os (ns_start ws low) = Some s ->
    sumL (map (fun x => exp (ns_logW x - ns_logL x)) (sl_items (st_samples s)))
    = 1 - exp (- (INR (length os) / INR (length ws))).
Proof.
  intros os ws low s Hn E.
  assert (HN : (1 <= length ws)%nat) by (destruct ws; [congruence|simpl; lia]).
  destruct (ns_start_mass ws low HN) as [M0 Z0].
  destruct (mass_run 1 os (ns_start ws low) s (le_n _) HN E) as (L & M & _ & B).
  fold (mass (sl_items (st_samples s))). rewrite (B eq_refl), M, M0, Z0.
  cbn [hsum ns_start st_walkers INR]. rewrite Rminus_0_r.
  replace (INR (length os) * (0 + 1 / INR (length ws))) with (INR (length os) / INR (length ws)); [ring|].
  unfold Rdiv. ring.
Qed.
Print Assumptions C09_mass_exact.

(** C09: the widths decrease geometrically. *)
Theorem C09_geometric_widths :
  forall os ws low s, ws <> [] ->
    ns_run 1 None os (ns_start ws low) = Some s ->
    map (fun x => exp (ns_logW x - ns_logL x)) (sl_items (st_samples s))
    = map (fun k => (1 - exp (- 1 / INR (length ws))) * exp (- (INR k / INR (length ws))))
          (seq 0 (length os)).
Proof.
  intros os ws low s Hn E.
  assert (HN : (1 <= length ws)%nat) by (destruct ws; [congruence|simpl; lia]).
  pose proof (unitwidth_pos _ HN) as U. unfold unitwidth in U.
  apply width_sequence in E; [|exact HN]. cbn [ns_start st_walkers st_samples sl_empty sl_items map app st_logWidth] in E.
  rewrite <- (map_map (fun x => ns_logW x - ns_logL x) exp), E, map_map. apply map_ext. intros k.
  unfold Rminus at 1. rewrite exp_plus, exp_ln; auto.
Qed.
Print Assumptions C09_geometric_widths.

(** Finding. The remaining N walkers together receive at most (N+3)/(2(N+1)) - about half -
    of the prior mass exp( -k/N ) that is left after k iterations. *)
Theorem C09_remaining_mass_used_refuted :
  forall os ws low s s', ws <> [] ->
    ns_run 1 None os (ns_start ws low) = Some s -> ns_collect s = Some s' ->
    let N := INR (length ws) in
    let left := exp (- (INR (length os) / N)) in
    sumL (map (fun x => exp (ns_logW x - ns_logL x)) (sl_items (st_samples s')))
    - sumL (map (fun x => exp (ns_logW x - ns_logL x)) (sl_items (st_samples s)))
    <= left * ((N + 3) / (2 * (N + 1))).
Proof.
  intros os ws low s s' Hn E E' N left.
  assert (HN : (1 <= length ws)%nat) by (destruct ws; [congruence|simpl; lia]).
  destruct (ns_start_mass ws low HN) as [M0 Z0].
  destruct (mass_run 1 os (ns_start ws low) s (le_n _) HN E) as (L & M & _ & B).
  destruct (final_mass s s') as [_ F]; auto. { rewrite L. exact HN. }
  rewrite L in F. cbn [ns_start st_walkers] in F, M. fold N in F, M.
  assert (Ml : mass_left s = left).
  { rewrite M, M0. unfold left. rewrite Rmult_1_l. f_equal. cbn [hsum INR]. rewrite Rminus_0_r. 
    fold N. unfold Rdiv. ring. }
  rewrite Ml in F. fold (mass (sl_items (st_samples s'))) (mass (sl_items (st_samples s))). lra.
Qed.
Print Assumptions C09_remaining_mass_used_refuted.

(** C10: ids increase along the list, so no two samples share one, and the counter is above all. *)
Theorem C10_ids_unique_and_increasing :
  forall (es : list sl_event) s,
    fold_left sl_step es (Some sl_empty) = Some s ->
    StronglySorted lt (map ns_id (sl_items s)) /\ NoDup (map ns_id (sl_items s)) /\
    (forall x, In x (sl_items s) -> (ns_id x < sl_count s)%nat).
Proof.
  intros es s E. destruct (ids_run es sl_empty s) as [A B]; auto.
  { split; constructor. }
  split; [exact A|]. split; [now apply SS_lt_NoDup|]. intros x Hx. rewrite Forall_forall in B.
  apply B. now apply in_map.
Qed.
Print Assumptions C10_ids_unique_and_increasing.

Example C10_nontrivial :
  exists s, fold_left sl_step [SNew 2 [1]; SAdd (mkNS 7 0 1 2 [5]); SCopy 2 0; SWeed None] (Some sl_empty)
            = Some s /\ map ns_id (sl_items s) = [0; 1; 2]%nat /\ map ns_parent (sl_items s) = [7; 0; 7]%nat.
Proof. eexists. repeat split. Qed.

(** C11: weeding leaves min( maxsize, n ) samples, a contiguous part of the list. *)
Theorem C11_weed_size_and_order :
  forall (m : nat) (s : slist),
    length (sl_items (sl_weed (Some m) s)) = Nat.min m (length (sl_items s)) /\
    exists a b, sl_items s = a ++ sl_items (sl_weed (Some m) s) ++ b.
Proof. intros m s. split; [apply sl_weed_length|apply sl_weed_sub]. Qed.
Print Assumptions C11_weed_size_and_order.

(** C11 as documented fails: the sample of smallest weight may survive. *)
Theorem C11_smallest_removed_refuted :
  exists (s : slist) (m : nat) x y,
    In x (sl_items s) /\ ~ In x (sl_items (sl_weed (Some m) s)) /\
    In y (sl_items (sl_weed (Some m) s)) /\ ns_logW y < ns_logW x.
Proof.
  set (a := mkNS 0 0 0 2 []). set (b := mkNS 1 0 0 1 []). set (c := mkNS 2 0 0 3 []).
  exists (mkSL 3 [a; b; c]), 2%nat, a, b.
  assert (E : sl_items (sl_weed (Some 2%nat) (mkSL 3 [a; b; c])) = [b; c]).
  { unfold sl_weed. cbn [sl_items length]. cbn [weed_loop length Nat.ltb Nat.leb last].
    unfold a at 1, c at 1. cbn [ns_logW]. destruct (Rlt_dec 2 3); [reflexivity|lra]. }
  rewrite E. split; [simpl; auto|]. split; [|split; [simpl; auto|simpl; lra]].
  intros [H|[H|[]]]; [apply (f_equal ns_id) in H|apply (f_equal ns_id) in H]; discriminate.
Qed.
Print Assumptions C11_smallest_removed_refuted.

(** C11 holds for a weight profile without an interior dip (as in a nested sampling run:
    rising, then falling): nothing that was dropped is heavier than what was kept.
    Missing: arbitrary weight profiles (refuted above). *)
Theorem C11_heaviest_kept_partial :
  forall (m : nat) (s : slist), unimodal (sl_items s) ->
    exists a b, sl_items s = a ++ sl_items (sl_weed (Some m) s) ++ b /\
      (forall x y, In x (a ++ b) -> In y (sl_items (sl_weed (Some m) s)) -> ns_logW x <= ns_logW y).
Proof. intros m s U. apply weed_loop_heaviest; auto. Qed.
Print Assumptions C11_heaviest_kept_partial.

Example C11_unimodal_met : unimodal [mkNS 0 0 0 1 []; mkNS 1 0 0 3 []; mkNS 2 0 0 2 []].
Proof.
  assert (Len : forall (A : Type) (a b : list A), length (a ++ b) = (length a + length b)%nat) by (intros; apply app_length).
  intros a x b y c z d E.
  assert (L := f_equal (@length _) E). rewrite Len in L. cbn in L. rewrite Len in L. cbn in L. rewrite Len in L. cbn in L.
  destruct a; [|cbn in L; lia]. destruct b; [|cbn in L; lia]. destruct c; [|cbn in L; lia].
  cbn in E. injection E as <- <- <- _. cbn. unfold Rmin. destruct (Rle_dec 1 2); lra.
Qed.

(** C12: averages over normalised samples lie between the extremes. *)
Theorem C12_average_between_extremes :
  forall (s : slist) (f : nsample -> R) lo hi,
    sumL (map (fun x => exp (ns_logW x)) (sl_items s)) = 1 ->
    (forall x, In x (sl_items s) -> lo <= f x <= hi) ->
    lo <= sl_average f s <= hi.
Proof. intros s f lo hi H B. apply average_bounds; auto. Qed.
Print Assumptions C12_average_between_extremes.

(** C12: the variance is the weighted mean square deviation, hence never negative: the clip
    in averstd is never active and the root in average never fails (in exact arithmetic). *)
Theorem C12_stdev :
  forall (s : slist) (f : nsample -> R),
    sumL (map (fun x => exp (ns_logW x)) (sl_items s)) = 1 ->
    let a := sl_average f s in
    sl_variance f s = sumL (map (fun x => exp (ns_logW x) * ((f x - a) * (f x - a))) (sl_items s)) /\
    0 <= sl_variance f s /\ sl_stdev f s * sl_stdev f s = sl_variance f s.
Proof.
  intros s f H a.
  assert (V : sl_variance f s = sumL (map (fun x => exp (ns_logW x) * ((f x - a) * (f x - a))) (sl_items s))).
  { apply variance_nonneg; auto. }
  assert (P : 0 <= sl_variance f s) by (rewrite V; apply weighted_sq_nonneg).
  split; [exact V|]. split; [exact P|].
  unfold sl_stdev. fold (sl_variance f s). rewrite Rmax_left by auto. now apply sqrt_sqrt.
Qed.
Print Assumptions C12_stdev.

(** C12: the weight before the median is less than one half, with the median at least one half. *)
Theorem C12_median :
  forall s : slist,
    sumL (map (fun x => exp (ns_logW x)) (sl_items s)) = 1 ->
    let k := medianIndex s in
    (k < length (sl_items s))%nat /\
    sumL (map (fun x => exp (ns_logW x)) (firstn k (sl_items s))) < 1/2 /\
    1/2 <= sumL (map (fun x => exp (ns_logW x)) (firstn (S k) (sl_items s))).
Proof.
  intros s H k. unfold k, medianIndex.
  destruct (median_loop_spec (sl_items s) 0 0) as (j & E & L & B); [lra|unfold totW; lra|].
  rewrite E. cbn [Nat.add]. unfold totW in B. split; [exact L|]. lra.
Qed.
Print Assumptions C12_median.

(** C12: the modus is the first sample of largest weight. *)
Theorem C12_modus :
  forall s : slist, sl_items s <> [] ->
    exists x, nth_error (sl_items s) (modusIndex s) = Some x /\
      (forall y, In y (sl_items s) -> ns_logW y <= ns_logW x) /\
      (forall j y, (j < modusIndex s)%nat -> nth_error (sl_items s) j = Some y -> ns_logW y < ns_logW x).
Proof.
  intros s H. unfold modusIndex. destruct (sl_items s) as [|a l] eqn:E; [congruence|].
  cbn [map]. set (we := ns_logW a :: map ns_logW l). set (m := maxL (ns_logW a) (map ns_logW l)).
  assert (Im : In m we).
  { destruct (maxL_in (ns_logW a) (map ns_logW l)) as [X|X]; fold m in X; [left; auto|right; auto]. }
  assert (Ub : forall y, In y (a :: l) -> ns_logW y <= m).
  { intros y [<-|Hy]; apply maxL_ub; [now left|right; now apply in_map]. }
  destruct (index_of_spec m we Im) as [A B].
  change we with (map ns_logW (a :: l)) in A. rewrite nth_error_map in A.
  destruct (nth_error (a :: l) (index_of m we)) as [x|] eqn:Ex.
  2:{ change (map ns_logW (a :: l)) with we in A. rewrite Ex in A. discriminate. }
  change (map ns_logW (a :: l)) with we in A. rewrite Ex in A.
  simpl in A. injection A as A. exists x. split; [reflexivity|]. rewrite A. split; [exact Ub|].
  intros j y Hj Hy. destruct (Ub y) as [L|L]; auto.
  - eapply nth_error_In; eauto.
  - exfalso. apply (B j Hj). change we with (map ns_logW (a :: l)). rewrite nth_error_map, Hy. simpl. now rewrite L.
Qed.
Print Assumptions C12_modus.

(** C12: getLowLogL returns the lowest value and an index where it sits. *)
Theorem C12_low_logL :
  forall l, l <> [] -> exists low k, getLowLogL l = Some (low, k) /\
    nth_error l k = Some low /\ (forall x, In x l -> low <= x).
Proof.
  intros [|x l] H; [congruence|]. unfold getLowLogL.
  destruct (low_loop_spec (x :: l) x 0%nat 0%nat) as [[A B] C].
  destruct (low_loop x 0 0 (x :: l)) as [low k] eqn:E. cbn [fst snd] in *.
  exists low, k. split; [reflexivity|]. split.
  - destruct C as [[-> ->]|(j & Ej & ->)]; [reflexivity|exact Ej].
  - now rewrite Forall_forall in B.
Qed.
Print Assumptions C12_low_logL.

Example C12_hypotheses_met :
  sl_items (mkSL 2 [mkNS 0 0 1 (ln (1/4)) [1]; mkNS 1 0 2 (ln (3/4)) [5]]) <> [] /\
  sumL (map (fun x => exp (ns_logW x)) [mkNS 0 0 1 (ln (1/4)) [1]; mkNS 1 0 2 (ln (3/4)) [5]]) = 1.
Proof. split; [discriminate|]. simpl. rewrite !exp_ln; lra. Qed.

(** C47: during a run with one discard per iteration the information equals the weighted
    mean log likelihood minus logZ. *)
Theorem C47_information_during_the_run :
  forall os o ws low s,
    good_start ws low ->
    ns_run 1 None (os ++ [o]) (ns_start ws low) = Some s ->
    exists logZ, st_logZ s = Some logZ /\
      st_info s = sumL (map (fun x => exp (ns_logW x) / exp logZ * ns_logL x) (sl_items (st_samples s))) - logZ.
Proof.
  intros os o ws low s G E.
  destruct (C08_evidence_during_the_run 1 os o ws low s (le_n _) E) as (z & Ez & _).
  exists z. split; [exact Ez|].
  destruct (info_run (os ++ [o]) (ns_start ws low) s) as [_ I]; auto.
  { apply (good_start_inv _ _ G). }
  unfold zinfo in I. rewrite Ez in I. unfold totWL in I. pose proof (exp_pos z) as P.
  assert (X : sumL (map (fun x => exp (ns_logW x) / exp z * ns_logL x) (sl_items (st_samples s)))
            = / exp z * (exp z * (st_info s + z))).
  { rewrite I, <- sumL_scale, map_map. f_equal. apply map_ext. intros x. unfold Rdiv. ring. }
  rewrite X, <- Rmult_assoc, Rinv_l by lra. lra.
Qed.
Print Assumptions C47_information_during_the_run.

(** Finding. When the remaining walkers are added, the last limit is used for all of them: the
    information reported falls short by the weighted height of the final walkers above it. *)
Theorem C47_final_information_refuted :
  forall os o ws low s s' logZ,
    good_start ws low ->
    ns_run 1 None (os ++ [o]) (ns_start ws low) = Some s -> ns_collect s = Some s' ->
    st_logZ s' = Some logZ ->
    let truth := sumL (map (fun x => exp (ns_logW x) / exp logZ * ns_logL x)
                           (sl_items (st_samples s'))) - logZ in
    st_info s' <= truth /\
    ((exists w, In w (st_walkers s) /\ st_low s < nw_logL w) -> st_info s' < truth).
Proof.
  intros os o ws low s s' z G E E' Ez truth.
  destruct (info_run (os ++ [o]) (ns_start ws low) s) as [P0 I]; auto.
  { apply (good_start_inv _ _ G). }
  destruct (climb_run 1 None _ _ _ (le_n _) (good_start_inv _ _ G) E) as ((Fw & _) & _).
  destruct (info_collect s s' P0 E') as (new & Sm & Nl & Zi).
  unfold zinfo at 1 in Zi. rewrite Ez, I in Zi. pose proof (exp_pos z) as P.
  assert (D : truth - st_info s' = / exp z * sumL (map (fun x => exp (ns_logW x) * (ns_logL x - st_low s)) new)).
  { unfold truth. rewrite Sm, map_app, sumL_app.
    assert (A : forall l, sumL (map (fun x => exp (ns_logW x) / exp z * ns_logL x) l) = / exp z * totWL l).
    { intros l. unfold totWL. rewrite <- sumL_scale, map_map. f_equal. apply map_ext. intros x. unfold Rdiv. ring. }
    rewrite !A.
    assert (B : sumL (map (fun x => exp (ns_logW x) * (ns_logL x - st_low s)) new) = totWL new - st_low s * totW new).
    { clear. unfold totWL, totW. induction new as [|x l IH]; simpl; [ring|]. rewrite IH. ring. }
    rewrite B. apply (Rmult_eq_reg_l (exp z)); [|lra].
    transitivity (exp z * / exp z * totWL (sl_items (st_samples s)) + exp z * / exp z * totWL new
                  - exp z * (st_info s' + z)); [ring|].
    rewrite Zi, Rinv_r by lra.
    transitivity (exp z * / exp z * (totWL new - st_low s * totW new)); [rewrite Rinv_r by lra|]; ring. }
  assert (Nn : forall x, In x new -> 0 <= ns_logL x - st_low s).
  { intros x Hx. assert (X : In (ns_logL x) (map nw_logL (st_walkers s))) by (rewrite <- Nl; now apply in_map).
    apply in_map_iff in X. destruct X as (w & <- & Hw). rewrite Forall_forall in Fw. specialize (Fw w Hw). lra. }
  assert (Pi : 0 < / exp z) by now apply Rinv_0_lt_compat.
  assert (G0 : forall l, (forall x, In x l -> 0 <= ns_logL x - st_low s) ->
     0 <= sumL (map (fun x => exp (ns_logW x) * (ns_logL x - st_low s)) l)).
  { induction l as [|x l IH]; intros H; simpl; [lra|].
    assert (0 <= ns_logL x - st_low s) by (apply H; now left).
    assert (0 <= sumL (map (fun x => exp (ns_logW x) * (ns_logL x - st_low s)) l)) by (apply IH; intros; apply H; now right).
    pose proof (exp_pos (ns_logW x)). nra. }
  split.
  - specialize (G0 new Nn). nra.
  - intros (w & Hw & Lw).
    assert (X : In (nw_logL w) (map ns_logL new)) by (rewrite Nl; now apply in_map).
    apply in_map_iff in X. destruct X as (x & Ex & Hx). apply in_split in Hx. destruct Hx as (l1 & l2 & ->).
    rewrite map_app, sumL_app in D. cbn [map sumL] in D.
    assert (A1 := G0 l1 ltac:(intros; apply Nn; apply in_app_iff; auto)).
    assert (A2 := G0 l2 ltac:(intros; apply Nn; apply in_app_iff; right; simpl; auto)).
    pose proof (exp_pos (ns_logW x)).
    assert (0 < exp (ns_logW x) * (ns_logL x - st_low s)) by (apply Rmult_lt_0_compat; lra).
    assert (0 < / exp z * (sumL (map (fun x => exp (ns_logW x) * (ns_logL x - st_low s)) l1) +
      (exp (ns_logW x) * (ns_logL x - st_low s) +
       sumL (map (fun x => exp (ns_logW x) * (ns_logL x - st_low s)) l2)))) by (apply Rmult_lt_0_compat; lra).
    lra.
Qed.
Print Assumptions C47_final_information_refuted.

(** C48: when the loop stops by itself at least minimumIterations have been done and one of
    the documented criteria holds. *)
Theorem C48_stops_for_a_reason :
  forall minI maxI tol e worst maxsize os ws low s,
    (1 <= worst)%nat -> good_start ws low ->
    ns_loop minI maxI tol e worst maxsize os (ns_start ws low) = Some (s, true) ->
    (minI <= st_iter s)%nat /\
    (st_logdZ s < tol \/ (exists m, maxI = Some m /\ (m < st_iter s)%nat) \/
     INR (st_iter s) > e * INR (length ws) * st_info s / INR worst).
Proof.
  intros minI maxI tol e worst mx os ws low s Hw G E.
  destruct (loop_iter _ _ _ _ _ _ _ _ _ _ Hw E) as [(os1 & os2 & -> & R & _) B].
  destruct (climb_run _ _ _ _ _ Hw (good_start_inv _ _ G) R) as (_ & L & _).
  specialize (B eq_refl). unfold nextIteration in B. rewrite L in B. cbn [ns_start st_walkers] in B.
  destruct (st_iter s <? minI)%nat eqn:A; [discriminate|]. apply Nat.ltb_ge in A. split; auto.
  destruct (Rlt_dec _ _); auto.
  destruct maxI as [m|].
  - destruct (m <? st_iter s)%nat eqn:C; [apply Nat.ltb_lt in C; right; left; eauto|].
    destruct (Rgt_dec _ _); [auto|discriminate].
  - destruct (Rgt_dec _ _); [auto|discriminate].
Qed.
Print Assumptions C48_stops_for_a_reason.

(** C48: with maxIterations = m at most max( minimumIterations, m + 1 ) iterations are done. *)
Theorem C48_iterations_bounded :
  forall minI m tol e worst maxsize os ws low s stop,
    (1 <= worst)%nat ->
    ns_loop minI (Some m) tol e worst maxsize os (ns_start ws low) = Some (s, stop) ->
    (st_iter s <= Nat.max minI (S m))%nat.
Proof. intros. eapply loop_bound; eauto. simpl. lia. Qed.
Print Assumptions C48_iterations_bounded.

(** The bound is one more than maxIterations, and it is reached. *)
Theorem C48_at_most_maxIterations_refuted :
  exists minI m tol e worst os ws low s,
    (minI <= m)%nat /\ good_start ws low /\
    ns_loop minI (Some m) tol e worst None os (ns_start ws low) = Some (s, true) /\
    (m < st_iter s)%nat.
Proof.
  destruct nested_hypotheses_met as (G & s & R & _).
  exists 0%nat, 0%nat, (-12), 2, 1%nat, [ex_o], ex_ws, 0, s.
  split; [lia|]. split; [exact G|].
  unfold ns_run in R. cbn [fold_left ns_step] in R.
  assert (N0 : nextIteration 0 (Some 0%nat) (-12) 2 1 (ns_start ex_ws 0) = true).
  { unfold nextIteration. cbn [ns_start st_iter st_logdZ st_info st_walkers Nat.ltb Nat.leb].
    destruct (Rlt_dec 0 (-12)); [lra|].
    destruct (Rgt_dec _ _) as [g|g]; auto. exfalso. unfold Rdiv in g. simpl in g. lra. }
  cbn [ns_loop]. rewrite N0, R.
  assert (It : st_iter s = 1%nat).
  { apply iteration_spec in R; [|lia]. destruct R as (_ & _ & _ & _ & _ & _ & It & _). exact It. }
  assert (N1 : nextIteration 0 (Some 0%nat) (-12) 2 1 s = false).
  { unfold nextIteration. rewrite It. cbn. destruct (Rlt_dec _ _); auto. }
  rewrite N1. split; [reflexivity|]. rewrite It. lia.
Qed.
Print Assumptions C48_at_most_maxIterations_refuted.
