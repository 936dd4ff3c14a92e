(** C106: what a SampleList tells about its history. *)
From Coq Require Import List Arith ZArith Reals Lia Lra Bool Sorted.
From Verif Require Import M_Nested P_Nested P_Samples T_Nested M_History.
Import ListNotations.
Local Open Scope R_scope.

(** ** Evolutions *)
Definition samelength (l : list nsample) (n : nat) : Prop := forall s, In s l -> length (ns_par s) = n.
(** With all the same number of parameters the evolutions are tables with a row for each sample, in the order of the list *)
Theorem C106_parameters : forall l n, l <> [] -> samelength l n ->
  getParameterEvolution l = Val (map ns_par l)
  /\ (forall k, (k < n)%nat -> getParameterEvolutionOf (Z.of_nat k) l = Val (map (fun s => nth k (ns_par s) 0) l)
       /\ getParameterEvolutionOf (Z.of_nat k - Z.of_nat n) l = Val (map (fun s => nth k (ns_par s) 0) l))
  /\ (forall k, (k < - Z.of_nat n \/ Z.of_nat n <= k)%Z -> getParameterEvolutionOf k l = IndexError)
  /\ getMaximumNumberOfParameters l = Val n.
Proof.
  intros l n N S. assert (A : asarray (map ns_par l) = Val (map ns_par l)).
  { destruct l as [|a r]; [congruence|]. cbn [map asarray]. assert (B : forallb (fun x => (length x =? length (ns_par a))%nat) (map ns_par r) = true).
    { apply forallb_forall. intros x Hx. apply in_map_iff in Hx. destruct Hx as (s & <- & Hs). apply Nat.eqb_eq. rewrite (S s), (S a); [reflexivity|now left|now right]. }
    now rewrite B. }
  assert (P : forall k i, pyindex n k = Some i -> getParameterEvolutionOf k l = Val (map (fun s => nth i (ns_par s) 0) l)).
  { intros k i E. unfold getParameterEvolutionOf. rewrite A. destruct l as [|a r]; [congruence|]. cbn [map]. rewrite (S a) by now left. rewrite E. cbn [map]. now rewrite map_map. }
  split; [exact A|]. split; [|split].
  - intros k Hk. split; apply P; unfold pyindex.
    + destruct (Z.ltb_spec (Z.of_nat k) 0); [lia|]. destruct (Z.ltb_spec (Z.of_nat k) (Z.of_nat n)); [|lia]. f_equal. lia.
    + destruct (Z.ltb_spec (Z.of_nat k - Z.of_nat n) 0); [|lia]. destruct (Z.ltb_spec (Z.of_nat n + (Z.of_nat k - Z.of_nat n)) 0); [lia|]. f_equal. lia.
  - intros k Hk. unfold getParameterEvolutionOf. rewrite A. destruct l as [|a r]; [congruence|]. cbn [map]. rewrite (S a) by now left.
    assert (E : pyindex n k = None). { unfold pyindex. destruct (Z.ltb_spec k 0); [destruct (Z.ltb_spec (Z.of_nat n + k) 0); [reflexivity|lia]|destruct (Z.ltb_spec k (Z.of_nat n)); [lia|reflexivity]]. }
    now rewrite E.
  - unfold getMaximumNumberOfParameters. destruct l as [|a r]; [congruence|]. f_equal. revert S. unfold getNumberOfParametersEvolution. clear. generalize (a). induction r as [|b r IH]; intros c S.
    + cbn. rewrite (S c) by now left. lia.
    + change (fold_right Nat.max 0%nat (map (fun s => length (ns_par s)) (c :: b :: r))) with (Nat.max (length (ns_par c)) (fold_right Nat.max 0%nat (map (fun s => length (ns_par s)) (b :: r)))).
      rewrite IH by (intros s Hs; apply S; now right). rewrite (S c) by now left. lia.
Qed.
(** The documentation says that for dynamic models the parameters are zero-padded; but samples with different numbers of parameters give a
    ValueError, for all parameters and for any of them *)
Theorem C106_padding_refuted : forall a b l k, length (ns_par a) <> length (ns_par b) ->
  getParameterEvolution (a :: b :: l) = ValueError /\ getParameterEvolutionOf k (a :: b :: l) = ValueError.
Proof.
  intros a b l k H. assert (A : asarray (map ns_par (a :: b :: l)) = ValueError).
  { cbn [map asarray forallb]. destruct (Nat.eqb_spec (length (ns_par b)) (length (ns_par a))); [congruence|reflexivity]. }
  unfold getParameterEvolution, getParameterEvolutionOf. rewrite A. split; reflexivity.
Qed.
(** The largest number of parameters is the number of one of them, and no sample has more *)
Theorem C106_maximum : forall l m, getMaximumNumberOfParameters l = Val m ->
  (exists s, In s l /\ length (ns_par s) = m) /\ forall s, In s l -> (length (ns_par s) <= m)%nat.
Proof.
  intros [|a l] m H; [discriminate|]. unfold getMaximumNumberOfParameters in H. injection H as <-. unfold getNumberOfParametersEvolution. generalize a. clear a. induction l as [|b l IH]; intros a.
  - cbn. split; [exists a; split; [now left|lia]|]. intros s [<-|[]]. lia.
  - set (m := fold_right Nat.max 0%nat (map (fun s => length (ns_par s)) (b :: l))). destruct (IH b) as [(s & I & E) U]. fold m in E, U.
    change (fold_right Nat.max 0%nat (map (fun s => length (ns_par s)) (a :: b :: l))) with (Nat.max (length (ns_par a)) m). split.
    + destruct (Nat.max_spec (length (ns_par a)) m) as [[_ ->]|[_ ->]]; [exists s; split; [now right|exact E]|exists a; split; [now left|reflexivity]].
    + intros t [<-|Ht]; [apply Nat.le_max_l|]. eapply Nat.le_trans; [exact (U t Ht)|apply Nat.le_max_r].
Qed.
(** Samples that are added one after the other get the generations 0, 1, 2 ..; their parents are the identities they had before *)
Theorem C106_generations : forall ss, let h := fold_left h_add ss h_new in
  getGeneration (sl_items (h_list h)) = seq 0 (length ss) /\ getParentEvolution (sl_items (h_list h)) = map ns_id ss
  /\ getLogLikelihoodEvolution (sl_items (h_list h)) = map ns_logL ss
  /\ getWeightEvolution (sl_items (h_list h)) = map (fun s => exp (ns_logW s)) ss.
Proof.
  intros ss. cbv zeta. pattern ss. apply rev_ind; [repeat split|]. intros s l (A & B & C & D). rewrite fold_left_app. cbn [fold_left].
  set (h := fold_left h_add l h_new) in *. assert (N : sl_count (h_list h) = length l).
  { unfold h. clear. pattern l. apply rev_ind; [reflexivity|]. intros s m IH. rewrite fold_left_app, app_length. cbn. rewrite IH. lia. }
  unfold h_add. cbn [h_list]. unfold sl_add. cbn [sl_items]. unfold getGeneration, getParentEvolution, getLogLikelihoodEvolution, getWeightEvolution in *. rewrite !map_app, A, B, C, D, app_length, seq_app. cbn. rewrite N. repeat split.
Qed.

(** ** The flag *)
(** After normalize the weights sum to 1 and the flag says so; a sample that is added takes it away *)
Theorem C106_normalized : forall h, sl_items (h_list h) <> [] ->
  sumL (getWeightEvolution (sl_items (h_list (h_normalize h)))) = 1 /\ h_normalized (h_normalize h) = true /\ forall s, h_normalized (h_add h s) = false.
Proof. intros h N. split; [|split; reflexivity]. apply (C08_normalised_weights (h_list h) N). Qed.
(** The flag should be true when the weights sum to 1; but after weeding it is still there, while the weights sum to less than 1 *)
Theorem C106_normalized_refuted : forall h m, (m < length (sl_items (h_list h)))%nat ->
  let h' := h_weed (Some m) (h_normalize h) in h_normalized h' = true /\ sumL (getWeightEvolution (sl_items (h_list h'))) < 1.
Proof.
  intros h m L. cbv zeta. split; [reflexivity|]. assert (N : sl_items (h_list h) <> []) by (destruct (sl_items (h_list h)); [cbn in L; lia|discriminate]).
  destruct (C106_normalized h N) as [S _]. cbn [h_weed h_list h_normalize] in *. destruct (C11_weed_size_and_order m (sl_normalize (h_list h))) as (W & a & b & E).
  assert (Ln : length (sl_items (sl_normalize (h_list h))) = length (sl_items (h_list h))) by (cbn; now rewrite map_length). rewrite Ln in W. unfold getWeightEvolution in *.
  set (r := sl_items (sl_weed (Some m) (sl_normalize (h_list h)))) in *. rewrite E in S, Ln. rewrite !map_app, !sumL_app in S. rewrite !app_length in Ln.
  assert (P : forall l : list nsample, 0 <= sumL (map (fun s => exp (ns_logW s)) l) /\ (l <> [] -> 0 < sumL (map (fun s => exp (ns_logW s)) l))).
  { clear. induction l as [|x l [I1 I2]]; cbn; [split; [lia || lra|congruence]|]. pose proof (exp_pos (ns_logW x)). split; [lra|intros _; lra]. }
  destruct (P a) as [A1 A2], (P b) as [B1 B2]. destruct a as [|x a].
  - destruct b as [|y b]; [cbn [length] in Ln; lia|]. specialize (B2 ltac:(discriminate)). cbn [map sumL] in *. lra.
  - specialize (A2 ltac:(discriminate)). lra.
Qed.

(** ** Median and modus *)
(** Asked for the first time, after normalize, they are where they should be *)
Theorem C106_first : forall h, sl_items (h_list h) <> [] -> h_median h = None -> h_modus h = None -> let h := h_normalize h in
  (exists s, fst (medianSample h) = Val s /\ exists k, nth_error (sl_items (h_list h)) k = Some s
     /\ sumL (getWeightEvolution (firstn k (sl_items (h_list h)))) < 1 / 2 <= sumL (getWeightEvolution (firstn (S k) (sl_items (h_list h)))))
  /\ (exists s, fst (modusSample h) = Val s /\ In s (sl_items (h_list h)) /\ forall t, In t (sl_items (h_list h)) -> exp (ns_logW t) <= exp (ns_logW s)).
Proof.
  intros h N Hm Ho. cbv zeta. assert (N' : sl_items (sl_normalize (h_list h)) <> []) by (cbn; destruct (sl_items (h_list h)); [congruence|discriminate]).
  destruct (C106_normalized h N) as [S _]. cbn [h_list h_normalize] in S. split.
  - destruct (C12_median (sl_normalize (h_list h)) S) as (L & A & B). unfold medianSample, ask_median. cbn [h_normalize h_median h_list]. rewrite Hm. cbn [fst item h_list]. unfold item. cbn [h_list].
    destruct (nth_error _ (medianIndex (sl_normalize (h_list h)))) as [s|] eqn:E; [|apply nth_error_None in E; lia].
    exists s. split; [reflexivity|]. eexists. split; [exact E|]. split; assumption.
  - destruct (C12_modus (sl_normalize (h_list h)) N') as (x & E & U & _). unfold modusSample, ask_modus. cbn [h_normalize h_modus h_list]. rewrite Ho.
    destruct (sl_items (sl_normalize (h_list h))) as [|y l] eqn:I; [congruence|]. cbn [fst]. unfold item. cbn [h_list]. rewrite I, E. exists x. split; [reflexivity|].
    split; [eapply nth_error_In; exact E|]. intros t Ht. destruct (U t Ht) as [Q|Q]; [left; apply exp_increasing; exact Q|right; now rewrite Q].
Qed.
(** Once asked they are kept, whatever happens to the list *)
Lemma kept_step : forall h e k, (h_median h = Some k -> h_median (happen h e) = Some k) /\ (h_modus h = Some k -> h_modus (happen h e) = Some k).
Proof.
  intros h [s| |m| |] k; cbn; split; intros H; try exact H.
  - unfold ask_median. rewrite H. cbn. exact H.
  - unfold ask_median. destruct (h_median h); exact H.
  - unfold ask_modus. destruct (h_modus h); [exact H|]. destruct (sl_items (h_list h)); exact H.
  - unfold ask_modus. rewrite H. exact H.
Qed.
Theorem C106_kept : forall h es,
  fst (ask_median (fold_left happen es (snd (ask_median h)))) = fst (ask_median h)
  /\ (forall k, fst (ask_modus h) = Val k -> fst (ask_modus (fold_left happen es (snd (ask_modus h)))) = Val k).
Proof.
  intros h es. split.
  - assert (A : forall es g k, h_median g = Some k -> h_median (fold_left happen es g) = Some k).
    { induction es0 as [|e es0 IH]; intros g k H; [exact H|]. apply IH, kept_step, H. }
    assert (B : h_median (snd (ask_median h)) = Some (fst (ask_median h))) by (unfold ask_median; destruct (h_median h) eqn:E; [exact E|reflexivity]).
    apply (A es) in B. unfold ask_median at 1. now rewrite B.
  - intros k Hk. assert (A : forall es g, h_modus g = Some k -> h_modus (fold_left happen es g) = Some k).
    { induction es0 as [|e es0 IH]; intros g H; [exact H|]. apply IH, kept_step, H. }
    assert (B : h_modus (snd (ask_modus h)) = Some k). { unfold ask_modus in *. destruct (h_modus h) eqn:E; [cbn in Hk; injection Hk as ->; exact E|]. destruct (sl_items (h_list h)); [discriminate|]. cbn in *. now injection Hk as ->. }
    apply (A es) in B. unfold ask_modus at 1. now rewrite B.
Qed.
(** so that the modus is not the sample of the largest weight any more when a heavier one is added, *)
Theorem C106_modus_refuted : forall a b, ns_logW a < ns_logW b ->
  exists s, fst (modusSample (h_add (snd (modusSample (h_add h_new a))) b)) = Val s /\ ns_logW s < ns_logW b.
Proof.
  intros a b H. eexists. unfold modusSample, ask_modus. cbn. destruct (Req_EM_T (ns_logW a) (ns_logW a)) as [_|X]; [|congruence]. cbn. split; [reflexivity|exact H].
Qed.
(** and the median does not exist any more when the list is weeded *)
Theorem C106_median_refuted : forall a b, exp (ns_logW a) < 1 / 2 ->
  let h := h_add (h_add h_new a) b in fst (medianSample h) <> IndexError -> fst (medianSample (h_weed (Some 1%nat) (snd (medianSample h)))) = IndexError.
Proof.
  intros a b H. cbv zeta. unfold medianSample at 1. unfold ask_median, medianIndex. cbn -[Rlt_dec]. replace (0 + exp (ns_logW a)) with (exp (ns_logW a)) by ring.
  destruct (Rlt_dec (exp (ns_logW a)) (1 / 2)) as [_|X]; [|lra]. intros K.
  unfold medianSample, ask_median, medianIndex. cbn -[Rlt_dec]. replace (0 + exp (ns_logW a)) with (exp (ns_logW a)) by ring.
  destruct (Rlt_dec (exp (ns_logW a)) (1 / 2)) as [_|X]; [|lra]. revert K. destruct (Rlt_dec (exp (ns_logW a) + exp (ns_logW b)) (1 / 2)); cbn -[Rlt_dec]; intros K; [congruence|].
  unfold item. cbn -[Rlt_dec]. destruct (Rlt_dec (ns_logW a) (ns_logW b)); reflexivity.
Qed.
Example C106_median_ex : let a := mkNS 3 0 0 (ln (1 / 4)) [1] in let b := mkNS 5 0 1 (ln (3 / 4)) [2] in
  exp (ns_logW a) < 1 / 2 /\ fst (medianSample (h_add (h_add h_new a) b)) = Val (mkNS 1 5 1 (ln (3 / 4)) [2]).
Proof.
  cbv zeta. cbn [ns_logW]. rewrite exp_ln by lra. split; [lra|]. unfold medianSample, ask_median, medianIndex. cbn -[Rlt_dec]. rewrite !exp_ln by lra.
  destruct (Rlt_dec (0 + 1 / 4) (1 / 2)); [|lra]. destruct (Rlt_dec (0 + 1 / 4 + 3 / 4) (1 / 2)); [lra|]. reflexivity.
Qed.

(** ** The maximum of the likelihood *)
Definition rising (l : list nsample) : Prop := StronglySorted (fun a b => ns_logL a <= ns_logL b) l.
(** As long as no sample has a likelihood below those before it, the last one has the maximum; weeding and normalizing keep it so *)
Theorem C106_last : forall h, rising (sl_items (h_list h)) -> sl_items (h_list h) <> [] ->
  exists s, maxLikelihoodSample h = Val s /\ In s (sl_items (h_list h)) /\ forall t, In t (sl_items (h_list h)) -> ns_logL t <= ns_logL s.
Proof.
  intros h R N. unfold maxLikelihoodSample. destruct (rev (sl_items (h_list h))) as [|s l] eqn:E.
  - apply (f_equal (@rev _)) in E. rewrite rev_involutive in E. cbn in E. congruence.
  - apply (f_equal (@rev _)) in E. rewrite rev_involutive in E. cbn in E. exists s. split; [reflexivity|]. rewrite E in *. split; [apply in_or_app; right; now left|].
    intros t Ht. apply in_app_or in Ht. destruct Ht as [Ht|[<-|[]]]; [|lra].
    revert R Ht. generalize (rev l). clear. intros m. induction m as [|x m IH]; intros R [].
    + subst x. cbn in R. apply StronglySorted_inv in R. destruct R as [_ F]. rewrite Forall_forall in F. apply F, in_or_app. right. now left.
    + apply IH; [|assumption]. cbn in R. now apply StronglySorted_inv in R.
Qed.
Lemma rising_part : forall a l b, rising (a ++ l ++ b) -> rising l.
Proof.
  unfold rising. intros a l b H. assert (T : StronglySorted (fun x y => ns_logL x <= ns_logL y) (l ++ b)) by (induction a as [|x a IH]; [exact H|apply IH; cbn in H; now apply StronglySorted_inv in H]).
  clear H. induction l as [|x l IH]; constructor; cbn in T; apply StronglySorted_inv in T; destruct T as [T F]; [now apply IH|]. rewrite Forall_app in F. apply F.
Qed.
Theorem C106_rising : forall h, rising (sl_items (h_list h)) ->
  (forall m, rising (sl_items (h_list (h_weed m h)))) /\ rising (sl_items (h_list (h_normalize h)))
  /\ (forall s, (forall t, In t (sl_items (h_list h)) -> ns_logL t <= ns_logL s) -> rising (sl_items (h_list (h_add h s)))).
Proof.
  intros h R. split; [|split].
  - intros m. cbn [h_weed h_list]. destruct (sl_weed_sub m (h_list h)) as (a & b & E). rewrite E in R. exact (rising_part _ _ _ R).
  - cbn. generalize ((match map ns_logW (sl_items (h_list h)) with [] => 0 | x :: r => maxL x r end + ln (sumL (map (fun x => exp (x - match map ns_logW (sl_items (h_list h)) with [] => 0 | x0 :: r => maxL x0 r end)) (map ns_logW (sl_items (h_list h))))))).
    intros c. unfold rising in *. induction R as [|x l R IH F]; cbn; constructor; [exact IH|]. rewrite Forall_forall in *. intros y Hy. apply in_map_iff in Hy. destruct Hy as (z & <- & Hz). cbn. now apply F.
  - intros s Hs. cbn. unfold rising in *. induction R as [|x l R IH F]; cbn; [repeat constructor|]. constructor; [apply IH; intros t Ht; apply Hs; now right|].
    apply Forall_app. split; [exact F|]. constructor; [cbn; apply Hs; now left|constructor].
Qed.

(** ** Averages of samples with different numbers of parameters *)
Lemma fold_none : forall l, fold_left iadd l None = None.
Proof. induction l; [reflexivity|exact IHl]. Qed.
Lemma iadd_length : forall a b c, iadd (Some a) b = Some c -> length c = length a.
Proof.
  intros a b c H. cbn in H. destruct (Nat.eqb_spec (length b) (length a)).
  - injection H as <-. rewrite map_length, combine_length. lia.
  - destruct b as [|x [|y b]]; try discriminate. injection H as <-. apply map_length.
Qed.
Lemma total_some : forall rs r, fold_left iadd rs (Some r) <> None <-> forall x, In x rs -> length x = length r \/ length x = 1%nat.
Proof.
  induction rs as [|b rs IH]; intros r; [cbn; split; [intros _ x []|discriminate]|]. cbn [fold_left]. destruct (iadd (Some r) b) as [c|] eqn:E.
  - assert (L := iadd_length _ _ _ E). rewrite IH, L. cbn [iadd] in E. split; intros H x Hx.
    + destruct Hx as [<-|Hx]; [|now apply H]. destruct (Nat.eqb_spec (length b) (length r)); [now left|]. destruct b as [|y [|z b]]; try discriminate. now right.
    + apply H. now right.
  - rewrite fold_none. split; [congruence|]. intros H _. cbn [iadd] in E. destruct (H b (or_introl eq_refl)) as [L|L].
    + rewrite L, Nat.eqb_refl in E. discriminate.
    + destruct (Nat.eqb_spec (length b) (length r)); [discriminate|]. destruct b as [|y [|z b]]; discriminate.
Qed.
(** It is not a ValueError just when all samples have as many parameters as the first, or 1 *)
Theorem C106_average_defined : forall a l, averstd (a :: l) <> None <-> forall s, In s l -> length (ns_par s) = length (ns_par a) \/ length (ns_par s) = 1%nat.
Proof.
  intros a l. unfold averstd. cbn [map total].
  set (f := fun s => map (fun p => exp (ns_logW s) * p) (ns_par s)). set (g := fun s => map (fun p => exp (ns_logW s) * p * p) (ns_par s)).
  assert (F : fold_left iadd (map f l) (Some (f a)) <> None <-> forall s, In s l -> length (ns_par s) = length (ns_par a) \/ length (ns_par s) = 1%nat).
  { rewrite total_some. split; intros H.
    - intros s Hs. specialize (H (f s) (in_map f l s Hs)). unfold f in H. now rewrite !map_length in H.
    - intros x Hx. apply in_map_iff in Hx. destruct Hx as (s & <- & Hs). unfold f. rewrite !map_length. now apply H. }
  assert (G : fold_left iadd (map g l) (Some (g a)) <> None <-> forall s, In s l -> length (ns_par s) = length (ns_par a) \/ length (ns_par s) = 1%nat).
  { rewrite total_some. split; intros H.
    - intros s Hs. specialize (H (g s) (in_map g l s Hs)). unfold g in H. now rewrite !map_length in H.
    - intros x Hx. apply in_map_iff in Hx. destruct Hx as (s & <- & Hs). unfold g. rewrite !map_length. now apply H. }
  change (map (fun p => exp (ns_logW a) * p) (ns_par a)) with (f a). change (map (fun p => exp (ns_logW a) * p * p) (ns_par a)) with (g a).
  destruct (fold_left iadd (map f l) (Some (f a))) as [u|]; destruct (fold_left iadd (map g l) (Some (g a))) as [v|].
  - split; [intros _; apply F; discriminate|discriminate].
  - split; [congruence|]. intros H. exfalso. apply (proj2 G H). reflexivity.
  - split; [congruence|]. intros H. exfalso. apply (proj2 F H). reflexivity.
  - split; [congruence|]. intros H. exfalso. apply (proj2 F H). reflexivity.
Qed.
Lemma total_same : forall rs r n, length r = n -> (forall x, In x rs -> length x = n) ->
  exists c, fold_left iadd rs (Some r) = Some c /\ length c = n /\ forall k, (k < n)%nat -> nth k c 0 = nth k r 0 + sumL (map (fun x => nth k x 0) rs).
Proof.
  induction rs as [|b rs IH]; intros r n L H; [exists r; repeat split; [exact L|]; intros k _; cbn; ring|].
  cbn [fold_left iadd]. rewrite (H b (or_introl eq_refl)), L, Nat.eqb_refl. destruct (IH (map (fun u => fst u + snd u) (combine r b)) n) as (c & A & B & C).
  - rewrite map_length, combine_length, L, (H b (or_introl eq_refl)). lia.
  - intros x Hx. apply H. now right.
  - exists c. repeat split; [exact A|exact B|]. intros k Hk. rewrite (C k Hk). cbn [map sumL].
    replace (nth k (map (fun u => fst u + snd u) (combine r b)) 0) with (nth k r 0 + nth k b 0); [ring|].
    rewrite (nth_indep (map (fun u : R * R => fst u + snd u) (combine r b)) 0 ((fun u : R * R => fst u + snd u) (0, 0))) by (rewrite map_length, combine_length, L, (H b (or_introl eq_refl)); lia).
    rewrite (map_nth (fun u : R * R => fst u + snd u)), combine_nth by (rewrite L; symmetry; apply H; now left). reflexivity.
Qed.
(** With all the same number, they are the weighted averages and standard deviations, parameter by parameter *)
Theorem C106_average_values : forall l n, l <> [] -> samelength l n ->
  exists a s, averstd l = Some (a, s) /\ length a = n /\ length s = n /\ forall k, (k < n)%nat ->
    nth k a 0 = sumL (map (fun x => exp (ns_logW x) * nth k (ns_par x) 0) l)
    /\ nth k s 0 = sqrt (Rmax (sumL (map (fun x => exp (ns_logW x) * nth k (ns_par x) 0 * nth k (ns_par x) 0) l) - nth k a 0 * nth k a 0) 0).
Proof.
  intros [|b l] n N S; [congruence|]. unfold averstd. cbn [map total].
  destruct (total_same (map (fun s => map (fun p => exp (ns_logW s) * p) (ns_par s)) l) (map (fun p => exp (ns_logW b) * p) (ns_par b)) n) as (a & A1 & A2 & A3).
  { rewrite map_length. apply S. now left. } { intros x Hx. apply in_map_iff in Hx. destruct Hx as (s & <- & Hs). rewrite map_length. apply S. now right. }
  destruct (total_same (map (fun s => map (fun p => exp (ns_logW s) * p * p) (ns_par s)) l) (map (fun p => exp (ns_logW b) * p * p) (ns_par b)) n) as (q & Q1 & Q2 & Q3).
  { rewrite map_length. apply S. now left. } { intros x Hx. apply in_map_iff in Hx. destruct Hx as (s & <- & Hs). rewrite map_length. apply S. now right. }
  rewrite A1, Q1. exists a. eexists. split; [reflexivity|]. split; [exact A2|]. split; [rewrite map_length, combine_length; lia|].
  assert (M1 : forall x k, nth k (map (fun p => exp (ns_logW x) * p) (ns_par x)) 0 = exp (ns_logW x) * nth k (ns_par x) 0).
  { intros x k. rewrite <- (map_nth (fun p => exp (ns_logW x) * p)). f_equal. ring. }
  assert (M2 : forall x k, nth k (map (fun p => exp (ns_logW x) * p * p) (ns_par x)) 0 = exp (ns_logW x) * nth k (ns_par x) 0 * nth k (ns_par x) 0).
  { intros x k. rewrite <- (map_nth (fun p => exp (ns_logW x) * p * p)). f_equal. ring. }
  intros k Hk. assert (EA : nth k a 0 = sumL (map (fun x => exp (ns_logW x) * nth k (ns_par x) 0) (b :: l))).
  { rewrite (A3 k Hk), map_map. cbn [map sumL]. rewrite M1. f_equal. f_equal. apply map_ext. intros x. apply M1. }
  assert (EQ : nth k q 0 = sumL (map (fun x => exp (ns_logW x) * nth k (ns_par x) 0 * nth k (ns_par x) 0) (b :: l))).
  { rewrite (Q3 k Hk), map_map. cbn [map sumL]. rewrite M2. f_equal. f_equal. apply map_ext. intros x. apply M2. }
  split; [exact EA|]. set (f := fun u : R * R => sqrt (Rmax (fst u - snd u * snd u) 0)).
  assert (T : nth k (map f (combine q a)) 0 = f (nth k q 0, nth k a 0)).
  { rewrite (nth_indep (map f (combine q a)) 0 (f (0, 0))) by (rewrite map_length, combine_length; lia). rewrite (map_nth f), combine_nth by lia. reflexivity. }
  rewrite T. unfold f. cbn [fst snd]. rewrite EQ. reflexivity.
Qed.
(** The documentation says that it is a ValueError for dynamic models; but a sample with 1 parameter after one with 2 is added to both: an
    answer that mixes different parameters *)
Theorem C106_dynamic_refuted : forall i j p q la lb wa wb x y z,
  exists s, averstd [mkNS i p la wa [x; y]; mkNS j q lb wb [z]] = Some ([exp wa * x + exp wb * z; exp wa * y + exp wb * z], s).
Proof. intros. eexists. unfold averstd. cbn. reflexivity. Qed.
(** The other way round it is a ValueError *)
Theorem C106_dynamic_error : forall i j p q la lb wa wb x y z, averstd [mkNS i p la wa [z]; mkNS j q lb wb [x; y]] = None.
Proof. reflexivity. Qed.

Example C106_ex : let l := [mkNS 0 0 (-2) (ln (1 / 4)) [1; 2]; mkNS 1 0 (-1) (ln (3 / 4)) [3; 6]] in
  samelength l 2 /\ rising l /\ getParameterEvolutionOf (-1) l = Val [2; 6] /\ exists s, averstd l = Some ([5 / 2; 5], s).
Proof.
  cbv zeta. split; [intros s [<-|[<-|[]]]; reflexivity|]. split; [repeat constructor; cbn; lra|]. split; [reflexivity|]. eexists. unfold averstd. cbn. rewrite !exp_ln by lra.
  match goal with |- Some (?a, ?b) = _ => replace a with [5 / 2; 5]; [reflexivity|] end. f_equal; [lra|]. f_equal; lra.
Qed.

Print Assumptions C106_parameters.
Print Assumptions C106_padding_refuted.
Print Assumptions C106_maximum.
Print Assumptions C106_generations.
Print Assumptions C106_normalized.
Print Assumptions C106_normalized_refuted.
Print Assumptions C106_first.
Print Assumptions C106_kept.
Print Assumptions C106_modus_refuted.
Print Assumptions C106_median_refuted.
Print Assumptions C106_last.
Print Assumptions C106_rising.
Print Assumptions C106_average_defined.
Print Assumptions C106_average_values.
Print Assumptions C106_dynamic_refuted.

(** An empty list has no parameters: all evolutions are empty, the one of a single parameter is an IndexError. *)
Theorem C106_empty : getParameterEvolution [] = Val [] /\ (forall k, getParameterEvolutionOf k [] = IndexError) /\
  getMaximumNumberOfParameters [] = IndexError /\ getLogLikelihoodEvolution [] = [].
Proof. repeat split. Qed.
Print Assumptions C106_empty.
