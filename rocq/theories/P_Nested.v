(** Proofs about the nested sampling loop. *)
From Coq Require Import List Arith Reals Lia Lra Sorted Permutation.
From Verif Require Import M_Order M_Nested P_Order.
Import ListNotations.
Local Open Scope R_scope.

Lemma sumL_app a b : sumL (a ++ b) = sumL a + sumL b.
Proof. induction a; simpl; lra. Qed.

Definition zexp (o : option R) : R := match o with None => 0 | Some z => exp z end.
Definition zinfo (s : nstate) : R :=
  match st_logZ s with None => 0 | Some z => exp z * (st_info s + z) end.

(** What the discarding of n walkers costs in log width: 1/N + 1/(N-1) + ... *)
Fixpoint hsum (N n : nat) : R :=
  match n with O => 0 | S k => hsum N k + 1 / (INR N - INR k) end.

(** The log widths handed out to n walkers in a row. *)
Definition widths (N n : nat) (w : R) : list R := map (fun k => w - hsum N k) (seq 0 n).

Definition totW (l : list nsample) : R := sumL (map (fun x => exp (ns_logW x)) l).

Definition eff (w : nwalker) : R := nw_logL w + nw_logPrior w.

Lemma firstn_S_nth {A} n (l : list A) x : nth_error l n = Some x ->
  firstn (S n) l = firstn n l ++ [x].
Proof.
  revert n. induction l as [|a l IH]; intros [|n] H; try discriminate.
  - simpl in H. injection H as ->. reflexivity.
  - change (firstn (S (S n)) (a :: l)) with (a :: firstn (S n) l).
    rewrite (IH n H). reflexivity.
Qed.

Lemma exp_logaddexp z w : exp (logaddexp z w) = zexp z + exp w.
Proof.
  destruct z; simpl; [|lra]. rewrite exp_ln; auto. pose proof (exp_pos r). pose proof (exp_pos w). lra.
Qed.

Lemma updateEvidence_spec n : forall s, (n <= length (st_walkers s))%nat ->
  let N := length (st_walkers s) in
  exists s' new, updateEvidence n (Some s) = Some s' /\
    st_walkers s' = st_walkers s /\ st_low s' = st_low s /\ st_iter s' = st_iter s /\
    sl_count (st_samples s') = (sl_count (st_samples s) + n)%nat /\
    sl_items (st_samples s') = sl_items (st_samples s) ++ new /\
    map ns_logL new = map eff (firstn n (st_walkers s)) /\
    map ns_id new = seq (sl_count (st_samples s)) n /\
    map ns_par new = map nw_par (firstn n (st_walkers s)) /\
    map (fun x => ns_logW x - ns_logL x) new = widths N n (st_logWidth s) /\
    st_logWidth s' = st_logWidth s - hsum N n /\
    zexp (st_logZ s') = zexp (st_logZ s) + totW new /\
    ((0 < n)%nat -> st_logZ s' <> None) /\
    zinfo s' = zinfo s + st_low s * totW new.
Proof.
  induction n as [|n IH]; intros s Hn N.
  - exists s, []. unfold updateEvidence, widths, totW. cbn.
    rewrite app_nil_r, Nat.add_0_r. repeat split; auto; try lra. lia.
  - destruct (IH s) as (s1 & new & E & W & Lo & It & Cn & Sm & Nl & Ni & Np & Nw & Wd & Z & Zs & In).
    { lia. }
    fold N in Nw, Wd.
    unfold updateEvidence in *. rewrite seq_S, fold_left_app, E. cbn [fold_left Nat.add update_one].
    rewrite W. destruct (nth_error (st_walkers s) n) as [w|] eqn:K.
    2:{ apply nth_error_None in K. lia. }
    set (lw := st_logWidth s1 + nw_logL w + nw_logPrior w).
    set (x := mkNS (sl_count (st_samples s1)) (nw_id w) (nw_logL w + nw_logPrior w) lw (nw_par w)).
    eexists _, (new ++ [x]). split; [reflexivity|].
    cbn [st_walkers st_low st_iter st_samples sl_add sl_count sl_items st_logWidth st_logZ].
    assert (T : totW (new ++ [x]) = totW new + exp lw).
    { unfold totW. rewrite map_app, sumL_app. simpl. lra. }
    split; [reflexivity|]. split; [exact Lo|]. split; [exact It|].
    split; [rewrite Cn; lia|]. split.
    { rewrite Sm, <- app_assoc. f_equal. }
    split.
    { rewrite (firstn_S_nth _ _ _ K), !map_app, Nl. reflexivity. }
    split.
    { rewrite map_app, Ni, seq_S. cbn [map ns_id x]. rewrite Cn. reflexivity. }
    split.
    { rewrite (firstn_S_nth _ _ _ K), !map_app, Np. reflexivity. }
    split.
    { rewrite map_app, Nw. unfold widths. rewrite seq_S, map_app. f_equal. cbn [map ns_logW ns_logL x Nat.add].
      f_equal. unfold lw. rewrite Wd. lra. }
    split.
    { rewrite Wd. cbn [hsum]. fold N. lra. }
    split.
    { cbn [zexp]. rewrite exp_logaddexp, Z, T. fold lw. lra. }
    split; [intros _; discriminate|].
    unfold zinfo at 1. cbn [st_logZ st_info]. fold lw.
    set (zn := logaddexp (st_logZ s1) lw). rewrite T.
    assert (A : exp zn * exp (lw - zn) = exp lw). { rewrite <- exp_plus. f_equal. lra. }
    transitivity (exp lw * st_low s + zinfo s1).
    + unfold zinfo. destruct (st_logZ s1) as [z|].
      * assert (B : exp zn * exp (z - zn) = exp z). { rewrite <- exp_plus. f_equal. lra. }
        rewrite <- A, <- B, Lo. ring.
      * rewrite <- A, Lo. ring.
    + rewrite In. ring.
Qed.

(** *** Sorting *)
Lemma nins_perm w ws : Permutation (w :: ws) (nins w ws).
Proof.
  induction ws as [|v r IH]; simpl; auto. destruct (Rle_dec _ _); auto.
  eapply perm_trans; [apply perm_swap|]. now constructor.
Qed.
Lemma nsort_perm ws : Permutation ws (nsort ws).
Proof.
  induction ws; simpl; auto. eapply perm_trans; [constructor; exact IHws|]. apply nins_perm.
Qed.
Definition nle (a b : nwalker) : Prop := nw_logL a <= nw_logL b.
Lemma nins_sorted w ws : StronglySorted nle ws -> StronglySorted nle (nins w ws).
Proof.
  induction 1 as [|v r H IH F]; simpl.
  - constructor; constructor.
  - destruct (Rle_dec (nw_logL w) (nw_logL v)) as [L|L].
    + constructor; [constructor; auto|]. constructor; auto.
      eapply Forall_impl; [|exact F]. unfold nle. intros; lra.
    + constructor; auto. eapply Permutation_Forall; [apply nins_perm|].
      constructor; auto. unfold nle. lra.
Qed.
Lemma nsort_sorted ws : StronglySorted nle (nsort ws).
Proof. induction ws; simpl; [constructor|]. now apply nins_sorted. Qed.
Lemma nsort_length ws : length (nsort ws) = length ws.
Proof. symmetry. apply Permutation_length, nsort_perm. Qed.

(** In a sorted list: everything before position k is at most, everything after at least. *)
Lemma sorted_split k : forall ws w, StronglySorted nle ws -> nth_error ws k = Some w ->
  Forall (fun v => nw_logL v <= nw_logL w) (firstn (S k) ws) /\
  Forall (fun v => nw_logL w <= nw_logL v) (skipn k ws).
Proof.
  induction k as [|k IH]; intros ws w S H; destruct ws as [|v r]; try discriminate.
  - simpl in H. injection H as ->. inversion S; subst. split.
    + constructor; [lra|constructor].
    + simpl. constructor; [lra|]. exact H2.
  - inversion S; subst. destruct (IH _ _ H2 H) as [A B]. split.
    + change (firstn (Datatypes.S (Datatypes.S k)) (v :: r)) with (v :: firstn (Datatypes.S k) r).
      constructor; auto. rewrite Forall_forall in H3. apply H3.
      eapply nth_error_In; eauto.
    + exact B.
Qed.

(** *** Copying and exploring *)
Lemma nw_copy_spec ws src des ws' : nw_copy ws src des = Some ws' ->
  exists s d, nth_error ws src = Some s /\ nth_error ws des = Some d /\
    ws' = upd des (mkNW (nw_id d) (nw_logL s) (nw_logPrior s) (nw_par s)) ws.
Proof.
  unfold nw_copy. destruct (nth_error ws src) as [s|]; [|discriminate].
  destruct (nth_error ws des) as [d|]; [|discriminate]. intros H. injection H as <-. eauto 6.
Qed.

Lemma copy_worst_spec kcp n : forall ws ws',
  (forall k, (k < n)%nat -> (n <= kcp k)%nat) ->
  copy_worst kcp n ws = Some ws' ->
  length ws' = length ws /\
  (forall j, (n <= j)%nat -> nth_error ws' j = nth_error ws j) /\
  (forall j, (j < n)%nat -> exists s d,
      nth_error ws (kcp j) = Some s /\ nth_error ws j = Some d /\
      nth_error ws' j = Some (mkNW (nw_id d) (nw_logL s) (nw_logPrior s) (nw_par s))).
Proof.
  intros ws ws' Hk.
  assert (G : forall m ws1, (m <= n)%nat -> copy_worst kcp m ws = Some ws1 ->
    length ws1 = length ws /\
    (forall j, (m <= j)%nat -> nth_error ws1 j = nth_error ws j) /\
    (forall j, (j < m)%nat -> exists s d,
      nth_error ws (kcp j) = Some s /\ nth_error ws j = Some d /\
      nth_error ws1 j = Some (mkNW (nw_id d) (nw_logL s) (nw_logPrior s) (nw_par s)))).
  2:{ intros E. apply (G n ws'); auto. }
  induction m as [|m IH]; intros ws1 Hm E.
  - simpl in E. injection E as <-. repeat split; auto. intros; lia.
  - cbn [copy_worst] in E. destruct (copy_worst kcp m ws) as [ws0|]; [|discriminate].
    destruct (IH ws0) as (L & Hi & Lo); [lia|reflexivity|].
    apply nw_copy_spec in E. destruct E as (s & d & Es & Ed & ->).
    assert (n <= kcp m)%nat by (apply Hk; lia).
    rewrite Hi in Es, Ed by lia.
    split; [rewrite upd_length; auto|]. split.
    + intros j Hj. rewrite upd_nth_other by lia. apply Hi. lia.
    + intros j Hj. destruct (Nat.eq_dec j m) as [->|N].
      * exists s, d. repeat split; auto. apply upd_nth_same.
        rewrite L. apply nth_error_Some. congruence.
      * destruct (Lo j) as (s' & d' & A & B & C); [lia|]. exists s', d'. repeat split; auto.
        rewrite upd_nth_other by lia. exact C.
Qed.

Lemma move_to_id ms : forall w, nw_id (fold_left move_to ms w) = nw_id w.
Proof. induction ms as [|m ms IH]; intros w; simpl; auto. rewrite IH. reflexivity. Qed.
Lemma move_to_prior ms : forall w, nw_logPrior w = 0 -> nw_logPrior (fold_left move_to ms w) = 0.
Proof. induction ms as [|m ms IH]; intros w H; simpl; auto. Qed.

Lemma explore_spec low mv n : forall ws ws',
  explore low mv n ws = Some ws' ->
  length ws' = length ws /\
  (forall j, (n <= j)%nat -> nth_error ws' j = nth_error ws j) /\
  (forall j, (j < n)%nat -> exists d,
      nth_error ws j = Some d /\
      nth_error ws' j = Some (fold_left move_to (mv j) d) /\
      low <= nw_logL (fold_left move_to (mv j) d)).
Proof.
  induction n as [|n IH]; intros ws ws' E.
  - simpl in E. injection E as <-. repeat split; auto. intros; lia.
  - cbn [explore] in E. destruct (explore low mv n ws) as [ws0|] eqn:E0; [|discriminate].
    destruct (IH _ _ E0) as (L & Hi & Lo).
    unfold exploreWalker in E. destruct (nth_error ws0 n) as [d|] eqn:Ed; [|discriminate].
    destruct (Rlt_dec _ _) as [X|X]; [discriminate|]. injection E as <-.
    split; [rewrite upd_length; auto|]. split.
    + intros j Hj. rewrite upd_nth_other by lia. apply Hi. lia.
    + intros j Hj. destruct (Nat.eq_dec j n) as [->|N].
      * exists d. rewrite Hi in Ed by lia. repeat split; auto.
        -- apply upd_nth_same. rewrite L. apply nth_error_Some. congruence.
        -- lra.
      * destruct (Lo j) as (d' & A & B & C); [lia|]. exists d'. repeat split; auto.
        rewrite upd_nth_other by lia. exact B.
Qed.

(** *** One iteration *)
Definition prior0 (ws : list nwalker) : Prop := Forall (fun w => nw_logPrior w = 0) ws.

Lemma valid_kcp_spec worst n kcp : valid_kcp worst n kcp = true ->
  forall k, (k < worst)%nat -> (worst <= kcp k < n)%nat.
Proof.
  unfold valid_kcp. rewrite forallb_forall. intros H k Hk. specialize (H k).
  rewrite in_seq in H. specialize (H ltac:(lia)). apply Bool.andb_true_iff in H.
  destruct H as [A B]. apply Nat.leb_le in A. apply Nat.ltb_lt in B. lia.
Qed.

Lemma iteration_spec worst maxsize o s s' :
  (1 <= worst)%nat -> ns_iteration worst maxsize o s = Some s' ->
  let N := length (st_walkers s) in
  let srt := nsort (st_walkers s) in
  exists wl new sm,
    nth_error srt (worst - 1) = Some wl /\ (worst < N)%nat /\
    st_low s' = nw_logL wl /\ st_iter s' = S (st_iter s) /\
    length (st_walkers s') = N /\
    Permutation (map nw_id (st_walkers s)) (map nw_id (st_walkers s')) /\
    Forall (fun w => nw_logL wl <= nw_logL w) (st_walkers s') /\
    (prior0 (st_walkers s) -> prior0 (st_walkers s')) /\
    (forall j, (worst <= j)%nat -> nth_error (st_walkers s') j = nth_error srt j) /\
    sl_count sm = (sl_count (st_samples s) + worst)%nat /\
    sl_items sm = sl_items (st_samples s) ++ new /\
    st_samples s' = sl_weed maxsize sm /\
    map ns_logL new = map eff (firstn worst srt) /\
    map ns_id new = seq (sl_count (st_samples s)) worst /\
    map (fun x => ns_logW x - ns_logL x) new = widths N worst (st_logWidth s) /\
    st_logWidth s' = st_logWidth s - hsum N worst /\
    zexp (st_logZ s') = zexp (st_logZ s) + totW new /\
    st_logZ s' <> None /\
    zinfo s' = zinfo s + nw_logL wl * totW new.
Proof.
  intros Hw E N srt. unfold ns_iteration in E. fold srt in E.
  assert (Ls : length srt = N) by apply nsort_length.
  destruct (nth_error srt (worst - 1)) as [wl|] eqn:Kw; [|discriminate].
  assert (Hlt : (worst - 1 < length srt)%nat) by (apply nth_error_Some; congruence).
  set (s0 := mkST srt _ _ _ _ _ _ _) in E.
  destruct (updateEvidence_spec worst s0)
    as (s1 & new & E1 & W & Lo & It & Cn & Sm & Nl & Ni & Np & Nw & Wd & Z & Zs & In).
  { cbn. lia. }
  cbn [s0 st_walkers st_low st_iter st_samples st_logWidth st_logZ] in *.
  rewrite E1 in E. rewrite Ls in E, Nw, Wd.
  destruct (valid_kcp worst N (o_kcp o)) eqn:V; [|discriminate].
  pose proof (valid_kcp_spec _ _ _ V) as V'.
  destruct (copy_worst (o_kcp o) worst (st_walkers s1)) as [ws1|] eqn:Ec; [|discriminate].
  destruct (explore (nw_logL wl) (o_moves o) worst ws1) as [ws2|] eqn:Ee; [|discriminate].
  injection E as <-. cbn [st_walkers st_low st_iter st_samples st_logWidth st_logZ].
  rewrite W in Ec. 
  destruct (copy_worst_spec _ _ _ _ (fun k Hk => proj1 (V' k Hk)) Ec) as (Lc & Hc & Cc).
  destruct (explore_spec _ _ _ _ _ Ee) as (Le & He & Ce).
  destruct (sorted_split _ _ _ (nsort_sorted (st_walkers s)) Kw) as [S1 S2].
  exists wl, new, (st_samples s1). split; [reflexivity|]. split.
  { specialize (V' 0%nat). lia. }
  split; [exact Lo|]. split; [congruence|]. split; [congruence|].
  assert (Hhi : forall j, (worst <= j)%nat -> nth_error ws2 j = nth_error srt j).
  { intros j Hj. rewrite He, Hc; auto. }
  split.
  { eapply perm_trans; [apply Permutation_map; apply nsort_perm|].
    assert (X : map nw_id srt = map nw_id ws2); [|fold srt; rewrite X; reflexivity].
    apply nth_ext with (d := 0%nat) (d' := 0%nat); [rewrite !map_length; congruence|].
    intros j Hj. rewrite map_length in Hj.
    apply nth_error_nth. 
    destruct (Nat.lt_ge_cases j worst) as [L|L].
    - destruct (Ce j L) as (d & D1 & D2 & _). destruct (Cc j L) as (sx & dx & X1 & X2 & X3).
      rewrite X3 in D1. injection D1 as <-.
      erewrite map_nth_error by exact X2. f_equal.
      symmetry. erewrite nth_error_nth; [|erewrite map_nth_error by exact D2; reflexivity].
      now rewrite move_to_id.
    - destruct (nth_error srt j) as [w|] eqn:Kj; [|apply nth_error_None in Kj; lia].
      erewrite map_nth_error by exact Kj. f_equal. symmetry. apply nth_error_nth.
      erewrite map_nth_error; [reflexivity|]. rewrite Hhi; auto. }
  split.
  { apply Forall_forall. intros w Hin. apply In_nth_error in Hin. destruct Hin as [j Hj].
    destruct (Nat.lt_ge_cases j worst) as [L|L].
    - destruct (Ce j L) as (d & D1 & D2 & D3). rewrite D2 in Hj. injection Hj as <-. exact D3.
    - rewrite Hhi in Hj by auto. rewrite Forall_forall in S2. apply S2.
      assert (Hj' : nth_error (skipn (worst - 1) srt) (j - (worst - 1)) = Some w).
      { rewrite <- (firstn_skipn (worst - 1) srt) in Hj.
        rewrite nth_error_app2 in Hj; rewrite firstn_length_le in * by lia; [exact Hj|lia]. }
      eapply nth_error_In; eauto. }
  split.
  { intros P0. assert (Ps : prior0 srt) by (eapply Permutation_Forall; [apply nsort_perm|exact P0]).
    apply Forall_forall. intros w Hin. apply In_nth_error in Hin. destruct Hin as [j Hj].
    unfold prior0 in Ps. rewrite Forall_forall in Ps.
    destruct (Nat.lt_ge_cases j worst) as [L|L].
    - destruct (Ce j L) as (d & D1 & D2 & D3). rewrite D2 in Hj. injection Hj as <-.
      destruct (Cc j L) as (sx & dx & X1 & X2 & X3). rewrite X3 in D1. injection D1 as <-.
      apply move_to_prior. cbn. apply Ps. eapply nth_error_In; eauto.
    - rewrite Hhi in Hj by auto. apply Ps. eapply nth_error_In; eauto. }
  repeat split; auto; try (apply Zs; lia).
Qed.

(** *** Weeding removes from the ends only *)
Lemma removelast_last {A} (l : list A) d : l <> [] -> l = removelast l ++ [last l d].
Proof. intros. now apply app_removelast_last. Qed.

Lemma weed_loop_spec m : forall fuel l, (length l <= fuel)%nat ->
  (exists a b, l = a ++ weed_loop fuel m l ++ b) /\
  length (weed_loop fuel m l) = Nat.min m (length l).
Proof.
  induction fuel as [|f IH]; intros l Hl.
  - destruct l; simpl in *; [|lia]. split; [exists [], []; reflexivity|lia].
  - cbn [weed_loop]. destruct (m <? length l)%nat eqn:E.
    + apply Nat.ltb_lt in E. destruct l as [|a r]; [simpl in E; lia|].
      destruct (Rlt_dec _ _).
      * destruct (IH r) as [(x & y & X) L]; [simpl in Hl; lia|]. split.
        -- exists (a :: x), y. simpl. now rewrite <- X.
        -- rewrite L. cbn [length] in *. lia.
      * assert (Lr : length (removelast (a :: r)) = length r).
        { pose proof (removelast_last (a :: r) a ltac:(discriminate)) as Q.
          apply (f_equal (@length _)) in Q. rewrite app_length in Q. cbn [length] in Q. lia. }
        destruct (IH (removelast (a :: r))) as [(x & y & X) L]; [simpl in Hl; lia|]. split.
        -- exists x, (y ++ [last (a :: r) a]).
           rewrite (removelast_last (a :: r) a) at 1 by discriminate.
           rewrite X at 1. now rewrite <- !app_assoc.
        -- rewrite L, Lr. cbn [length] in *. lia.
    + apply Nat.ltb_ge in E. split; [exists [], []; simpl; now rewrite app_nil_r|lia].
Qed.

Lemma sl_weed_sub mx s : exists a b, sl_items s = a ++ sl_items (sl_weed mx s) ++ b.
Proof.
  destruct mx as [m|]; simpl.
  - apply weed_loop_spec. lia.
  - exists [], []. simpl. now rewrite app_nil_r.
Qed.
Lemma sl_weed_count mx s : sl_count (sl_weed mx s) = sl_count s.
Proof. now destruct mx. Qed.
Lemma sl_weed_length m s : (length (sl_items (sl_weed (Some m) s)) = Nat.min m (length (sl_items s)))%nat.
Proof. simpl. apply weed_loop_spec. lia. Qed.

Lemma in_sub {A} (a b l m : list A) x : l = a ++ m ++ b -> In x m -> In x l.
Proof. intros ->. rewrite !in_app_iff. auto. Qed.

Lemma SS_app {A} (le : A -> A -> Prop) l1 l2 :
  StronglySorted le (l1 ++ l2) <->
  StronglySorted le l1 /\ StronglySorted le l2 /\ (forall a b, In a l1 -> In b l2 -> le a b).
Proof.
  induction l1 as [|x l1 IH]; simpl.
  - split; [intros H; repeat split; auto; try constructor; intros ? ? []|intros (_ & H & _); exact H].
  - split.
    + intros H. inversion H as [|? ? H1 H2]; subst. apply IH in H1. destruct H1 as (A1 & A2 & A3).
      apply Forall_app in H2. destruct H2 as [B1 B2]. rewrite Forall_forall in B2. repeat split; auto.
      * constructor; auto.
      * intros a b [<-|Ha] Hb; auto.
    + intros (H1 & H2 & H3). inversion H1; subst. constructor.
      * apply IH. repeat split; auto.
      * apply Forall_app. split; auto. apply Forall_forall. auto.
Qed.

Definition rsorted (l : list R) : Prop := StronglySorted Rle l.

(** *** The invariant of the loop *)
Definition climb_inv (s : nstate) : Prop :=
  Forall (fun w => st_low s <= nw_logL w) (st_walkers s) /\
  prior0 (st_walkers s) /\
  rsorted (map ns_logL (sl_items (st_samples s))) /\
  Forall (fun x => ns_logL x <= st_low s) (sl_items (st_samples s)).

Lemma eff_prior0 ws : prior0 ws -> map eff ws = map nw_logL ws.
Proof. intros H. apply map_ext_in. intros w Hw. unfold prior0 in H. rewrite Forall_forall in H.
  unfold eff. rewrite (H w Hw). lra. Qed.

Lemma Forall_firstn {A} (P : A -> Prop) n l : Forall P l -> Forall P (firstn n l).
Proof. intros H. rewrite <- (firstn_skipn n l) in H. now apply Forall_app in H. Qed.

Lemma SS_map {A B} (f : A -> B) (le : B -> B -> Prop) l :
  StronglySorted (fun a b => le (f a) (f b)) l -> StronglySorted le (map f l).
Proof. induction 1; simpl; constructor; auto. now rewrite Forall_map. Qed.

Lemma SS_firstn {A} (le : A -> A -> Prop) n l : StronglySorted le l -> StronglySorted le (firstn n l).
Proof. intros H. rewrite <- (firstn_skipn n l) in H. now apply SS_app in H. Qed.

Lemma climb_step worst mx o s s' : (1 <= worst)%nat -> climb_inv s ->
  ns_iteration worst mx o s = Some s' ->
  climb_inv s' /\ length (st_walkers s') = length (st_walkers s) /\ st_low s <= st_low s'.
Proof.
  intros Hw (I1 & I2 & I3 & I4) E. apply iteration_spec in E; auto.
  destruct E as (wl & new & sm & Kw & Lt & Lo & It & Ln & Pid & Fw & P0 & Hi & Cn & Sm & Wd
                 & Nl & Ni & Nw & _).
  assert (Pws : Permutation (st_walkers s) (nsort (st_walkers s))) by apply nsort_perm.
  assert (Hlow : st_low s <= nw_logL wl).
  { rewrite Forall_forall in I1. apply I1. eapply Permutation_in; [apply Permutation_sym; exact Pws|].
    eapply nth_error_In; eauto. }
  destruct (sorted_split _ _ _ (nsort_sorted _) Kw) as [S1 _].
  replace (S (worst - 1)) with worst in S1 by lia.
  assert (Pf : prior0 (nsort (st_walkers s))) by (eapply Permutation_Forall; eauto).
  assert (Nl' : map ns_logL new = map nw_logL (firstn worst (nsort (st_walkers s)))).
  { rewrite Nl. apply eff_prior0. now apply Forall_firstn. }
  assert (Hnew : Forall (fun v => st_low s <= v <= nw_logL wl) (map ns_logL new)).
  { rewrite Nl'. rewrite Forall_map. apply Forall_forall. intros w Hin. split.
    - rewrite Forall_forall in I1. apply I1. eapply Permutation_in; [apply Permutation_sym; exact Pws|].
      rewrite <- (firstn_skipn worst (nsort _)). apply in_app_iff. now left.
    - rewrite Forall_forall in S1. now apply S1. }
  assert (Sall : rsorted (map ns_logL (sl_items sm))).
  { rewrite Sm, map_app. apply SS_app. split; [exact I3|]. split.
    - rewrite Nl'. apply SS_map. apply (SS_firstn nle). apply nsort_sorted.
    - intros a b Ha Hb. rewrite Forall_forall in Hnew. apply in_map_iff in Ha.
      destruct Ha as (x & <- & Hx). rewrite Forall_forall in I4. specialize (I4 x Hx).
      specialize (Hnew b Hb). lra. }
  destruct (sl_weed_sub mx sm) as (a & b & Sub).
  split; [|split; [exact Ln|rewrite Lo; exact Hlow]].
  split; [|split; [|split]].
  - rewrite Lo. exact Fw.
  - auto.
  - rewrite Wd. rewrite Sub, !map_app in Sall. apply SS_app in Sall. destruct Sall as (_ & Sall & _).
    now apply SS_app in Sall.
  - rewrite Lo, Wd. apply Forall_forall. intros x Hx. eapply in_sub in Hx; [|exact Sub].
    rewrite Sm in Hx. apply in_app_iff in Hx. destruct Hx as [Hx|Hx].
    + rewrite Forall_forall in I4. specialize (I4 x Hx). lra.
    + rewrite Forall_forall in Hnew. specialize (Hnew (ns_logL x)). apply Hnew. now apply in_map.
Qed.

Lemma ns_run_none worst mx os : fold_left (ns_step worst mx) os None = None.
Proof. induction os; simpl; auto. Qed.
Lemma ns_run_cons worst mx o os s s' : ns_run worst mx (o :: os) s = Some s' ->
  exists s1, ns_iteration worst mx o s = Some s1 /\ ns_run worst mx os s1 = Some s'.
Proof.
  unfold ns_run. cbn [fold_left ns_step]. destruct (ns_iteration worst mx o s) as [s1|].
  - eauto.
  - rewrite ns_run_none. discriminate.
Qed.
Lemma ns_run_app worst mx os1 os2 s s' : ns_run worst mx (os1 ++ os2) s = Some s' ->
  exists s1, ns_run worst mx os1 s = Some s1 /\ ns_run worst mx os2 s1 = Some s'.
Proof.
  unfold ns_run. rewrite fold_left_app. destruct (fold_left _ os1 _) as [s1|].
  - eauto.
  - rewrite ns_run_none. discriminate.
Qed.

Lemma climb_run worst mx os : forall s s', (1 <= worst)%nat -> climb_inv s ->
  ns_run worst mx os s = Some s' ->
  climb_inv s' /\ length (st_walkers s') = length (st_walkers s) /\ st_low s <= st_low s' /\
  st_iter s' = (st_iter s + length os)%nat.
Proof.
  induction os as [|o os IH]; intros s s' Hw I E.
  - injection E as <-. repeat split; try apply I. lra. simpl; lia.
  - apply ns_run_cons in E. destruct E as (s1 & E1 & E).
    destruct (climb_step _ _ _ _ _ Hw I E1) as (I1 & L1 & Lo1).
    destruct (IH _ _ Hw I1 E) as (I2 & L2 & Lo2 & It2).
    apply iteration_spec in E1; auto. destruct E1 as (_ & _ & _ & _ & _ & _ & It1 & _).
    repeat split; try apply I2; try congruence; try lra. simpl length. lia.
Qed.

(** After the loop the remaining walkers are added; they all lie at or above the last limit. *)
Lemma climb_collect s s' : climb_inv s -> ns_collect s = Some s' ->
  exists new, sl_items (st_samples s') = sl_items (st_samples s) ++ new /\
    Permutation (map ns_logL new) (map nw_logL (st_walkers s)) /\
    (forall a b, In a (sl_items (st_samples s)) -> In b new -> ns_logL a <= ns_logL b).
Proof.
  intros (I1 & I2 & I3 & I4) E. unfold ns_collect in E.
  destruct (updateEvidence_spec (length (st_walkers s)) s (le_n _))
    as (s1 & new & E1 & W & Lo & It & Cn & Sm & Nl & Ni & Np & Nw & Wd & Z & Zs & Inf).
  rewrite E1 in E. injection E as <-. exists new. split; [exact Sm|].
  rewrite firstn_all in Nl. rewrite eff_prior0 in Nl by auto. split; [now rewrite Nl|].
  intros a b Ha Hb. rewrite Forall_forall in I4. specialize (I4 a Ha).
  assert (X : In (ns_logL b) (map nw_logL (st_walkers s))) by (rewrite <- Nl; now apply in_map).
  apply in_map_iff in X. destruct X as (w & <- & Hw). rewrite Forall_forall in I1.
  specialize (I1 w Hw). lra.
Qed.

(** *** Evidence *)
Lemma totW_app a b : totW (a ++ b) = totW a + totW b.
Proof. unfold totW. now rewrite map_app, sumL_app. Qed.

Lemma evidence_run worst os : forall s s', (1 <= worst)%nat ->
  zexp (st_logZ s) = totW (sl_items (st_samples s)) ->
  ns_run worst None os s = Some s' ->
  zexp (st_logZ s') = totW (sl_items (st_samples s')).
Proof.
  induction os as [|o os IH]; intros s s' Hw I E.
  - now injection E as <-.
  - apply ns_run_cons in E. destruct E as (s1 & E1 & E). apply (IH s1); auto.
    apply iteration_spec in E1; auto.
    destruct E1 as (wl & new & sm & Kw & Lt & Lo & It & Ln & Pid & Fw & P0 & Hi & Cn & Sm & Wd
                 & Nl & Ni & Nw & Wdt & Z & _).
    rewrite Z, I. simpl in Wd. rewrite Wd, Sm, totW_app. reflexivity.
Qed.

Lemma evidence_collect s s' :
  zexp (st_logZ s) = totW (sl_items (st_samples s)) -> ns_collect s = Some s' ->
  zexp (st_logZ s') = totW (sl_items (st_samples s')).
Proof.
  intros I E. unfold ns_collect in E.
  destruct (updateEvidence_spec (length (st_walkers s)) s (le_n _))
    as (s1 & new & E1 & W & Lo & It & Cn & Sm & Nl & Ni & Np & Nw & Wd & Z & Zs & Inf).
  rewrite E1 in E. injection E as <-. rewrite Z, I, Sm, totW_app. reflexivity.
Qed.

Lemma ns_collect_total s : exists s', ns_collect s = Some s'.
Proof.
  destruct (updateEvidence_spec (length (st_walkers s)) s (le_n _)) as (s1 & new & E1 & _).
  exists s1. exact E1.
Qed.

(** Weeding has no influence on anything but the sample list. *)
Definition same_but_samples (a b : nstate) : Prop :=
  st_walkers a = st_walkers b /\ st_logZ a = st_logZ b /\ st_info a = st_info b /\
  st_logWidth a = st_logWidth b /\ st_low a = st_low b /\ st_iter a = st_iter b /\
  st_logdZ a = st_logdZ b.

Definition same_opt (a b : option nstate) : Prop :=
  match a, b with
  | Some x, Some y => same_but_samples x y
  | None, None => True
  | _, _ => False
  end.

Lemma update_one_same a b k : same_opt a b -> same_opt (update_one a k) (update_one b k).
Proof.
  destruct a as [a|], b as [b|]; simpl; auto; try contradiction.
  intros (E1 & E2 & E3 & E4 & E5 & E6 & E7). rewrite E1.
  destruct (nth_error (st_walkers b) k); simpl; auto.
  unfold same_but_samples. cbn. rewrite E2, E3, E4, E5, E6. repeat split.
Qed.
Lemma updateEvidence_same n a b : same_opt a b -> same_opt (updateEvidence n a) (updateEvidence n b).
Proof.
  unfold updateEvidence. generalize (seq 0 n). intros l. revert a b.
  induction l as [|k l IH]; intros a b H; simpl; auto. apply IH. now apply update_one_same.
Qed.
Lemma iteration_same worst m1 m2 o a b : same_but_samples a b ->
  same_opt (ns_iteration worst m1 o a) (ns_iteration worst m2 o b).
Proof.
  intros (E1 & E2 & E3 & E4 & E5 & E6 & E7). unfold ns_iteration. rewrite E1.
  destruct (nth_error (nsort (st_walkers b)) (worst - 1)) as [wl|]; [|exact I].
  match goal with |- same_opt (match ?x with _ => _ end) (match ?y with _ => _ end) =>
    assert (H : same_opt x y) end.
  { apply updateEvidence_same. simpl. unfold same_but_samples. cbn.
    rewrite E2, E3, E4, E6, E7. repeat split. }
  destruct (updateEvidence worst _) as [x|], (updateEvidence worst _) as [y|]; simpl in H; try contradiction; [|exact I].
  destruct (valid_kcp _ _ _); [|exact I].
  destruct H as (F1 & F2 & F3 & F4 & F5 & F6 & F7). rewrite F1.
  destruct (copy_worst _ _ _); [|exact I]. destruct (explore _ _ _ _); [|exact I].
  simpl. unfold same_but_samples. cbn. rewrite F2, F3, F4, F5, F6, F7. repeat split.
Qed.
Lemma run_same worst m1 m2 os : forall a b, same_but_samples a b ->
  same_opt (ns_run worst m1 os a) (ns_run worst m2 os b).
Proof.
  unfold ns_run. assert (G : forall a b, same_opt a b ->
    same_opt (fold_left (ns_step worst m1) os a) (fold_left (ns_step worst m2) os b)).
  { induction os as [|o os IH]; intros a b H; simpl; auto. apply IH.
    destruct a, b; simpl in *; auto; try contradiction. now apply iteration_same. }
  intros a b H. now apply G.
Qed.

(** *** Normalisation *)
Lemma totW_pos l : l <> [] -> 0 < totW l.
Proof.
  unfold totW. destruct l as [|x l]; [congruence|]. intros _. simpl.
  assert (0 <= sumL (map (fun x => exp (ns_logW x)) l)).
  { induction l; simpl; [lra|]. pose proof (exp_pos (ns_logW a)). lra. }
  pose proof (exp_pos (ns_logW x)). lra.
Qed.
Lemma sumL_scale c l : sumL (map (fun x => c * x) l) = c * sumL l.
Proof. induction l; simpl; lra. Qed.

Lemma sl_normalize_spec s : sl_items s <> [] ->
  exists logZ, exp logZ = totW (sl_items s) /\
    sl_items (sl_normalize s) =
    map (fun x => mkNS (ns_id x) (ns_parent x) (ns_logL x) (ns_logW x - logZ) (ns_par x)) (sl_items s).
Proof.
  intros H. unfold sl_normalize. cbn [sl_items].
  set (lmax := match map ns_logW (sl_items s) with [] => 0 | x :: r => maxL x r end).
  set (t := sumL (map (fun x => exp (x - lmax)) (map ns_logW (sl_items s)))).
  assert (Et : t = exp (- lmax) * totW (sl_items s)).
  { unfold t, totW. rewrite map_map. rewrite <- sumL_scale, map_map. f_equal. apply map_ext.
    intros x. rewrite <- exp_plus. f_equal. lra. }
  exists (lmax + ln t). split; [|reflexivity].
  rewrite exp_plus, exp_ln.
  - rewrite Et, <- Rmult_assoc, <- exp_plus. replace (lmax + - lmax) with 0 by lra. rewrite exp_0. lra.
  - rewrite Et. apply Rmult_lt_0_compat; [apply exp_pos|]. now apply totW_pos.
Qed.

Lemma sl_normalize_one s : sl_items s <> [] -> totW (sl_items (sl_normalize s)) = 1.
Proof.
  intros H. destruct (sl_normalize_spec s H) as (z & Z & E). rewrite E. unfold totW. rewrite map_map.
  cbn [ns_logW]. transitivity (exp (- z) * totW (sl_items s)).
  - unfold totW. rewrite <- sumL_scale, map_map. f_equal. apply map_ext. intros x.
    rewrite <- exp_plus. f_equal. lra.
  - rewrite <- Z, <- exp_plus. replace (- z + z) with 0 by lra. apply exp_0.
Qed.

(** *** Prior mass *)
Definition mass (l : list nsample) : R := sumL (map (fun x => exp (ns_logW x - ns_logL x)) l).
Definition unitwidth (N : nat) : R := 1 - exp (- 1 / INR N).

Lemma unitwidth_pos N : (1 <= N)%nat -> 0 < unitwidth N.
Proof.
  intros H. unfold unitwidth. apply le_INR in H. simpl in H.
  assert (exp (-1 / INR N) < exp 0).
  { apply exp_increasing. unfold Rdiv. assert (0 < / INR N) by (apply Rinv_0_lt_compat; lra). lra. }
  rewrite exp_0 in H0. lra.
Qed.

Lemma mass_app a b : mass (a ++ b) = mass a + mass b.
Proof. unfold mass. now rewrite map_app, sumL_app. Qed.
Lemma mass_widths l ws : map (fun x => ns_logW x - ns_logL x) l = ws -> mass l = sumL (map exp ws).
Proof. intros <-. unfold mass. now rewrite map_map. Qed.

Lemma hsum_step N k : (k < N)%nat -> exp (- hsum N (S k)) <= exp (- hsum N k) * exp (- 1 / INR N).
Proof.
  intros H. rewrite <- exp_plus. cbn [hsum].
  assert (0 < INR N - INR k). { apply lt_INR in H. lra. }
  assert (1 / INR N <= 1 / (INR N - INR k)).
  { unfold Rdiv. rewrite !Rmult_1_l. apply Rinv_le_contravar; auto. pose proof (pos_INR k). lra. }
  destruct (Req_dec (- (hsum N k + 1 / (INR N - INR k))) (- hsum N k + -1 / INR N)) as [->|Ne]; [lra|].
  left. apply exp_increasing. replace (-1 / INR N) with (- (1 / INR N)) in * by (unfold Rdiv; lra). lra.
Qed.

Lemma widths_mass_le N n w : (n <= N)%nat ->
  unitwidth N * sumL (map exp (widths N n w)) <= unitwidth N * 0 + unitwidth N * sumL (map exp (widths N n w)).
Proof. intros. lra. Qed.

Lemma widths_sum N X : forall n, (n <= N)%nat -> 0 < X -> (1 <= N)%nat ->
  sumL (map exp (widths N n (ln (X * unitwidth N)))) <= X - X * exp (- hsum N n).
Proof.
  intros n Hn HX HN. pose proof (unitwidth_pos N HN) as U.
  induction n as [|n IH].
  - simpl. rewrite Ropp_0, exp_0. lra.
  - unfold widths in *. rewrite seq_S, !map_app, sumL_app. cbn [map sumL Nat.add].
    specialize (IH ltac:(lia)).
    assert (E : exp (ln (X * unitwidth N) - hsum N n) = X * unitwidth N * exp (- hsum N n)).
    { unfold Rminus. rewrite exp_plus, exp_ln; auto. now apply Rmult_lt_0_compat. }
    rewrite E. pose proof (hsum_step N n ltac:(lia)) as S.
    assert (X * exp (- hsum N (Datatypes.S n)) <= X * (exp (- hsum N n) * exp (-1 / INR N))).
    { apply Rmult_le_compat_l; lra. }
    unfold unitwidth in *. nra.
Qed.

(** One discard per iteration: equality. *)
Lemma widths_sum_one N X : 0 < X -> (1 <= N)%nat ->
  sumL (map exp (widths N 1 (ln (X * unitwidth N)))) = X - X * exp (- hsum N 1).
Proof.
  intros HX HN. pose proof (unitwidth_pos N HN) as U.
  cbn. rewrite Rminus_0_r, exp_ln by now apply Rmult_lt_0_compat.
  unfold unitwidth. replace (- (0 + 1 / (INR N - 0))) with (- 1 / INR N); [ring|].
  unfold Rdiv. rewrite Rminus_0_r. lra.
Qed.

Definition mass_left (s : nstate) : R := exp (st_logWidth s) / unitwidth (length (st_walkers s)).

Lemma mass_left_width s : (1 <= length (st_walkers s))%nat ->
  0 < mass_left s /\ st_logWidth s = ln (mass_left s * unitwidth (length (st_walkers s))).
Proof.
  intros H. pose proof (unitwidth_pos _ H) as U. unfold mass_left.
  pose proof (exp_pos (st_logWidth s)) as P. split.
  - apply Rdiv_lt_0_compat; lra.
  - unfold Rdiv. rewrite Rmult_assoc, Rinv_l by lra. rewrite Rmult_1_r. now rewrite ln_exp.
Qed.

Lemma mass_step worst o s s' : (1 <= worst)%nat -> ns_iteration worst None o s = Some s' ->
  length (st_walkers s') = length (st_walkers s) /\
  mass_left s' = mass_left s * exp (- hsum (length (st_walkers s)) worst) /\
  mass (sl_items (st_samples s')) <= mass (sl_items (st_samples s)) + mass_left s - mass_left s' /\
  (worst = 1%nat ->
   mass (sl_items (st_samples s')) = mass (sl_items (st_samples s)) + mass_left s - mass_left s').
Proof.
  intros Hw E. apply iteration_spec in E; auto.
  destruct E as (wl & new & sm & Kw & Lt & Lo & It & Ln & Pid & Fw & P0 & Hi & Cn & Sm & Wd
                 & Nl & Ni & Nw & Wdt & Z & _).
  simpl in Wd. split; [exact Ln|].
  set (N := length (st_walkers s)) in *.
  assert (HN : (1 <= N)%nat) by lia.
  destruct (mass_left_width s HN) as [MP MW]. fold N in MW.
  assert (M' : mass_left s' = mass_left s * exp (- hsum N worst)).
  { unfold mass_left. fold N. rewrite Ln, Wdt. unfold Rminus. rewrite exp_plus. unfold Rdiv. ring. }
  split; [exact M'|]. rewrite Wd, Sm, mass_app, (mass_widths _ _ Nw), MW, M'. split.
  - pose proof (widths_sum N (mass_left s) worst ltac:(lia) MP HN). lra.
  - intros ->. rewrite widths_sum_one by auto. ring.
Qed.

Lemma mass_run worst os : forall s s', (1 <= worst)%nat -> (1 <= length (st_walkers s))%nat ->
  ns_run worst None os s = Some s' ->
  length (st_walkers s') = length (st_walkers s) /\
  mass_left s' = mass_left s * exp (- (INR (length os) * hsum (length (st_walkers s)) worst)) /\
  mass (sl_items (st_samples s')) <= mass (sl_items (st_samples s)) + mass_left s - mass_left s' /\
  (worst = 1%nat ->
   mass (sl_items (st_samples s')) = mass (sl_items (st_samples s)) + mass_left s - mass_left s').
Proof.
  induction os as [|o os IH]; intros s s' Hw HN E.
  - injection E as <-. simpl. rewrite Rmult_0_l, Ropp_0, exp_0. repeat split; lra.
  - apply ns_run_cons in E. destruct E as (s1 & E1 & E).
    destruct (mass_step _ _ _ _ Hw E1) as (L1 & M1 & A1 & B1).
    destruct (IH s1 s' Hw ltac:(lia) E) as (L2 & M2 & A2 & B2).
    split; [congruence|]. split; [|split].
    + rewrite M2, M1, L1. rewrite Rmult_assoc, <- exp_plus. f_equal. f_equal.
      change (length (o :: os)) with (S (length os)). rewrite S_INR. ring.
    + lra.
    + intros W. rewrite (B2 W), (B1 W). ring.
Qed.

Lemma ns_start_mass ws low : (1 <= length ws)%nat ->
  mass_left (ns_start ws low) = 1 /\ mass (sl_items (st_samples (ns_start ws low))) = 0.
Proof.
  intros H. pose proof (unitwidth_pos _ H) as U. split; [|reflexivity].
  unfold mass_left. cbn [ns_start st_logWidth st_walkers].
  fold (unitwidth (length ws)). rewrite exp_ln by auto. field. lra.
Qed.

(** The remaining walkers get about half of the remaining mass. *)
Lemma exp_hsum_le N k : (k < N)%nat ->
  exp (- hsum N k) <= (INR N - INR k + 1) / (INR N + 1).
Proof.
  induction k as [|k IH]; intros H.
  - simpl. rewrite Ropp_0, exp_0. pose proof (pos_INR N). apply Req_le. field. lra.
  - specialize (IH ltac:(lia)). cbn [hsum].
    assert (P : 0 < INR N - INR k). { assert (k < N)%nat as Q by lia. apply lt_INR in Q. lra. }
    set (m := INR N - INR k) in *. pose proof (pos_INR N).
    replace (- (hsum N k + 1 / m)) with (- hsum N k + - (1 / m)) by lra. rewrite exp_plus.
    assert (E : exp (- (1 / m)) <= m / (m + 1)).
    { rewrite exp_Ropp. assert (1 + 1 / m <= exp (1 / m)).
      { pose proof (exp_ineq1_le (1 / m)). lra. }
      assert (0 < 1 / m) by (apply Rdiv_lt_0_compat; lra).
      replace (m / (m + 1)) with (/ (1 + 1 / m)) by (field; lra).
      apply Rinv_le_contravar; lra. }
    rewrite S_INR. replace (INR N - (INR k + 1) + 1) with m by (unfold m; ring).
    apply Rle_trans with ((m + 1) / (INR N + 1) * (m / (m + 1))).
    + apply Rmult_le_compat; auto; left; apply exp_pos.
    + apply Req_le. field. lra.
Qed.

Lemma widths_half N w : (1 <= N)%nat -> forall n, (n <= N)%nat ->
  sumL (map exp (widths N n w)) <=
  exp w * (INR n * (2 * INR N - INR n + 3) / (2 * (INR N + 1))).
Proof.
  intros HN. induction n as [|n IH]; intros Hn.
  - simpl. apply Req_le. unfold Rdiv. ring.
  - unfold widths in *. rewrite seq_S, !map_app, sumL_app. cbn [map sumL Nat.add].
    specialize (IH ltac:(lia)). pose proof (exp_hsum_le N n ltac:(lia)) as H.
    unfold Rminus at 2. rewrite exp_plus. pose proof (exp_pos w) as Pw. pose proof (pos_INR N).
    assert (exp w * exp (- hsum N n) <= exp w * ((INR N - INR n + 1) / (INR N + 1))).
    { apply Rmult_le_compat_l; lra. }
    rewrite Rplus_0_r. eapply Rle_trans; [apply Rplus_le_compat; [exact IH|exact H1]|].
    rewrite <- Rmult_plus_distr_l. apply Rmult_le_compat_l; [lra|]. rewrite S_INR.
    apply Req_le. field. lra.
Qed.

Lemma unitwidth_le N : (1 <= N)%nat -> unitwidth N <= 1 / INR N.
Proof.
  intros H. unfold unitwidth. pose proof (exp_ineq1_le (-1 / INR N)).
  replace (1 / INR N) with (- (-1 / INR N)) by (unfold Rdiv; lra). lra.
Qed.

Lemma final_mass s s' : (1 <= length (st_walkers s))%nat -> ns_collect s = Some s' ->
  let N := length (st_walkers s) in
  mass (sl_items (st_samples s')) <= mass (sl_items (st_samples s)) + mass_left s /\
  mass (sl_items (st_samples s')) <=
    mass (sl_items (st_samples s)) + mass_left s * ((INR N + 3) / (2 * (INR N + 1))).
Proof.
  intros HN E N. unfold ns_collect in E.
  destruct (updateEvidence_spec (length (st_walkers s)) s (le_n _))
    as (s1 & new & E1 & W & Lo & It & Cn & Sm & Nl & Ni & Np & Nw & Wd & Z & Zs & Inf).
  rewrite E1 in E. injection E as <-. fold N in Nw. fold N in HN.
  destruct (mass_left_width s HN) as [MP MW]. fold N in MW.
  rewrite Sm, mass_app, (mass_widths _ _ Nw). split.
  - pose proof (widths_sum N (mass_left s) N (le_n _) MP HN) as H. rewrite <- MW in H.
    pose proof (exp_pos (- hsum N N)). nra.
  - pose proof (widths_half N (st_logWidth s) HN N (le_n _)) as H.
    assert (1 <= INR N). { apply le_INR in HN. exact HN. }
    assert (exp (st_logWidth s) <= mass_left s * (1 / INR N)).
    { rewrite MW, exp_ln by (apply Rmult_lt_0_compat; [auto|now apply unitwidth_pos]).
      apply Rmult_le_compat_l; [lra|]. now apply unitwidth_le. }
    apply Rplus_le_compat_l. eapply Rle_trans; [exact H|].
    apply Rle_trans with (mass_left s * (1 / INR N) * (INR N * (2 * INR N - INR N + 3) / (2 * (INR N + 1)))).
    + apply Rmult_le_compat_r; auto. unfold Rdiv. apply Rmult_le_pos.
      * nra.
      * left. apply Rinv_0_lt_compat. lra.
    + apply Req_le. field. lra.
Qed.

(** Width of the k-th sample when one walker is discarded per iteration. *)
Lemma width_sequence os : forall s s', (1 <= length (st_walkers s))%nat ->
  ns_run 1 None os s = Some s' ->
  map (fun x => ns_logW x - ns_logL x) (sl_items (st_samples s')) =
  map (fun x => ns_logW x - ns_logL x) (sl_items (st_samples s)) ++
  map (fun k => st_logWidth s - INR k / INR (length (st_walkers s))) (seq 0 (length os)).
Proof.
  induction os as [|o os IH]; intros s s' HN E.
  - injection E as <-. simpl. now rewrite app_nil_r.
  - apply ns_run_cons in E. destruct E as (s1 & E1 & E).
    apply iteration_spec in E1; [|lia].
    destruct E1 as (wl & new & sm & Kw & Lt & Lo & It & Ln & Pid & Fw & P0 & Hi & Cn & Sm & Wd
                 & Nl & Ni & Nw & Wdt & Z & _).
    simpl in Wd. rewrite (IH s1 s') by (congruence || auto; lia).
    rewrite Wd, Sm, map_app, Nw, <- app_assoc. f_equal.
    unfold widths. cbn [seq map app length]. f_equal.
    { cbn. unfold Rdiv. ring. }
    rewrite <- seq_shift, map_map. apply map_ext. intros k. rewrite Ln, Wdt. cbn [hsum].
    rewrite S_INR. cbn [INR]. rewrite Rminus_0_r. unfold Rdiv. ring.
Qed.
