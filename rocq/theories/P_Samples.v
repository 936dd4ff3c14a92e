(** Proofs about SampleList. *)
From Coq Require Import List Arith Reals Lia Lra Sorted Permutation.
From Verif Require Import M_Order M_Nested P_Order P_Nested.
Import ListNotations.
Local Open Scope R_scope.

(** *** Identities *)
Inductive sl_event : Type :=
  | SAdd (x : nsample) | SCopy (src des : nat) | SNew (n : nat) (par : list R)
  | SWeed (m : option nat) | SNorm.
Definition sl_step (st : option slist) (e : sl_event) : option slist :=
  match st with
  | None => None
  | Some s => match e with
              | SAdd x => Some (sl_add s x)
              | SCopy a b => sl_copy s a b
              | SNew n par => Some (sl_addSamples n par s)
              | SWeed m => Some (sl_weed m s)
              | SNorm => Some (sl_normalize s)
              end
  end.

Definition ids_ok (s : slist) : Prop :=
  StronglySorted lt (map ns_id (sl_items s)) /\
  Forall (fun i => (i < sl_count s)%nat) (map ns_id (sl_items s)).

Lemma ids_snoc c x l : StronglySorted lt (map ns_id l) ->
  Forall (fun i => (i < c)%nat) (map ns_id l) -> ns_id x = c ->
  ids_ok (mkSL (S c) (l ++ [x])).
Proof.
  intros H F E. split; cbn [sl_items sl_count]; rewrite map_app.
  - apply SS_app. split; auto. split.
    + simpl. constructor; constructor.
    + intros a b Ha [<-|[]]. rewrite Forall_forall in F. rewrite E. now apply F.
  - apply Forall_app. split.
    + eapply Forall_impl; [|exact F]. simpl. intros; lia.
    + simpl. constructor; [lia|constructor].
Qed.

Lemma map_upd {A B} (f : A -> B) k x l : map f (upd k x l) = upd k (f x) (map f l).
Proof. revert k. induction l; destruct k; simpl; auto. now f_equal. Qed.
Lemma upd_id {A} k (x : A) l : nth_error l k = Some x -> upd k x l = l.
Proof. revert k. induction l; destruct k; simpl; intros H; try discriminate; auto.
  - congruence. - f_equal; auto. Qed.

Lemma ids_step s e s' : ids_ok s -> sl_step (Some s) e = Some s' -> ids_ok s'.
Proof.
  intros [H F] E. destruct e as [x|a b|n par|m|]; cbn [sl_step] in E.
  - injection E as <-. apply ids_snoc; auto.
  - unfold sl_copy in E. destruct (nth_error (sl_items s) a) as [p|]; [|discriminate].
    destruct (nth_error (sl_items s) b) as [q|] eqn:Eb; [|discriminate]. injection E as <-.
    unfold ids_ok. cbn [sl_items sl_count]. rewrite map_upd. cbn [ns_id].
    rewrite upd_id; [split; auto|]. now apply map_nth_error.
  - injection E as <-. revert s H F. induction n as [|n IH]; intros s H F; simpl; [split; auto|].
    destruct (ids_snoc (sl_count s) (mkNS (sl_count s) 0 0 0 par) (sl_items s) H F eq_refl) as [A B].
    apply IH; auto.
  - injection E as <-. destruct (sl_weed_sub m s) as (a & b & Sub). split.
    + rewrite Sub, !map_app in H. apply SS_app in H. destruct H as (_ & H & _). now apply SS_app in H.
    + rewrite sl_weed_count. rewrite Sub, !map_app in F. apply Forall_app in F. destruct F as [_ F].
      now apply Forall_app in F.
  - injection E as <-. unfold ids_ok, sl_normalize. cbn [sl_items sl_count]. rewrite map_map. cbn [ns_id].
    split; auto.
Qed.

Lemma ids_run es : forall s s', ids_ok s -> fold_left sl_step es (Some s) = Some s' -> ids_ok s'.
Proof.
  induction es as [|e es IH]; intros s s' H E; cbn [fold_left] in E.
  - now injection E as <-.
  - destruct (sl_step (Some s) e) as [s1|] eqn:E1.
    + apply (IH s1); auto. eapply ids_step; eauto.
    + exfalso. clear - E. induction es; cbn in E; [discriminate|auto].
Qed.

Lemma SS_lt_NoDup l : StronglySorted lt l -> NoDup l.
Proof.
  induction 1 as [|a l H IH F]; constructor; auto.
  intros I. rewrite Forall_forall in F. apply F in I. lia.
Qed.

(** *** Weeding a unimodal weight profile *)
Definition unimodal (l : list nsample) : Prop :=
  forall a x b y c z d, l = a ++ x :: b ++ y :: c ++ z :: d ->
    Rmin (ns_logW x) (ns_logW z) <= ns_logW y.

Lemma unimodal_tail x l : unimodal (x :: l) -> unimodal l.
Proof. intros U a p b q c r d E. apply (U (x :: a) p b q c r d). simpl. now rewrite E. Qed.
Lemma unimodal_init x l : unimodal (l ++ [x]) -> unimodal l.
Proof.
  intros U a p b q c r d E. apply (U a p b q c r (d ++ [x])). rewrite E.
  repeat (rewrite <- app_assoc; simpl). reflexivity.
Qed.

(** In a unimodal list every item is at least as heavy as the lightest end. *)
Lemma unimodal_ends x l z : unimodal (x :: l ++ [z]) ->
  forall y, In y l -> Rmin (ns_logW x) (ns_logW z) <= ns_logW y.
Proof.
  intros U y Hy. apply in_split in Hy. destruct Hy as (b & c & ->).
  apply (U [] x b y c z []). simpl. rewrite <- app_assoc. reflexivity.
Qed.

Lemma weed_loop_heaviest m : forall fuel l, (length l <= fuel)%nat -> unimodal l ->
  exists a b, l = a ++ weed_loop fuel m l ++ b /\
    (forall x y, In x (a ++ b) -> In y (weed_loop fuel m l) -> ns_logW x <= ns_logW y).
Proof.
  induction fuel as [|f IH]; intros l Hl U.
  - exists [], []. simpl. rewrite app_nil_r. split; [reflexivity|intros ? ? []].
  - cbn [weed_loop]. destruct (m <? length l)%nat eqn:E.
    2:{ exists [], []. simpl. rewrite app_nil_r. split; [reflexivity|intros ? ? []]. }
    destruct l as [|x r]; [exists [], []; split; [reflexivity|intros ? ? []]|].
    destruct (Rlt_dec _ _) as [L|L].
    + destruct r as [|y r'] using rev_ind; [simpl in L; lra|]. clear IHr'.
      rewrite app_comm_cons, last_last in L.
      set (r := r' ++ [y]) in *.
      destruct (IH r) as (a & b & X & H); [simpl in Hl; lia|now apply unimodal_tail in U|].
      exists (x :: a), b. split; [simpl; now rewrite <- X|].
      intros p q Hp Hq. simpl in Hp. destruct Hp as [<-|Hp]; [|now apply H].
      assert (Iq : In q r) by (rewrite X, !in_app_iff; auto).
      unfold r in Iq. apply in_app_iff in Iq. destruct Iq as [Iq|[<-|[]]]; [|lra].
      pose proof (unimodal_ends x r' y U q Iq) as M. unfold Rmin in M. destruct (Rle_dec _ _); lra.
    + pose proof (removelast_last (x :: r) x ltac:(discriminate)) as Q.
      set (z := last (x :: r) x) in *. set (r0 := removelast (x :: r)) in *.
      destruct (IH r0) as (a & b & X & H).
      { apply (f_equal (@length _)) in Q. rewrite app_length in Q. simpl in *. lia. }
      { rewrite Q in U. now apply unimodal_init in U. }
      exists a, (b ++ [z]). split.
      { rewrite Q. rewrite X at 1. now rewrite <- !app_assoc. }
      intros p q Hp Hq. rewrite app_assoc in Hp. apply in_app_iff in Hp.
      destruct Hp as [Hp|[<-|[]]]; [now apply H|].
      assert (Iq : In q r0) by (rewrite X, !in_app_iff; auto).
      destruct r0 as [|x0 r0']; [destruct Iq|].
      assert (x0 = x) as ->. { rewrite <- app_comm_cons in Q. congruence. }
      destruct Iq as [<-|Iq]; [lra|].
      rewrite Q in U. rewrite <- app_comm_cons in U.
      pose proof (unimodal_ends x r0' z U q Iq) as M. unfold Rmin in M. destruct (Rle_dec _ _); lra.
Qed.

(** *** Averages *)
Lemma average_bounds l (f : nsample -> R) lo hi :
  totW l = 1 -> (forall x, In x l -> lo <= f x <= hi) ->
  lo <= sumL (map (fun x => exp (ns_logW x) * f x) l) <= hi.
Proof.
  intros T H. assert (G : lo * totW l <= sumL (map (fun x => exp (ns_logW x) * f x) l) <= hi * totW l).
  { clear T. unfold totW. induction l as [|x l IH]; simpl; [lra|].
    destruct IH as [A B]; [intros; apply H; now right|].
    specialize (H x (or_introl eq_refl)). pose proof (exp_pos (ns_logW x)). nra. }
  rewrite T in G. lra.
Qed.

Lemma variance_nonneg l (f : nsample -> R) : totW l = 1 ->
  let a := sumL (map (fun x => exp (ns_logW x) * f x) l) in
  sumL (map (fun x => exp (ns_logW x) * f x * f x) l) - a * a
  = sumL (map (fun x => exp (ns_logW x) * ((f x - a) * (f x - a))) l).
Proof.
  intros T a.
  assert (G : forall c, sumL (map (fun x => exp (ns_logW x) * ((f x - c) * (f x - c))) l)
     = sumL (map (fun x => exp (ns_logW x) * f x * f x) l)
       - 2 * c * sumL (map (fun x => exp (ns_logW x) * f x) l) + c * c * totW l).
  { intros c. clear T a. unfold totW. induction l as [|x l IH]; simpl; [ring|]. rewrite IH. ring. }
  rewrite G, T. fold a. ring.
Qed.

Lemma weighted_sq_nonneg l (g : nsample -> R) :
  0 <= sumL (map (fun x => exp (ns_logW x) * (g x * g x)) l).
Proof.
  induction l as [|x l IH]; simpl; [lra|]. pose proof (exp_pos (ns_logW x)).
  assert (0 <= g x * g x) by nra. nra.
Qed.

(** *** Median and modus *)
Lemma median_loop_spec l : forall acc k, acc < 1/2 -> 1/2 <= acc + totW l ->
  exists j, median_loop acc k l = (k + j)%nat /\ (j < length l)%nat /\
    acc + totW (firstn j l) < 1/2 <= acc + totW (firstn (S j) l).
Proof.
  induction l as [|x l IH]; intros acc k Ha Ht.
  - unfold totW in Ht. simpl in Ht. lra.
  - cbn [median_loop]. destruct (Rlt_dec (acc + exp (ns_logW x)) (1/2)) as [L|L].
    + destruct (IH (acc + exp (ns_logW x)) (S k) L) as (j & E & J & B).
      { unfold totW in *. simpl in Ht. lra. }
      exists (S j). split; [lia|]. split; [simpl; lia|].
      cbn [firstn]. unfold totW in *. cbn [map sumL]. cbn [firstn] in B. lra.
    + exists 0%nat. split; [lia|]. split; [simpl; lia|]. unfold totW. simpl. lra.
Qed.

Lemma maxL_ub d l x : x = d \/ In x l -> x <= maxL d l.
Proof.
  induction l as [|y l IH]; simpl.
  - intros [->|[]]. lra.
  - intros H. destruct H as [->|[->|H]].
    + eapply Rle_trans; [apply IH; now left|apply Rmax_r].
    + apply Rmax_l.
    + eapply Rle_trans; [apply IH; now right|apply Rmax_r].
Qed.
Lemma maxL_in d l : maxL d l = d \/ In (maxL d l) l.
Proof.
  induction l as [|y l IH]; simpl; auto. unfold Rmax. destruct (Rle_dec _ _); auto.
  destruct IH; auto.
Qed.
Lemma index_of_spec x l : In x l -> nth_error l (index_of x l) = Some x /\
  (forall j, (j < index_of x l)%nat -> nth_error l j <> Some x).
Proof.
  induction l as [|y l IH]; [intros []|]. intros H. cbn [index_of].
  destruct (Req_EM_T y x) as [->|N].
  - split; [reflexivity|intros; lia].
  - destruct H as [H|H]; [congruence|]. destruct (IH H) as [A B]. split; [exact A|].
    intros [|j] Hj; simpl; [congruence|]. apply B. lia.
Qed.

Lemma low_loop_spec l : forall low klo k,
  let r := low_loop low klo k l in
  (fst r <= low /\ Forall (fun x => fst r <= x) l) /\
  ((fst r = low /\ snd r = klo) \/ (exists j, nth_error l j = Some (fst r) /\ snd r = (k + j)%nat)).
Proof.
  induction l as [|x l IH]; intros low klo k r; subst r; cbn [low_loop].
  - repeat split; auto. simpl; lra.
  - destruct (Rlt_dec x low) as [L|L].
    + destruct (IH x k (S k)) as [[A B] C]. split.
      * split; [lra|]. constructor; auto.
      * right. destruct C as [[C1 C2]|(j & C1 & C2)].
        -- exists 0%nat. simpl. rewrite C1. split; auto. rewrite C2. lia.
        -- exists (S j). split; auto. lia.
    + destruct (IH low klo (S k)) as [[A B] C]. split.
      * split; auto. constructor; auto. lra.
      * destruct C as [C|(j & C1 & C2)]; auto. right. exists (S j). split; auto. lia.
Qed.

(** *** Information *)
Definition totWL (l : list nsample) : R := sumL (map (fun x => exp (ns_logW x) * ns_logL x) l).
Lemma totWL_app a b : totWL (a ++ b) = totWL a + totWL b.
Proof. unfold totWL. now rewrite map_app, sumL_app. Qed.

Lemma info_run os : forall s s',
  prior0 (st_walkers s) -> zinfo s = totWL (sl_items (st_samples s)) ->
  ns_run 1 None os s = Some s' ->
  prior0 (st_walkers s') /\ zinfo s' = totWL (sl_items (st_samples s')).
Proof.
  induction os as [|o os IH]; intros s s' P I E.
  - now injection E as <-.
  - apply ns_run_cons in E. destruct E as (s1 & E1 & E).
    apply iteration_spec in E1; [|lia].
    destruct E1 as (wl & new & sm & Kw & Lt & Lo & It & Ln & Pid & Fw & P0 & Hi & Cn & Sm & Wd
                 & Nl & Ni & Nw & Wdt & Z & Zn & Zi).
    apply (IH s1 s'); auto.
    simpl in Wd. rewrite Zi, I, Wd, Sm, totWL_app. f_equal.
    assert (Pf : prior0 (nsort (st_walkers s))) by (eapply Permutation_Forall; [apply nsort_perm|exact P]).
    rewrite eff_prior0 in Nl by now apply Forall_firstn.
    simpl in Kw. destruct (nsort (st_walkers s)) as [|w0 r]; [discriminate|]. injection Kw as ->.
    simpl in Nl. destruct new as [|x [|? ?]]; try discriminate. injection Nl as Nl.
    unfold totW, totWL. simpl. rewrite Nl. ring.
Qed.

Lemma info_collect s s' : prior0 (st_walkers s) -> ns_collect s = Some s' ->
  exists new, sl_items (st_samples s') = sl_items (st_samples s) ++ new /\
    map ns_logL new = map nw_logL (st_walkers s) /\
    zinfo s' = zinfo s + st_low s * totW new.
Proof.
  intros P E. unfold ns_collect in E.
  destruct (updateEvidence_spec (length (st_walkers s)) s (le_n _))
    as (s1 & new & E1 & W & Lo & It & Cn & Sm & Nl & Ni & Np & Nw & Wd & Z & Zs & Inf).
  rewrite E1 in E. injection E as <-. exists new. rewrite firstn_all, eff_prior0 in Nl by auto.
  repeat split; auto.
Qed.

(** *** Stopping *)
Lemma loop_iter minI maxI tol e worst mx : forall os s s' stop, (1 <= worst)%nat ->
  ns_loop minI maxI tol e worst mx os s = Some (s', stop) ->
  (exists os1 os2, os = os1 ++ os2 /\ ns_run worst mx os1 s = Some s' /\
      (stop = false -> os2 = [])) /\
  (stop = true -> nextIteration minI maxI tol e worst s' = false).
Proof.
  induction os as [|o os IH]; intros s s' stop Hw E; cbn [ns_loop] in E;
    destruct (nextIteration minI maxI tol e worst s) eqn:Nx.
  - injection E as <- <-. split; [exists [], []; repeat split|discriminate].
  - injection E as <- <-. split; [exists [], []; repeat split|auto].
  - destruct (ns_iteration worst mx o s) as [s1|] eqn:E1; [|discriminate].
    destruct (IH _ _ _ Hw E) as [(os1 & os2 & -> & R & St) B]. split; auto.
    exists (o :: os1), os2. repeat split; auto. unfold ns_run. cbn [fold_left ns_step]. rewrite E1. exact R.
  - injection E as <- <-. split; [exists [], (o :: os); repeat split; discriminate|auto].
Qed.

Lemma loop_bound minI m tol e worst mx : forall os s s' stop, (1 <= worst)%nat ->
  (st_iter s <= Nat.max minI (S m))%nat ->
  ns_loop minI (Some m) tol e worst mx os s = Some (s', stop) ->
  (st_iter s' <= Nat.max minI (S m))%nat.
Proof.
  induction os as [|o os IH]; intros s s' stop Hw Hs E; cbn [ns_loop] in E;
    destruct (nextIteration minI (Some m) tol e worst s) eqn:Nx;
    try (injection E as <- <-; assumption).
  destruct (ns_iteration worst mx o s) as [s1|] eqn:E1; [|discriminate].
  apply (IH s1 _ _ Hw) in E; auto.
  apply iteration_spec in E1; auto. destruct E1 as (_ & _ & _ & _ & _ & _ & It & _). rewrite It.
  unfold nextIteration in Nx. destruct (st_iter s <? minI)%nat eqn:A.
  - apply Nat.ltb_lt in A. lia.
  - destruct (Rlt_dec _ _); [discriminate|]. destruct (m <? st_iter s)%nat eqn:B; [discriminate|].
    apply Nat.ltb_ge in B. lia.
Qed.
