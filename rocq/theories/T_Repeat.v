(** Property C80: the repeating model as a function of its parameters. *)
From Coquelicot Require Import Coquelicot.
From Coq Require Import String List Arith Reals Bool Lia Lra.
From Verif Require Import L_List M_Order P_Order M_Dynamic P_Repeat M_Repeat.
Import ListNotations.
Local Open Scope R_scope.

(** The place of an item in a list. *)
Fixpoint rank (i : nat) (l : list nat) : option nat :=
  match l with
  | [] => None
  | x :: l => if (i =? x)%nat then Some O else option_map S (rank i l)
  end.

(** Where parameter i of component j is found in the parameter list of the repeating model: the first component has the first mnp, each
    next one the parameters of its own (index), and shares the others with the first. *)
Definition pos (mnp : nat) (index : list nat) (j i : nat) : nat :=
  match j with
  | O => i
  | S j' => match rank i index with Some r => mnp + j' * length index + r | None => i end
  end%nat.

Lemma rank_some i l r : rank i l = Some r -> nth_error l r = Some i.
Proof.
  revert r. induction l as [|x l IH]; intros r; cbn; [discriminate|]. destruct (Nat.eqb_spec i x) as [->|N].
  - intros E. injection E as <-. reflexivity.
  - destruct (rank i l) as [s|]; cbn; [|discriminate]. intros E. injection E as <-. cbn. apply IH. reflexivity.
Qed.
Lemma rank_none i l : rank i l = None -> ~ In i l.
Proof.
  induction l as [|x l IH]; cbn; [auto|]. destruct (Nat.eqb_spec i x) as [->|N]; [discriminate|].
  destruct (rank i l); cbn; [discriminate|]. intros _ [E|E]; [congruence|]. apply IH; auto.
Qed.
Lemma rank_nodup l : NoDup l -> forall r i, nth_error l r = Some i -> rank i l = Some r.
Proof.
  induction 1 as [|x l Hx N IH]; intros r i E; [destruct r; discriminate|]. destruct r as [|r]; cbn in *.
  - injection E as <-. rewrite Nat.eqb_refl. reflexivity.
  - destruct (Nat.eqb_spec i x) as [->|Ne]; [exfalso; apply Hx; apply nth_error_In in E; exact E|]. rewrite (IH r i E). reflexivity.
Qed.

Section Repeat.
  Context (mnp : nat) (index : list nat) (N : NoDup index) (Hi : forall i, In i index -> (i < mnp)%nat).

  Lemma rank_lt i r : rank i index = Some r -> (r < length index)%nat.
  Proof. intros E. apply rank_some in E. apply nth_error_Some. congruence. Qed.

  Lemma pos_lt n j i : (i < mnp)%nat -> (j < n)%nat -> (pos mnp index j i < mnp + (n - 1) * length index)%nat.
  Proof.
    intros Li Lj. destruct j as [|j]; cbn; [nia|]. destruct (rank i index) as [r|] eqn:E; [|nia]. apply rank_lt in E. nia.
  Qed.
  Lemma pos_inj j i i' : (i < mnp)%nat -> (i' < mnp)%nat -> pos mnp index j i = pos mnp index j i' -> i = i'.
  Proof.
    intros L L' E. destruct j as [|j]; cbn in E; [exact E|]. destruct (rank i index) as [r|] eqn:R, (rank i' index) as [r'|] eqn:R'.
    - apply rank_some in R. apply rank_some in R'. replace r' with r in R' by lia. congruence.
    - lia.
    - lia.
    - exact E.
  Qed.

  Lemma component_length n j p : (mnp + (n - 1) * length index <= length p)%nat -> length (component mnp index p j) = mnp.
  Proof.
    intros L. assert (mnp <= length p)%nat by (eapply Nat.le_trans; [apply Nat.le_add_r|exact L]).
    destruct j; cbn; [|rewrite assign_length]; rewrite firstn_length; lia.
  Qed.

  Lemma component_at n j p i : (mnp + (n - 1) * length index <= length p)%nat -> (j < n)%nat -> (i < mnp)%nat ->
    nth_error (component mnp index p j) i = nth_error p (pos mnp index j i).
  Proof.
    intros L Lj Li. destruct j as [|j]; cbn.
    - apply nth_error_firstn'. exact Li.
    - destruct (rank i index) as [r|] eqn:E.
      + assert (Lr := rank_lt _ _ E). apply rank_some in E.
        destruct (nth_error p (mnp + j * length index + r)) as [v|] eqn:Ev; [|apply nth_error_None in Ev; nia].
        apply (assign_same index _ _ r i v N E); [rewrite firstn_length; lia|].
        rewrite nth_error_firstn' by exact Lr. rewrite nth_error_skipn'. exact Ev.
      + rewrite assign_other by (apply rank_none; exact E). apply nth_error_firstn'. exact Li.
  Qed.

  (** Changing parameter q changes parameter i of component j when that is its place, and otherwise nothing in it. *)
  Lemma component_upd n j p q t : (mnp + (n - 1) * length index <= length p)%nat -> (j < n)%nat -> (q < length p)%nat ->
    (forall i, (i < mnp)%nat -> pos mnp index j i = q -> component mnp index (upd q t p) j = upd i t (component mnp index p j)) /\
    ((forall i, (i < mnp)%nat -> pos mnp index j i <> q) -> component mnp index (upd q t p) j = component mnp index p j).
  Proof.
    intros L Lj Lq. assert (L' : (mnp + (n - 1) * length index <= length (upd q t p))%nat) by (rewrite upd_length; exact L).
    assert (LC := component_length n j _ L). assert (LC' := component_length n j _ L'). split.
    - intros i Hi' E. apply nth_error_ext. intros k. destruct (lt_dec k mnp) as [Hk|Hk].
      + rewrite (component_at n j _ k L' Lj Hk). destruct (Nat.eq_dec k i) as [->|Ne].
        * rewrite E, upd_nth_same by exact Lq. rewrite upd_nth_same by lia. reflexivity.
        * rewrite (upd_nth_other i k) by auto. rewrite upd_nth_other.
          -- symmetry. apply (component_at n); assumption.
          -- rewrite <- E. intros X. apply Ne. symmetry. apply (pos_inj j); assumption.
      + rewrite (proj2 (nth_error_None _ _)) by lia. symmetry. apply nth_error_None. rewrite upd_length. lia.
    - intros H. apply nth_error_ext. intros k. destruct (lt_dec k mnp) as [Hk|Hk].
      + rewrite (component_at n j _ k L' Lj Hk), (component_at n j _ k L Lj Hk). apply upd_nth_other. intros X. apply (H k Hk). auto.
      + rewrite !(proj2 (nth_error_None _ _)) by lia. reflexivity.
  Qed.

  Definition fullOf (j : nat) : list nat := map (pos mnp index j) (seq 0 mnp).

  Lemma full_next j : assign (fullOf j) index (seq (mnp + j * length index) (length index)) = fullOf (S j).
  Proof.
    apply nth_error_ext. intros i. destruct (lt_dec i mnp) as [Li|Li].
    - unfold fullOf at 2. rewrite nth_error_map, nth_error_seq' by exact Li. cbn [option_map Nat.add pos].
      destruct (rank i index) as [r|] eqn:E.
      + assert (Lr := rank_lt _ _ E). apply rank_some in E.
        apply (assign_same index _ _ r i _ N E); [unfold fullOf; rewrite map_length, seq_length; exact Li|]. apply nth_error_seq'. exact Lr.
      + rewrite assign_other by (apply rank_none; exact E). unfold fullOf. rewrite nth_error_map, nth_error_seq' by exact Li. cbn [option_map Nat.add].
        destruct j; cbn; [reflexivity|]. rewrite E. reflexivity.
    - rewrite !(proj2 (nth_error_None _ _)); [reflexivity| |]; unfold fullOf; rewrite ?assign_length, map_length, seq_length; lia.
  Qed.
  Lemma full_nodup j : NoDup (fullOf j).
  Proof.
    apply NoDup_map_in; [apply seq_NoDup|]. intros x y Hx Hy. apply in_seq in Hx. apply in_seq in Hy. apply pos_inj; lia.
  Qed.

  (** addAt *)
  Lemma addAt_length partial full v : length (addAt partial full v) = length partial.
  Proof. apply assign_length. Qed.
  Lemma addAt_spec partial full v q : NoDup full -> length v = length full ->
    (forall i, nth_error full i = Some q -> (q < length partial)%nat -> nth q (addAt partial full v) 0 = nth q partial 0 + nth i v 0) /\
    (~ In q full -> nth q (addAt partial full v) 0 = nth q partial 0).
  Proof.
    intros Nf Lv. split.
    - intros i E Lq. unfold addAt. apply nth_error_nth. apply (assign_same full _ _ i q _ Nf E Lq). rewrite nth_error_map.
      assert (Li : (i < length full)%nat) by (apply nth_error_Some; congruence).
      assert (X : nth_error (combine full v) i = Some (q, nth i v 0)).
      { clear - E Lv. revert full v Lv E. induction i as [|i IH]; intros [|a full] [|b v] Lv E; cbn in *; try discriminate.
        - injection E as ->. reflexivity.
        - apply IH; [lia|exact E]. }
      rewrite X. reflexivity.
    - intros H. unfold addAt. assert (X := assign_other full partial (map (fun kv => nth (fst kv) partial 0 + snd kv) (combine full v)) q H).
      destruct (nth_error partial q) as [z|] eqn:E.
      + rewrite (nth_error_nth _ _ _ X), (nth_error_nth _ _ _ E). reflexivity.
      + apply nth_error_None in X. apply nth_error_None in E. rewrite !nth_overflow by assumption. reflexivity.
  Qed.

  (** The share of component j in the partial to parameter q. *)
  Definition shareOf (g : list R -> list R) (p : list R) (q j : nat) : R :=
    rsum (map (fun i => if (pos mnp index j i =? q)%nat then nth i (g (component mnp index p j)) 0 else 0) (seq 0 mnp)).

  Lemma rsum_zero l : (forall x, In x l -> x = 0) -> rsum l = 0.
  Proof. induction l as [|x l IH]; intros H; cbn; [reflexivity|]. rewrite (H x), IH; [ring| |left; reflexivity]. intros y Hy. apply H. right. exact Hy. Qed.

  Lemma rsum_single (h : nat -> R) (c : nat -> bool) s k i : (s <= i < s + k)%nat -> c i = true -> (forall i', (s <= i' < s + k)%nat -> c i' = true -> i' = i) ->
    rsum (map (fun i => if c i then h i else 0) (seq s k)) = h i.
  Proof.
    revert s. induction k as [|k IH]; intros s Li Ci U; [lia|]. cbn [seq map rsum]. destruct (Nat.eq_dec i s) as [->|Ne].
    - rewrite Ci. rewrite rsum_zero; [ring|]. intros x Hx. apply in_map_iff in Hx. destruct Hx as (i' & E & Hs). apply in_seq in Hs.
      destruct (c i') eqn:Ci'; [|auto]. specialize (U i' ltac:(lia) Ci'). lia.
    - destruct (c s) eqn:Cs; [specialize (U s ltac:(lia) Cs); lia|]. rewrite IH; [ring|lia|exact Ci|]. intros i' L' Ci'. apply U; [lia|exact Ci'].
  Qed.

  Lemma share_cases g p q j : 
    (forall i, (i < mnp)%nat -> pos mnp index j i = q -> shareOf g p q j = nth i (g (component mnp index p j)) 0) /\
    ((forall i, (i < mnp)%nat -> pos mnp index j i <> q) -> shareOf g p q j = 0).
  Proof.
    split.
    - intros i Li E. unfold shareOf. rewrite (rsum_single (fun i => nth i (g (component mnp index p j)) 0) (fun i => (pos mnp index j i =? q)%nat) 0 mnp i).
      + reflexivity.
      + lia.
      + apply Nat.eqb_eq. exact E.
      + intros i' L' E'. apply Nat.eqb_eq in E'. apply (pos_inj j); [lia|exact Li|congruence].
    - intros H. apply rsum_zero. intros x Hx. apply in_map_iff in Hx. destruct Hx as (i & E & Hs). apply in_seq in Hs.
      destruct (Nat.eqb_spec (pos mnp index j i) q) as [E'|]; [exfalso; apply (H i); [lia|exact E']|auto].
  Qed.

  Lemma add_share g p q n j partial : (mnp + (n - 1) * length index <= length partial)%nat -> (j < n)%nat ->
    length (g (component mnp index p j)) = mnp ->
    nth q (addAt partial (fullOf j) (g (component mnp index p j))) 0 = nth q partial 0 + shareOf g p q j.
  Proof.
    intros L Lj Lg. destruct (addAt_spec partial (fullOf j) (g (component mnp index p j)) q (full_nodup j)) as [A B].
    { unfold fullOf. rewrite map_length, seq_length. exact Lg. }
    destruct (share_cases g p q j) as [SA SB]. destruct (in_dec Nat.eq_dec q (fullOf j)) as [I|NI].
    - destruct (In_nth_error _ _ I) as (i & Ei). assert (Li : (i < mnp)%nat).
      { assert (X : (i < length (fullOf j))%nat) by (apply nth_error_Some; congruence). unfold fullOf in X. rewrite map_length, seq_length in X. exact X. }
      assert (Eq : pos mnp index j i = q).
      { unfold fullOf in Ei. rewrite nth_error_map, nth_error_seq' in Ei by exact Li. cbn in Ei. injection Ei as <-. reflexivity. }
      rewrite (A i Ei), (SA i Li Eq); [reflexivity|]. rewrite <- Eq. pose proof (pos_lt n j i Li Lj). lia.
    - rewrite (B NI), SB; [ring|]. intros i Li Eq. apply NI. unfold fullOf. apply in_map_iff. exists i. split; [exact Eq|apply in_seq; lia].
  Qed.

  Lemma loop_partial g p q n : (forall pars, length pars = mnp -> length (g pars) = mnp) -> (mnp + (n - 1) * length index <= length p)%nat ->
    forall todo j pars partial, (j + todo < n)%nat -> (mnp + (n - 1) * length index <= length partial)%nat ->
    pars = component mnp index p j ->
    nth q (repPartialLoop g index (length index) todo (mnp + j * length index) pars p (fullOf j) partial) 0
    = nth q partial 0 + rsum (map (shareOf g p q) (seq j (S todo))).
  Proof.
    intros Hg L todo. induction todo as [|todo IH]; intros j pars partial Lj LP ->.
    - cbn [repPartialLoop seq map rsum]. rewrite (add_share g p q n j partial LP); [ring|lia|]. apply Hg. apply (component_length n). exact L.
    - cbn [repPartialLoop]. rewrite full_next. replace (mnp + j * length index + length index)%nat with (mnp + S j * length index)%nat by (cbn; lia).
      rewrite IH.
      + rewrite (add_share g p q n j partial LP); [|lia|apply Hg; apply (component_length n); exact L].
        change (seq j (S (S todo))) with (j :: seq (S j) (S todo)). cbn [map rsum]. ring.
      + lia.
      + rewrite addAt_length. exact LP.
      + cbn [component]. destruct j as [|j]; [reflexivity|]. cbn [component]. apply assign_assign.
        * exact N.
        * rewrite firstn_length, skipn_length. nia.
        * rewrite firstn_length, skipn_length. nia.
        * intros i Ii. rewrite firstn_length. specialize (Hi i Ii).
          assert (mnp <= length p)%nat by (eapply Nat.le_trans; [apply Nat.le_add_r|exact L]). lia.
  Qed.
End Repeat.

Lemma derive_rsum (h : nat -> R -> R) (d : nat -> R) t l : (forall j, In j l -> is_derive (h j) t (d j)) ->
  is_derive (fun x => rsum (map (fun j => h j x) l)) t (rsum (map d l)).
Proof.
  induction l as [|j l IH]; intros H; cbn [map rsum].
  - apply (is_derive_const (V := R_NormedModule)).
  - apply (is_derive_plus (h j) (fun x => rsum (map (fun j => h j x) l))); [apply H; left; reflexivity|apply IH; intros; apply H; right; assumption].
Qed.

(** The partials of a repeating model are its partial derivatives, for every parameter - those of one component, those of the first, and
    those that all components share - whenever the partials of the model inside are. *)
Theorem C80_partials (f : list R -> R) (g : list R -> list R) mnp index n p q v :
  NoDup index -> (forall i, In i index -> (i < mnp)%nat) -> (0 < n)%nat ->
  length p = (mnp + (n - 1) * length index)%nat ->
  (forall pars, length pars = mnp -> length (g pars) = mnp) ->
  (forall pars i, length pars = mnp -> (i < mnp)%nat -> is_derive (fun t => f (upd i t pars)) (nth i pars 0) (nth i (g pars) 0)) ->
  (q < length p)%nat -> repPartial g (length p) mnp index n p None = Some v ->
  length v = length p /\ is_derive (fun t => rep_result f mnp index n (upd q t p)) (nth q p 0) (nth q v 0).
Proof.
  intros N Hi Hn L Hg Hd Lq E. unfold repPartial in E. destruct n as [|n]; [lia|]. injection E as E. split.
  { rewrite <- E. clear - p. assert (G : forall todo ke pars full partial, length (repPartialLoop g index (length index) todo ke pars p full partial) = length partial).
    { induction todo as [|todo IH]; intros; cbn [repPartialLoop]; [|rewrite IH]; apply addAt_length. }
    rewrite G, repeat_length. reflexivity. }
  assert (L' : (mnp + (S n - 1) * length index <= length p)%nat) by lia.
  assert (V : nth q v 0 = rsum (map (shareOf mnp index g p q) (seq 0 (S n)))).
  { rewrite <- E. pose proof (loop_partial mnp index N Hi g p q (S n) Hg L' n 0 (firstn mnp p) (repeat 0 (length p))) as X.
    cbn [Nat.mul] in X. rewrite Nat.add_0_r in X. unfold fullOf in X. replace (map (pos mnp index 0) (seq 0 mnp)) with (seq 0 mnp) in X by (symmetry; apply map_id).
    rewrite X; [|lia|rewrite repeat_length; exact L'|reflexivity]. rewrite nth_repeat. apply Rplus_0_l. }
  rewrite V. apply (is_derive_ext (fun t => rsum (map (fun j => f (component mnp index (upd q t p) j)) (seq 0 (S n))))).
  { intros t. symmetry. apply rep_result_spec; [exact N|exact Hi|lia|rewrite upd_length; exact L']. }
  apply (derive_rsum (fun j t => f (component mnp index (upd q t p) j))). intros j Hj. apply in_seq in Hj.
  assert (Lj : (j < S n)%nat) by lia. destruct (share_cases mnp index g p q j) as [SA SB].
  assert (LC := component_length mnp index (S n) j p L').
  assert (Dec : (exists i, (i < mnp)%nat /\ pos mnp index j i = q) \/ (forall i, (i < mnp)%nat -> pos mnp index j i <> q)).
  { destruct (in_dec Nat.eq_dec q (fullOf mnp index j)) as [I|NI]; unfold fullOf in *.
    - left. apply in_map_iff in I. destruct I as (i & Ei & Hs). apply in_seq in Hs. exists i. split; [lia|exact Ei].
    - right. intros i Hl Ei. apply NI. apply in_map_iff. exists i. split; [exact Ei|apply in_seq; lia]. }
  destruct Dec as [(i & Li & Ei)|No].
  - rewrite (SA i Li Ei). apply (is_derive_ext (fun t => f (upd i t (component mnp index p j)))).
    { intros t. f_equal. symmetry. apply (component_upd mnp index N (S n) j p q t L' Lj Lq); assumption. }
    assert (Ep : nth i (component mnp index p j) 0 = nth q p 0).
    { assert (X := component_at mnp index N (S n) j p i L' Lj Li). rewrite Ei in X.
      destruct (nth_error p q) as [z|] eqn:Ez; [|apply nth_error_None in Ez; lia].
      rewrite (nth_error_nth _ _ _ X), (nth_error_nth _ _ _ Ez). reflexivity. }
    rewrite <- Ep. apply Hd; assumption.
  - rewrite (SB No). apply (is_derive_ext (fun _ => f (component mnp index p j))).
    { intros t. f_equal. symmetry. apply (component_upd mnp index N (S n) j p q t L' Lj Lq). exact No. }
    apply (is_derive_const (V := R_NormedModule)).
Qed.
Print Assumptions C80_partials.

(** A list of parameter numbers selects those partials. *)
Theorem C80_selection (g : list R -> list R) np mnp index n p v pl :
  (0 < n)%nat -> repPartial g np mnp index n p None = Some v -> List.Forall (fun k => (k < np)%nat) pl ->
  repPartial g np mnp index n p (Some pl) = Some (map (fun k => nth k v 0) pl).
Proof.
  intros Hn E F. unfold repPartial in *. destruct n as [|n]; [lia|]. injection E as ->.
  replace (forallb (fun k => (k <? np)%nat) pl) with true; [reflexivity|]. symmetry. apply forallb_forall. intros k Hk.
  rewrite List.Forall_forall in F. apply Nat.ltb_lt. apply F. exact Hk.
Qed.
Print Assumptions C80_selection.

(** A number in the list that is too large raises IndexError. *)
Theorem C80_selection_range (g : list R -> list R) np mnp index n p pl k :
  (0 < n)%nat -> In k pl -> (np <= k)%nat -> repPartial g np mnp index n p (Some pl) = None.
Proof.
  intros Hn I L. unfold repPartial. destruct n as [|n]; [lia|].
  replace (forallb (fun k => (k <? np)%nat) pl) with false; [reflexivity|]. symmetry. apply not_true_iff_false. intro F.
  rewrite forallb_forall in F. specialize (F k I). apply Nat.ltb_lt in F. lia.
Qed.
Print Assumptions C80_selection_range.
Example C80_selection_range_example : repPartial (fun p => p) 2 2 [0%nat] 1 [1; 2] (Some [0; 2]%nat) = None.
Proof. reflexivity. Qed.

(** Without components the list is ignored: all (zero) partials are returned. *)
Theorem C80_empty_selection_refuted g np mnp index p pl : length pl <> np ->
  exists v, repPartial g np mnp index 0 p (Some pl) = Some v /\ length v <> length pl.
Proof. intros H. eexists. split; [reflexivity|]. rewrite repeat_length. auto. Qed.
Print Assumptions C80_empty_selection_refuted.

(** The derivative to x is the derivative. *)
Theorem C80_derivative (f df : R -> list R -> R) mnp index n p x :
  NoDup index -> (forall i, In i index -> (i < mnp)%nat) -> (mnp + (n - 1) * length index <= length p)%nat ->
  (forall pars, length pars = mnp -> is_derive (fun t => f t pars) x (df x pars)) ->
  is_derive (fun t => rep_result (f t) mnp index n p) x (repDerivative (df x) mnp index n p).
Proof.
  intros N Hi L Hd. destruct n as [|n]; [exact (is_derive_const (V := R_NormedModule) 0 x)|].
  apply (is_derive_ext (fun t => rsum (map (fun j => f t (component mnp index p j)) (seq 0 (S n))))).
  { intros t. symmetry. apply rep_result_spec; [exact N|exact Hi|lia|exact L]. }
  change (repDerivative (df x) mnp index (S n) p) with (rep_result (df x) mnp index (S n) p).
  rewrite (rep_result_spec (df x) mnp index (S n) p N Hi ltac:(lia) L).
  apply (derive_rsum (fun j t => f t (component mnp index p j)) (fun j => df x (component mnp index p j))). intros j _.
  apply Hd. apply (component_length mnp index (S n)). exact L.
Qed.
Print Assumptions C80_derivative.

(** Each parameter q is parameter i of component c of the model inside: q is the place of i in c.  Its prior is that of i. *)
Theorem C80_origin {P} (priorOf : nat -> P) mnp index n q i c :
  NoDup index -> (forall i, In i index -> (i < mnp)%nat) -> (0 < n)%nat -> (q < mnp + (n - 1) * length index)%nat ->
  par2model mnp index q = (i, c) ->
  (i < mnp)%nat /\ (c < n)%nat /\ pos mnp index c i = q /\ ((0 < c)%nat -> In i index) /\ repPrior priorOf mnp index q = priorOf i.
Proof.
  intros N Hi Hn Lq E. unfold repPrior. rewrite E. unfold par2model in E. destruct (Nat.leb_spec mnp q) as [Lm|Lm].
  - assert (D : (length index <> 0)%nat) by (intros Z; rewrite Z in Lq; lia). set (k := (q - mnp)%nat) in *.
    assert (M := Nat.mod_upper_bound k (length index) D). assert (DM := Nat.div_mod k (length index) D).
    injection E as Ei Ec. assert (I : In i index) by (rewrite <- Ei; apply nth_In; exact M).
    assert (Ed : (k / length index < n - 1)%nat) by (apply Nat.div_lt_upper_bound; [exact D|]; unfold k; lia).
    split; [apply Hi; exact I|]. split; [lia|]. split; [|split; [intros _; exact I|reflexivity]].
    rewrite <- Ec. cbn [pos Nat.add]. rewrite (rank_nodup index N (k mod length index) i); [unfold k in *; lia|].
    rewrite <- Ei. apply nth_error_nth'. exact M.
  - injection E as <- <-. repeat split; auto; lia.
Qed.
Print Assumptions C80_origin.

(** The names, when parameters are shared: that of the parameter inside, for a parameter that is not shared with the number of the component; two parameters
    never have the same name when those inside have not. *)
Theorem C80_names nameOf mnp same n q q' :
  let index := rep_index mnp same in
  (forall i j, (i < mnp)%nat -> (j < mnp)%nat -> nameOf i = nameOf j -> i = j) -> (0 < n)%nat ->
  (q < mnp + (n - 1) * length index)%nat -> (q' < mnp + (n - 1) * length index)%nat ->
  repName nameOf mnp index (Some same) q = repName nameOf mnp index (Some same) q' -> q = q'.
Proof.
  intros index Hn Hc Lq Lq'. assert (N : NoDup index) by (apply NoDup_filter, seq_NoDup).
  assert (Hi : forall i, In i index -> (i < mnp)%nat).
  { intros i I. apply filter_In in I. destruct I as [I _]. apply in_seq in I. lia. }
  unfold repName. destruct (par2model mnp index q) as [i c] eqn:E. destruct (par2model mnp index q') as [i' c'] eqn:E'. intros X.
  destruct (C80_origin (fun _ => tt) mnp index n q i c N Hi Hc Lq E) as (A1 & A2 & A3 & A4 & _).
  destruct (C80_origin (fun _ => tt) mnp index n q' i' c' N Hi Hc Lq' E') as (B1 & B2 & B3 & B4 & _).
  injection X as X1 X2. apply Hn in X1; auto. subst i'. rewrite <- A3, <- B3. f_equal.
  destruct (existsb (Nat.eqb i) same) eqn:S; [|injection X2 as ->; reflexivity].
  assert (NI : ~ In i index) by (intros I; apply filter_In in I; rewrite S in I; destruct I; discriminate).
  destruct c, c'; auto; exfalso; apply NI; auto; [apply B4|apply A4|apply A4]; lia.
Qed.
Print Assumptions C80_names.

(** Without shared parameters no name can be asked for: TypeError. *)
Theorem C80_names_refuted nameOf mnp index q : repName nameOf mnp index None q = None.
Proof. unfold repName. destruct (par2model mnp index q). reflexivity. Qed.
Print Assumptions C80_names_refuted.

(** The result exists, and is the sum over the components, for a model that is not compound; for a compound model inside it raises. *)
Theorem C80_result f mnp index n p :
  NoDup index -> (forall i, In i index -> (i < mnp)%nat) -> (mnp + (n - 1) * length index <= length p)%nat ->
  repBaseResult f mnp mnp index n p = Some (rep_result f mnp index n p).
Proof.
  intros N Hi L. destruct n as [|n]; [reflexivity|]. cbn [repBaseResult rep_result].
  assert (G : forall todo ke pars r, length pars = mnp ->
     repResultE f mnp index todo ke pars p r = Some (rep_loop f index (length index) todo ke pars p r)).
  { induction todo as [|todo IH]; intros ke pars r Lp; cbn [repResultE rep_loop]; rewrite Lp, Nat.ltb_irrefl; [reflexivity|].
    apply IH. rewrite assign_length. exact Lp. }
  apply G. rewrite firstn_length.
  assert (mnp <= length p)%nat by (eapply Nat.le_trans; [apply Nat.le_add_r|exact L]). lia.
Qed.
Print Assumptions C80_result.

(** A compound model (without brackets) inside cannot be evaluated: only the parameters of its first model are handed over. *)
Theorem C80_compound_refuted f mnp mnpchain index n p : (mnp < mnpchain)%nat -> (0 < n)%nat ->
  repBaseResult f mnp mnpchain index n p = None.
Proof.
  intros L Hn. destruct n as [|n]; [lia|]. unfold repBaseResult. destruct n; cbn [repResultE];
  (destruct (Nat.ltb_spec (length (firstn mnp p)) mnpchain) as [_|X]; [reflexivity|rewrite firstn_length in X; lia]).
Qed.
Print Assumptions C80_compound_refuted.

(** Three parabolas a + b c, with b shared. *)
Example C80_example :
  let f := fun pars => nth 0 pars 0 + nth 1 pars 0 * nth 2 pars 0 in
  let g := fun pars => [1; nth 2 pars 0; nth 1 pars 0] in
  let index := rep_index 3 [1%nat] in
  index = [0; 2]%nat /\
  (forall pars i, length pars = 3%nat -> (i < 3)%nat -> is_derive (fun t => f (upd i t pars)) (nth i pars 0) (nth i (g pars) 0)) /\
  repPartial g 7 3 index 3 [1; 2; 3; 4; 5; 6; 7] None = Some [1 + 0; 15; 2; 1; 2; 1; 2] /\
  par2model 3 index 6 = (2, 2)%nat.
Proof.
  cbv zeta. split; [reflexivity|]. split; [|split; [|reflexivity]].
  - intros [|a [|b [|c [|]]]] i Lp Li; try discriminate. destruct i as [|[|[|i]]]; [| | |lia]; cbn; auto_derive; auto; ring.
  - cbn. f_equal. repeat (f_equal; try ring).
Qed.
