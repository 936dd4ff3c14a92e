(** RepeatingModel.shuffle permutes whole components. *)
From Coq Require Import List Arith ZArith Reals Lia Lra Bool Permutation Sorted.
From Verif Require Import L_List M_Order P_Order M_Dynamic P_Dynamic.
Import ListNotations.

Lemma assign_length {A} idx : forall (p vals : list A), length (assign p idx vals) = length p.
Proof. induction idx as [|i idx IH]; intros p [|v vals]; simpl; auto. rewrite IH. apply upd_length. Qed.

Lemma assign_other {A} idx : forall (p vals : list A) k, ~ In k idx ->
  nth_error (assign p idx vals) k = nth_error p k.
Proof.
  induction idx as [|i idx IH]; intros p [|v vals] k H; simpl; auto.
  rewrite IH by (intros X; apply H; now right). apply upd_nth_other. intros ->. apply H. now left.
Qed.

Lemma assign_same {A} idx : forall (p vals : list A) j k v, NoDup idx ->
  nth_error idx j = Some k -> k < length p -> nth_error vals j = Some v ->
  nth_error (assign p idx vals) k = Some v.
Proof.
  induction idx as [|i idx IH]; intros p vals j k v N Hj Hk Hv; [destruct j; discriminate|].
  inversion N; subst. destruct vals as [|w vals]; [destruct j; discriminate|]. simpl.
  destruct j as [|j]; simpl in *.
  - injection Hj as ->. injection Hv as ->. rewrite assign_other by auto. now apply upd_nth_same.
  - eapply IH; eauto. now rewrite upd_length.
Qed.

Lemma NoDup_map_in {A B} (f : A -> B) l : NoDup l ->
  (forall x y, In x l -> In y l -> f x = f y -> x = y) -> NoDup (map f l).
Proof.
  induction 1 as [|x l Hx N IH]; intros H; simpl; constructor.
  - intros X. apply in_map_iff in X. destruct X as (y & E & Hy).
    apply H in E; [congruence|now right|now left].
  - apply IH. intros; apply H; simpl; auto.
Qed.

Section Shuffle.
Context {A : Type} (d : A) (off mnp : nat) (index : list nat) (n : nat).
Let delta := length index.

(** Where the m-th free parameter of slot s sits; slot n-1 is the first component. *)
Definition slotpos (m s : nat) : nat :=
  if s <? n - 1 then mnp + off + s * delta + m else off + nth m index 0.

Hypothesis Hn : 1 < n.
Hypothesis Nd : NoDup index.
Hypothesis Hi : forall i, In i index -> i < mnp.

Lemma index_lt m : m < delta -> nth m index 0 < mnp.
Proof. intros H. apply Hi. now apply nth_In. Qed.

Lemma slotpos_inj m s m' s' : m < delta -> m' < delta -> s < n -> s' < n ->
  slotpos m s = slotpos m' s' -> m = m' /\ s = s'.
Proof.
  intros H1 H2 H3 H4. unfold slotpos.
  destruct (s <? n - 1) eqn:E1, (s' <? n - 1) eqn:E2;
    try apply Nat.ltb_lt in E1; try apply Nat.ltb_lt in E2;
    try apply Nat.ltb_ge in E1; try apply Nat.ltb_ge in E2; intros E.
  - assert (s = s') by nia. subst. lia.
  - pose proof (index_lt m' H2). nia.
  - pose proof (index_lt m H1). nia.
  - assert (nth m index 0 = nth m' index 0) by lia. split; [|lia].
    eapply NoDup_nth; eauto.
Qed.

Lemma slotpos_bound m s : m < delta -> s < n -> slotpos m s < off + mnp + (n - 1) * delta.
Proof.
  intros H1 H2. unfold slotpos. destruct (s <? n - 1) eqn:E.
  - apply Nat.ltb_lt in E. nia.
  - pose proof (index_lt m H1). nia.
Qed.

Lemma src_length m i : length (shuffle_src off mnp delta n m i) = n.
Proof. unfold shuffle_src. rewrite app_length, map_length, seq_length. simpl. lia. Qed.

Lemma src_nth m s : s < n ->
  nth_error (shuffle_src off mnp delta n m (nth m index 0)) s = Some (slotpos m s).
Proof.
  intros H. unfold shuffle_src, slotpos. destruct (s <? n - 1) eqn:E.
  - apply Nat.ltb_lt in E. rewrite nth_error_app1 by (rewrite map_length, seq_length; lia).
    rewrite nth_error_map. rewrite (nth_error_nth' _ 0) by (rewrite seq_length; lia).
    rewrite seq_nth by lia. reflexivity.
  - apply Nat.ltb_ge in E. assert (s = n - 1) by lia. subst.
    rewrite nth_error_app2 by (rewrite map_length, seq_length; lia).
    rewrite map_length, seq_length, Nat.sub_diag. reflexivity.
Qed.

Variable per : list nat.
Hypothesis Hper : Permutation per (seq 0 n).

Lemma per_length : length per = n.
Proof. rewrite (Permutation_length Hper). apply seq_length. Qed.

Lemma per_lt s : s < n -> nth s per 0 < n.
Proof.
  intros H. assert (X : In (nth s per 0) (seq 0 n)).
  { eapply Permutation_in; [exact Hper|]. apply nth_In. rewrite per_length. exact H. }
  apply in_seq in X. lia.
Qed.

Lemma per_nodup : NoDup per.
Proof. eapply Permutation_NoDup; [symmetry; exact Hper|]. apply seq_NoDup. Qed.

Lemma per_surj s : s < n -> exists j, j < n /\ nth j per 0 = s.
Proof.
  intros H. assert (X : In s per). { eapply Permutation_in; [symmetry; exact Hper|]. apply in_seq. lia. }
  destruct (In_nth _ _ 0 X) as (j & Hj & E). rewrite per_length in Hj. eauto.
Qed.

Let step := shuffle_step d off mnp delta n per.

Lemma step_idx m : m < delta ->
  map (fun p => nth p (shuffle_src off mnp delta n m (nth m index 0)) 0) per = map (slotpos m) per.
Proof.
  intros Hm. apply map_ext_in. intros p Hp.
  assert (p < n). { eapply Permutation_in in Hp; [|exact Hper]. apply in_seq in Hp. lia. }
  apply nth_error_nth. now apply src_nth.
Qed.

Lemma step_spec param m : off + mnp + (n - 1) * delta <= length param -> m < delta ->
  let p' := step param (m, nth m index 0) in
  length p' = length param /\
  (forall s, s < n -> nth (slotpos m (nth s per 0)) p' d = nth (slotpos m s) param d) /\
  (forall k, (forall s, s < n -> k <> slotpos m s) -> nth k p' d = nth k param d).
Proof.
  intros L Hm p'. unfold p', step, shuffle_step. cbn [fst snd]. rewrite (step_idx m Hm).
  set (vals := map (fun k => nth k param d) (shuffle_src off mnp delta n m (nth m index 0))).
  split; [apply assign_length|]. split.
  - intros s Hs. apply nth_error_nth.
    eapply assign_same with (j := s).
    + apply NoDup_map_in; [apply per_nodup|].
      intros x y Hx Hy E. eapply Permutation_in in Hx; [|exact Hper]. eapply Permutation_in in Hy; [|exact Hper].
      apply in_seq in Hx, Hy. apply slotpos_inj in E; lia.
    + rewrite nth_error_map. rewrite (nth_error_nth' _ 0) by (rewrite per_length; auto). reflexivity.
    + pose proof (slotpos_bound m _ Hm (per_lt s Hs)). lia.
    + unfold vals. rewrite nth_error_map, src_nth by auto. reflexivity.
  - intros k Hk. apply nth_error_ext_nth. apply assign_other. intros X. apply in_map_iff in X.
    destruct X as (p & <- & Hp). eapply Permutation_in in Hp; [|exact Hper]. apply in_seq in Hp.
    apply (Hk p); auto. lia.
Qed.

Lemma steps_spec : forall todo m0 param, m0 + todo = delta ->
  off + mnp + (n - 1) * delta <= length param ->
  let p' := fold_left step (map (fun m => (m, nth m index 0)) (seq m0 todo)) param in
  length p' = length param /\
  (forall m s, m0 <= m < delta -> s < n -> nth (slotpos m (nth s per 0)) p' d = nth (slotpos m s) param d) /\
  (forall k, (forall m s, m0 <= m < delta -> s < n -> k <> slotpos m s) -> nth k p' d = nth k param d).
Proof.
  induction todo as [|todo IH]; intros m0 param E L; cbn [seq map fold_left].
  - split; [reflexivity|]. split; [intros; lia|auto].
  - destruct (step_spec param m0 L ltac:(lia)) as (S1 & S2 & S3).
    destruct (IH (S m0) (step param (m0, nth m0 index 0)) ltac:(lia) ltac:(rewrite S1; exact L)) as (I1 & I2 & I3).
    cbv zeta in *. rewrite I1, S1. split; [reflexivity|]. split.
    + intros m s Hm Hs. destruct (Nat.eq_dec m m0) as [->|Ne].
      * rewrite I3; [apply S2; auto|]. intros m s' Hm' Hs' X.
        apply slotpos_inj in X; try lia. now apply per_lt.
      * rewrite I2 by (auto; lia). apply S3. intros s' Hs' X. apply slotpos_inj in X; lia.
    + intros k Hk. rewrite I3; [apply S3|]; intros; apply Hk; lia.
Qed.

Lemma combine_index : combine (seq 0 delta) index = map (fun m => (m, nth m index 0)) (seq 0 delta).
Proof.
  unfold delta. clear. 
  assert (G : forall l s, combine (seq s (length l)) l = map (fun m => (m, nth (m - s) l 0)) (seq s (length l))).
  { induction l as [|x l IH]; intros s; cbn [length seq combine map]; auto. rewrite Nat.sub_diag. f_equal.
    rewrite IH. apply map_ext_in. intros m Hm. apply in_seq in Hm. replace (m - s) with (S (m - S s)) by lia. reflexivity. }
  rewrite G. apply map_ext. intros m. now rewrite Nat.sub_0_r.
Qed.

Lemma shuffle_spec param : off + mnp + (n - 1) * delta <= length param ->
  let p' := rep_shuffle d off mnp index n per param in
  length p' = length param /\
  (forall m s, m < delta -> s < n -> nth (slotpos m (nth s per 0)) p' d = nth (slotpos m s) param d) /\
  (forall k, (forall m s, m < delta -> s < n -> k <> slotpos m s) -> nth k p' d = nth k param d).
Proof.
  intros L. unfold rep_shuffle. destruct (n <=? 1) eqn:E; [apply Nat.leb_le in E; lia|].
  fold delta. rewrite combine_index. destruct (steps_spec delta 0 param eq_refl L) as (A1 & A2 & A3).
  cbv zeta in *. split; [exact A1|]. split; intros; [apply A2; auto; lia|]. apply A3. intros; apply H; lia.
Qed.

End Shuffle.

(** ** The parameters of one component *)

(** Component j of a repeating model whose parameters are [params]: the first one reads the
    first mnp parameters, the others have their own free parameters and share the rest. *)
Definition component (mnp : nat) (index : list nat) (params : list R) (j : nat) : list R :=
  match j with
  | 0 => firstn mnp params
  | S j' => assign (firstn mnp params) index
                   (firstn (length index) (skipn (mnp + j' * length index) params))
  end.

Lemma assign_assign {A} idx : NoDup idx -> forall (p u v : list A), length u = length idx -> length v = length idx ->
  (forall i, In i idx -> i < length p) -> assign (assign p idx u) idx v = assign p idx v.
Proof.
  intros N p u v Lu Lv Hp.
  assert (E : forall k, nth_error (assign (assign p idx u) idx v) k = nth_error (assign p idx v) k).
  { intros k. destruct (in_dec Nat.eq_dec k idx) as [Hin|Hout].
    - destruct (In_nth_error _ _ Hin) as [j Hj].
      assert (Hjl : j < length v). { rewrite Lv. apply nth_error_Some. congruence. }
      destruct (nth_error v j) as [w|] eqn:Ev; [|apply nth_error_Some in Hjl; congruence].
      rewrite (assign_same idx (assign p idx u) v j k w) by (auto; rewrite assign_length; auto).
      now rewrite (assign_same idx p v j k w) by auto.
    - now rewrite !assign_other by auto. }
  revert E. generalize (assign (assign p idx u) idx v) (assign p idx v). induction l as [|x l IH]; intros [|y l'] E; auto.
  - specialize (E 0). discriminate.
  - specialize (E 0). discriminate.
  - f_equal; [specialize (E 0); now injection E|apply IH; intros k; exact (E (S k))].
Qed.

Local Open Scope R_scope.

Fixpoint rsum (l : list R) : R := match l with [] => 0 | x :: r => x + rsum r end.

Lemma rsum_app a b : rsum (a ++ b) = rsum a + rsum b.
Proof. induction a; simpl; lra. Qed.

Lemma rsum_perm a b : Permutation a b -> rsum a = rsum b.
Proof. induction 1; simpl; lra. Qed.

(** The loop adds the value of the model at each component. *)
Lemma rep_loop_spec f mnp index params todo : forall j acc pars,
  NoDup index -> (forall i, In i index -> (i < mnp)%nat) ->
  (mnp + (j + todo) * length index <= length params)%nat ->
  (forall v, length v = length index -> assign pars index v = assign (firstn mnp params) index v) ->
  rep_loop f index (length index) todo (mnp + j * length index) pars params acc
  = acc + f pars + rsum (map (fun k => f (component mnp index params (S k))) (seq j todo)).
Proof.
  induction todo as [|todo IH]; intros j acc pars N Hi L Eu; cbn [rep_loop seq map rsum].
  - lra.
  - set (v := firstn (length index) (skipn (mnp + j * length index) params)).
    assert (Lv : length v = length index).
    { unfold v. rewrite firstn_length, skipn_length. nia. }
    assert (Ev : assign pars index v = component mnp index params (S j)).
    { apply Eu. exact Lv. }
    rewrite Ev. replace (mnp + j * length index + length index)%nat with (mnp + (S j) * length index)%nat by (simpl; lia).
    rewrite IH; auto.
    + lra.
    + nia.
    + intros w Lw. unfold component. fold v. rewrite assign_assign; auto. intros i Hin.
      rewrite firstn_length. specialize (Hi i Hin). nia.
Qed.


Lemma rep_result_spec f mnp index n params :
  NoDup index -> (forall i, In i index -> (i < mnp)%nat) ->
  (0 < n)%nat -> (mnp + (n - 1) * length index <= length params)%nat ->
  rep_result f mnp index n params
  = rsum (map (fun j => f (component mnp index params j)) (seq 0 n)).
Proof.
  intros N Hi Hn L. destruct n as [|n]; [lia|]. cbn [rep_result seq map rsum].
  replace mnp with (mnp + 0 * length index)%nat at 1 by lia.
  rewrite rep_loop_spec; auto.
  - rewrite <- seq_shift, map_map. cbn [component]. lra.
  - simpl in L. rewrite Nat.sub_0_r in L. simpl. lia.
Qed.

(** Slot s holds component s+1, the last slot holds component 0. *)
Definition slot2comp (n s : nat) : nat := if (s <? n - 1)%nat then S s else 0%nat.

Lemma slots_are_components n : (0 < n)%nat -> Permutation (map (slot2comp n) (seq 0 n)) (seq 0 n).
Proof.
  intros Hn. destruct n as [|n]; [lia|].
  assert (E : map (slot2comp (S n)) (seq 0 (S n)) = map S (seq 0 n) ++ [0%nat]).
  { rewrite seq_S, map_app. simpl. unfold slot2comp at 2. simpl. rewrite Nat.sub_0_r, Nat.ltb_irrefl. f_equal.
    apply map_ext_in. intros s Hs. apply in_seq in Hs. unfold slot2comp. simpl. rewrite Nat.sub_0_r.
    destruct (s <? n)%nat eqn:E; auto. apply Nat.ltb_ge in E. lia. }
  rewrite E, seq_shift. simpl. symmetry. apply Permutation_cons_append.
Qed.

Section Value.
Context (off mnp : nat) (index : list nat) (n : nat).
Hypothesis Hn : (1 < n)%nat.
Hypothesis Nd : NoDup index.
Hypothesis Hi : forall i, In i index -> (i < mnp)%nat.
Let np := (mnp + (n - 1) * length index)%nat.

Lemma nth_slice (p : list R) k : (k < np)%nat -> (off + np <= length p)%nat ->
  nth k (slice off (off + np) p) 0 = nth (off + k) p 0.
Proof.
  intros H L. unfold slice. replace (off + np - off)%nat with np by lia.
  rewrite <- (firstn_skipn off p) at 2. rewrite app_nth2; rewrite firstn_length; [|lia].
  replace (off + k - Nat.min off (length p))%nat with k by lia.
  rewrite <- (firstn_skipn np (skipn off p)) at 2. rewrite app_nth1; auto.
  rewrite firstn_length, skipn_length. lia.
Qed.

(** Entry i of a component. *)
Lemma component_nth (p : list R) s m : (off + np <= length p)%nat -> (s < n)%nat -> (m < length index)%nat ->
  nth (nth m index 0%nat) (component mnp index (slice off (off + np) p) (slot2comp n s)) 0
  = nth (slotpos off mnp index n m s) p 0.
Proof.
  intros L Hs Hm.
  assert (Him : (nth m index 0 < mnp)%nat) by (apply Hi; now apply nth_In).
  assert (Lsl : length (slice off (off + np) p) = np).
  { unfold slice. rewrite firstn_length, skipn_length. lia. }
  unfold slot2comp, slotpos. destruct (s <? n - 1)%nat eqn:E.
  - apply Nat.ltb_lt in E. unfold component.
    assert (B : (mnp + s * length index + m < np)%nat) by (unfold np; nia).
    replace (mnp + off + s * length index + m)%nat with (off + (mnp + s * length index + m))%nat by lia.
    rewrite <- (nth_slice p _ B L).
    apply nth_error_nth. eapply assign_same with (j := m); auto.
    + now apply nth_error_nth'.
    + rewrite firstn_length, Lsl. unfold np. nia.
    + rewrite nth_error_firstn' by auto. rewrite nth_error_skipn'.
      apply nth_error_nth'. rewrite Lsl. exact B.
  - apply Nat.ltb_ge in E. unfold component.
    rewrite <- (nth_slice p) by (unfold np in *; lia || nia).
    rewrite <- (firstn_skipn mnp (slice off (off + np) p)) at 2. rewrite app_nth1; auto.
    rewrite firstn_length, Lsl. unfold np. nia.
Qed.

Lemma component_shared (p : list R) s i : (off + np <= length p)%nat -> (i < mnp)%nat -> ~ In i index ->
  nth i (component mnp index (slice off (off + np) p) (slot2comp n s)) 0 = nth (off + i) p 0.
Proof.
  intros L H1 H2.
  assert (Lsl : length (slice off (off + np) p) = np).
  { unfold slice. rewrite firstn_length, skipn_length. lia. }
  assert (B : nth i (firstn mnp (slice off (off + np) p)) 0 = nth (off + i) p 0).
  { rewrite <- (nth_slice p) by (unfold np in *; lia || nia).
    rewrite <- (firstn_skipn mnp (slice off (off + np) p)) at 2. rewrite app_nth1; auto.
    rewrite firstn_length, Lsl. unfold np. nia. }
  unfold slot2comp. destruct (s <? n - 1)%nat; unfold component; auto.
  rewrite <- B. apply nth_error_ext_nth. now apply assign_other.
Qed.

Lemma component_length (p : list R) j : (off + np <= length p)%nat ->
  length (component mnp index (slice off (off + np) p) j) = mnp.
Proof.
  intros L. assert (E : length (firstn mnp (slice off (off + np) p)) = mnp).
  { unfold slice. rewrite !firstn_length, skipn_length. unfold np in *. nia. }
  destruct j; unfold component; auto. now rewrite assign_length.
Qed.

Variable per : list nat.
Hypothesis Hper : Permutation per (seq 0 n).

Lemma shuffled_component (p : list R) s : (off + np <= length p)%nat -> (s < n)%nat ->
  let p' := rep_shuffle 0 off mnp index n per p in
  component mnp index (slice off (off + np) p') (slot2comp n (nth s per 0%nat))
  = component mnp index (slice off (off + np) p) (slot2comp n s).
Proof.
  intros L Hs p'.
  destruct (shuffle_spec 0 off mnp index n Hn Nd Hi per Hper p) as (S1 & S2 & S3).
  { unfold np in L. lia. }
  fold p' in S1, S2, S3.
  assert (L' : (off + np <= length p')%nat) by lia.
  apply nth_ext with (d := 0) (d' := 0).
  { now rewrite !component_length. }
  intros i Him. rewrite component_length in Him by auto.
  destruct (in_dec Nat.eq_dec i index) as [Hin|Hout].
  - destruct (In_nth _ _ 0%nat Hin) as (m & Hm & <-).
    rewrite !component_nth; auto. eapply per_lt; eauto.
  - rewrite !component_shared; auto. apply S3. intros m s' Hm Hs' X. unfold slotpos in X.
    destruct (s' <? n - 1)%nat eqn:E.
    + lia.
    + apply Hout. replace i with (nth m index 0%nat) by lia. now apply nth_In.
Qed.

Lemma shuffle_value f (p : list R) : (off + np <= length p)%nat ->
  let p' := rep_shuffle 0 off mnp index n per p in
  rep_result f mnp index n (slice off (off + np) p') = rep_result f mnp index n (slice off (off + np) p).
Proof.
  intros L p'.
  destruct (shuffle_spec 0 off mnp index n Hn Nd Hi per Hper p) as (S1 & _).
  { unfold np in L. lia. }
  fold p' in S1.
  assert (Ls : forall q : list R, length q = length p -> length (slice off (off + np) q) = np).
  { intros q Lq. unfold slice. rewrite firstn_length, skipn_length. lia. }
  rewrite !rep_result_spec; auto; try lia; try (rewrite Ls by auto; unfold np; lia).
  rewrite <- (rsum_perm _ _ (Permutation_map _ (slots_are_components n ltac:(lia)))).
  rewrite <- (rsum_perm _ _ (Permutation_map (fun j => f (component mnp index (slice off (off + np) p) j))
       (slots_are_components n ltac:(lia)))).
  rewrite !map_map.
  rewrite <- (rsum_perm _ _ (Permutation_map _ Hper)).
  f_equal.
  assert (E : per = map (fun s => nth s per 0%nat) (seq 0 n)).
  { apply nth_ext with (d := 0%nat) (d' := 0%nat).
    - rewrite map_length, seq_length. eapply per_length; eauto.
    - intros k Hk. erewrite per_length in Hk by eauto.
      symmetry. apply nth_error_nth. rewrite nth_error_map, (nth_error_nth' _ 0%nat) by (now rewrite seq_length).
      now rewrite seq_nth. }
  etransitivity; [apply f_equal; exact E|].
  rewrite map_map. apply map_ext_in. intros s Hs. apply in_seq in Hs.
  f_equal. apply shuffled_component; auto. lia.
Qed.
End Value.
