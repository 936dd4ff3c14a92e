(** Proofs on fixed parameters. *)
From Coquelicot Require Import Coquelicot.
From Coq Require Import List Arith ZArith Reals Lia Lra Bool Sorted Permutation.
From Verif Require Import L_List M_Fixed M_Chain S_Chain P_Chain.
Import ListNotations.
Local Open Scope nat_scope.

Definition zk (fd : list (nat * fixval)) : list (Z * fixval) :=
  map (fun kv => (Z.of_nat (fst kv), snd kv)) fd.

Definition nmods (fd : list (nat * fixval)) : nat := list_sum (map (fun kv => fv_np (snd kv)) fd).

(** indices without a key *)
Definition freeidx (n : nat) (fd : list (nat * fixval)) : list nat :=
  filter (fun k => negb (existsb (Nat.eqb k) (map fst fd))) (seq 0 n).

Record wf (n : nat) (fd : list (nat * fixval)) (m : fmodel) : Prop :=
  { wf_max : npmax m = n;
    wf_npb : npb m = n + nmods fd;
    wf_fix : fixed m = zk fd;
    wf_par : parlist m = map Z.of_nat (freeidx (n + nmods fd) fd);
    wf_ml : mlist m = map fst (filter (fun kv => ismod (snd kv)) (zk fd));
    wf_nd : NoDup (map fst fd);
    wf_rg : Forall (fun k => k < n) (map fst fd) }.

(** setxor1d *)
Lemma insZ_head a l : Forall (fun b => (a < b)%Z) l -> insZ a l = a :: l.
Proof. intro H. destruct l as [|b l]; [reflexivity|]. cbn. inversion H; subst. destruct (a <? b)%Z eqn:E; [reflexivity|]. apply Z.ltb_ge in E. lia. Qed.

Lemma unique_sorted l : StronglySorted Z.lt l -> uniqueZ l = l.
Proof. induction 1 as [|a l Hs IH Hf]; [reflexivity|]. unfold uniqueZ in *. cbn [fold_right]. rewrite IH. apply insZ_head. exact Hf. Qed.

Lemma seq_SS a n : StronglySorted Nat.lt (seq a n).
Proof.
  revert a. induction n as [|n IH]; intro a; cbn; constructor; auto.
  apply Forall_forall. intros x Hx. apply in_seq in Hx. unfold Nat.lt. lia.
Qed.

Lemma SS_filter {A} (Rl : A -> A -> Prop) f l : StronglySorted Rl l -> StronglySorted Rl (filter f l).
Proof.
  induction 1 as [|a l Hs IH Hf]; cbn; [constructor|]. destruct (f a); [|exact IH].
  constructor; [exact IH|]. rewrite Forall_forall in *. intros x Hx. apply filter_In in Hx. apply Hf. tauto.
Qed.

Lemma SS_map_Z l : StronglySorted Nat.lt l -> StronglySorted Z.lt (map Z.of_nat l).
Proof.
  induction 1 as [|a l Hs IH Hf]; cbn; constructor; auto.
  rewrite Forall_forall in *. intros x Hx. apply in_map_iff in Hx. destruct Hx as [y [<- Hy]].
  specialize (Hf y Hy). unfold Nat.lt in Hf. lia.
Qed.

Lemma memZ_nat k l : memZ (Z.of_nat k) (map Z.of_nat l) = existsb (Nat.eqb k) l.
Proof.
  unfold memZ. induction l as [|a l IH]; [reflexivity|]. cbn. rewrite IH. f_equal.
  destruct (Nat.eqb_spec k a) as [->|N]; [apply Z.eqb_refl|]. apply Z.eqb_neq. lia.
Qed.

Lemma filter_map_Z (f : Z -> bool) l : filter f (map Z.of_nat l) = map Z.of_nat (filter (fun k => f (Z.of_nat k)) l).
Proof. induction l as [|a l IH]; [reflexivity|]. cbn. destruct (f (Z.of_nat a)); cbn; rewrite IH; reflexivity. Qed.

Lemma setxor_spec n ks : Forall (fun k => k < n) ks ->
  setxor1d (map Z.of_nat (seq 0 n)) (map Z.of_nat ks) =
  map Z.of_nat (filter (fun k => negb (existsb (Nat.eqb k) ks)) (seq 0 n)).
Proof.
  intro H. unfold setxor1d. rewrite !filter_map_Z.
  assert (E : filter (fun k => negb (memZ (Z.of_nat k) (map Z.of_nat (seq 0 n)))) ks = []).
  { induction ks as [|a ks IH]; [reflexivity|]. inversion H; subst. cbn. rewrite memZ_nat.
    assert (M : existsb (Nat.eqb a) (seq 0 n) = true).
    { apply existsb_exists. exists a. split; [apply in_seq; lia|apply Nat.eqb_refl]. }
    rewrite M. cbn. apply IH. assumption. }
  rewrite E. cbn [map]. rewrite app_nil_r.
  assert (F : filter (fun k => negb (memZ (Z.of_nat k) (map Z.of_nat ks))) (seq 0 n) =
              filter (fun k => negb (existsb (Nat.eqb k) ks)) (seq 0 n)).
  { apply filter_ext. intro k. rewrite memZ_nat. reflexivity. }
  rewrite F. apply unique_sorted. apply SS_map_Z. apply SS_filter. apply seq_SS.
Qed.

Lemma dict_set_new k v d : ~ In k (map fst d) -> dict_set k v d = d ++ [(k, v)].
Proof.
  induction d as [|[k' v'] d IH]; intro H; [reflexivity|]. cbn in *.
  destruct (Z.eqb_spec k k') as [->|N]; [exfalso; auto|]. rewrite IH by tauto. reflexivity.
Qed.

Definition normk (n : nat) (k : Z) : Z := if (k <? 0)%Z then (k + Z.of_nat n)%Z else k.

Lemma fixfix_spec n fx : NoDup (map (fun kv => normk n (fst kv)) fx) ->
  fixfix n fx = map (fun kv => (normk n (fst kv), snd kv)) fx.
Proof.
  intro H. unfold fixfix.
  assert (G : forall d, NoDup (map fst d ++ map (fun kv => normk n (fst kv)) fx) ->
    fold_left (fun d kv => dict_set (normk n (fst kv)) (snd kv) d) fx d =
    d ++ map (fun kv => (normk n (fst kv), snd kv)) fx).
  { clear H. induction fx as [|[k v] fx IH]; intros d H; cbn [fold_left map fst snd].
    - rewrite app_nil_r. reflexivity.
    - cbn [map fst] in H. rewrite dict_set_new.
      + rewrite IH.
        * rewrite <- app_assoc. reflexivity.
        * rewrite map_app, <- app_assoc. exact H.
      + intro I. apply NoDup_remove_2 in H. apply H. apply in_or_app. auto. }
  apply (G []). exact H.
Qed.

(** User's dictionary: keys in range, no index twice. *)
Definition good_keys (n : nat) (fx : list (Z * fixval)) : Prop :=
  Forall (fun kv => (- Z.of_nat n <= fst kv < Z.of_nat n)%Z) fx /\
  NoDup (map (fun kv => normk n (fst kv)) fx).

Definition natkeys (n : nat) (fx : list (Z * fixval)) : list (nat * fixval) :=
  map (fun kv => (Z.to_nat (normk n (fst kv)), snd kv)) fx.

Lemma mkFixed_wf n fx : good_keys n fx -> wf n (natkeys n fx) (mkFixed n fx).
Proof.
  intros [Hr Hn].
  assert (E : fixfix n fx = zk (natkeys n fx)).
  { rewrite fixfix_spec by exact Hn. unfold zk, natkeys. rewrite map_map. apply map_ext_in.
    intros kv Hk. cbn. rewrite Forall_forall in Hr. specialize (Hr kv Hk). f_equal.
    unfold normk. destruct (Z.ltb_spec (fst kv) 0); lia. }
  assert (R : Forall (fun k => k < n) (map fst (natkeys n fx))).
  { apply Forall_forall. intros k Hk. apply in_map_iff in Hk. destruct Hk as [kv [<- Hk]].
    apply in_map_iff in Hk. destruct Hk as [kv' [<- Hk]]. cbn.
    rewrite Forall_forall in Hr. specialize (Hr kv' Hk). cbn beta in Hr. unfold normk.
    destruct (Z.ltb_spec (fst kv') 0); lia. }
  assert (M : nmods (natkeys n fx) = list_sum (map (fun kv => fv_np (snd kv)) (fixfix n fx))).
  { rewrite E. unfold nmods, zk. rewrite map_map. reflexivity. }
  constructor.
  - reflexivity.
  - cbn. rewrite M. reflexivity.
  - exact E.
  - cbn [parlist mkFixed]. rewrite <- M, E. unfold zk at 1. rewrite map_map. cbn [fst].
    rewrite <- (map_map fst Z.of_nat).
    rewrite setxor_spec; [reflexivity|]. eapply Forall_impl; [|exact R]. cbn. intros; lia.
  - cbn [mlist mkFixed]. rewrite E. reflexivity.
  - unfold natkeys. rewrite map_map. cbn [fst].
    rewrite <- (map_map (fun kv => normk n (fst kv)) Z.to_nat).
    assert (Q : Forall (fun z => (0 <= z)%Z) (map (fun kv => normk n (fst kv)) fx)).
    { apply Forall_forall. intros z Hz. apply in_map_iff in Hz. destruct Hz as [kv [<- Hk]].
      rewrite Forall_forall in Hr. specialize (Hr kv Hk). cbn beta in Hr. unfold normk.
      destruct (Z.ltb_spec (fst kv) 0); lia. }
    revert Hn Q. generalize (map (fun kv => normk n (fst kv)) fx) as l. clear.
    induction l as [|z l IH]; intros N Q; cbn; [constructor|].
    inversion N; subst. inversion Q; subst. constructor; auto.
    intro I. apply in_map_iff in I. destruct I as [y [E I]].
    rewrite Forall_forall in H4. specialize (H4 y I). cbn beta in H4. assert (y = z) by lia. subst. auto.
  - exact R.
Qed.

(** assignments *)
Lemma pyidx_nat n k : k < n -> pyidx n (Z.of_nat k) = Some k.
Proof.
  intro H. unfold pyidx.
  destruct (Z.leb_spec 0 (Z.of_nat k)); [|lia].
  destruct (Z.ltb_spec (Z.of_nat k) (Z.of_nat n)); [|lia]. rewrite Nat2Z.id. reflexivity.
Qed.

Lemma setl_length k v l : length (setl k v l) = length l.
Proof. revert k. induction l as [|a l IH]; intro k; destruct k; cbn; auto. Qed.

Lemma setl_same k v l d : k < length l -> nth k (setl k v l) d = v.
Proof. revert k. induction l as [|a l IH]; intros k H; cbn in H; [lia|]. destruct k; cbn; [reflexivity|]. apply IH. lia. Qed.

Lemma setl_other k j v l d : k <> j -> nth j (setl k v l) d = nth j l d.
Proof. revert k j. induction l as [|a l IH]; intros k j H; destruct k, j; cbn; try reflexivity; try congruence. apply IH. congruence. Qed.

Lemma pysets_spec is_ vs l : NoDup is_ -> Forall (fun i => i < length l) is_ -> length vs = length is_ ->
  exists l', pysets (map Z.of_nat is_) vs l = Some l' /\ length l' = length l /\
    (forall i, i < length is_ -> nth (nth i is_ 0) l' 0%R = nth i vs 0%R) /\
    (forall j, ~ In j is_ -> nth j l' 0%R = nth j l 0%R).
Proof.
  revert vs l. induction is_ as [|i is_ IH]; intros vs l N F L.
  - exists l. cbn. repeat split; auto. intros; lia.
  - destruct vs as [|v vs]; cbn in L; [lia|]. inversion N; subst. inversion F; subst.
    cbn [map pysets]. unfold pyset. rewrite pyidx_nat by assumption.
    destruct (IH vs (setl i v l)) as [l' [A [B [C D]]]].
    { assumption. }
    { rewrite setl_length. assumption. }
    { lia. }
    exists l'. split; [exact A|]. rewrite setl_length in B. split; [exact B|]. split.
    + intros [|j] Hj; cbn [nth].
      * rewrite D by assumption. apply setl_same. assumption.
      * apply C. cbn in Hj. lia.
    + intros j Hj. rewrite D by (intro; apply Hj; right; assumption).
      apply setl_other. intro; subst. apply Hj. left. reflexivity.
Qed.

Definition fval (x : R) (param : list R) (ns : nat) (v : fixval) : R :=
  match v with FVal c => c | FMod np f _ => f x (firstn np (skipn ns param)) end.

Lemma exp_loop_spec x param fd : forall ns l,
  NoDup (map fst fd) -> Forall (fun i => i < length l) (map fst fd) ->
  exists l', exp_loop x (zk fd) param ns l = Some l' /\ length l' = length l /\
    (forall fd1 k v fd2, fd = fd1 ++ (k, v) :: fd2 ->
       nth k l' 0%R = fval x param (ns + nmods fd1) v) /\
    (forall j, ~ In j (map fst fd) -> nth j l' 0%R = nth j l 0%R).
Proof.
  induction fd as [|[k v] fd IH]; intros ns l N F.
  - exists l. cbn. repeat split; auto. intros fd1 k v fd2 E. destruct fd1; discriminate.
  - cbn [map fst] in N, F. inversion N; subst. inversion F; subst.
    set (val := fval x param ns v).
    destruct (IH (ns + fv_np v) (setl k val l)) as [l' [A [B [C D]]]].
    { assumption. }
    { rewrite setl_length. assumption. }
    exists l'. rewrite setl_length in B. split; [|split; [exact B|split]].
    + cbn [zk map exp_loop fst snd]. destruct v as [c|np f df]; unfold pyset;
        rewrite pyidx_nat by assumption; [|exact A].
      cbn [fv_np] in A. rewrite Nat.add_0_r in A. exact A.
    + intros [|[k1 v1] fd1] k' v' fd2 E; cbn [app] in E; inversion E; subst.
      * rewrite D by assumption. rewrite setl_same by assumption. unfold val, nmods. cbn.
        rewrite Nat.add_0_r. reflexivity.
      * rewrite (C fd1 k' v' fd2 eq_refl). unfold nmods. cbn.
        rewrite Nat.add_assoc. reflexivity.
    + intros j Hj. cbn [map fst In] in Hj. rewrite D by tauto. apply setl_other. tauto.
Qed.

Lemma freeidx_In n fd k : In k (freeidx n fd) <-> k < n /\ ~ In k (map fst fd).
Proof.
  unfold freeidx. rewrite filter_In, in_seq, negb_true_iff.
  assert (E : existsb (Nat.eqb k) (map fst fd) = false <-> ~ In k (map fst fd)).
  { split.
    - intros H I. assert (existsb (Nat.eqb k) (map fst fd) = true).
      { apply existsb_exists. exists k. split; [exact I|apply Nat.eqb_refl]. }
      congruence.
    - intro H. destruct (existsb (Nat.eqb k) (map fst fd)) eqn:E; [|reflexivity].
      apply existsb_exists in E. destruct E as [y [I J]]. apply Nat.eqb_eq in J. subst. tauto. }
  rewrite E. intuition lia.
Qed.

Lemma freeidx_NoDup n fd : NoDup (freeidx n fd).
Proof. apply NoDup_filter. apply seq_NoDup. Qed.

Lemma freeidx_split n k fd : Forall (fun k => k < n) (map fst fd) ->
  freeidx (n + k) fd = freeidx n fd ++ seq n k.
Proof.
  intro H. unfold freeidx. rewrite seq_app, filter_app. f_equal. cbn.
  assert (G : forall j, In j (seq n k) -> negb (existsb (Nat.eqb j) (map fst fd)) = true).
  { intros j Hj. apply in_seq in Hj. apply negb_true_iff.
    destruct (existsb (Nat.eqb j) (map fst fd)) eqn:E; [|reflexivity].
    apply existsb_exists in E. destruct E as [y [I J]]. apply Nat.eqb_eq in J. subst.
    rewrite Forall_forall in H. specialize (H y I). cbn beta in H. lia. }
  revert G. generalize (seq n k). intros l G. induction l as [|a l IH]; [reflexivity|].
  cbn [filter]. rewrite G by (left; reflexivity). f_equal. apply IH. intros j Hj. apply G. right. exact Hj.
Qed.

Lemma freeidx_length n fd : NoDup (map fst fd) -> Forall (fun k => k < n) (map fst fd) ->
  length (freeidx n fd) = n - length fd /\ length fd <= n.
Proof.
  intros N F.
  assert (P : Permutation (freeidx n fd ++ map fst fd) (seq 0 n)).
  { apply NoDup_Permutation_bis.
    - assert (G : forall a b : list nat, NoDup a -> NoDup b -> (forall x, In x a -> ~ In x b) -> NoDup (a ++ b)).
      { clear. induction a as [|x a IH]; intros b A B D; [exact B|]. inversion A; subst. cbn. constructor.
        - intro I. apply in_app_or in I. destruct I as [I|I]; [auto|]. apply (D x); [left; reflexivity|exact I].
        - apply IH; auto. intros y Hy. apply D. right. exact Hy. }
      apply G; [apply freeidx_NoDup|exact N|]. intros x Hx. apply freeidx_In in Hx. tauto.
    - apply NoDup_incl_length; [apply seq_NoDup|].
      intros k Hk. apply in_seq in Hk. apply in_or_app.
      destruct (in_dec Nat.eq_dec k (map fst fd)) as [I|I]; [right; exact I|left].
      apply freeidx_In. split; [lia|exact I].
    - intros k Hk. apply in_app_or in Hk. apply in_seq. destruct Hk as [I|I].
      + apply freeidx_In in I. destruct I. lia.
      + rewrite Forall_forall in F. specialize (F k I). cbn beta in F. lia. }
  apply Permutation_length in P. rewrite app_length, map_length, seq_length in P. lia.
Qed.

Lemma nomods fd : map fst (filter (fun kv => ismod (snd kv)) (zk fd)) = [] ->
  forall k v, In (k, v) fd -> exists c, v = FVal c.
Proof.
  induction fd as [|[k v] fd IH]; intros H k' v' I; [destruct I|].
  cbn in H. destruct v as [c|np f df]; [|discriminate]. destruct I as [E|I].
  - inversion E; subst. eauto.
  - eapply IH; eauto.
Qed.

Section WF.
Context (n : nat) (fd : list (nat * fixval)) (m : fmodel) (W : wf n fd m).

Definition nfree := n - length fd.

Lemma wf_free_length : length (freeidx (n + nmods fd) fd) = nfree + nmods fd.
Proof.
  rewrite freeidx_split by apply W. rewrite app_length, seq_length.
  rewrite (proj1 (freeidx_length n fd (wf_nd _ _ _ W) (wf_rg _ _ _ W))). reflexivity.
Qed.

Lemma wf_npbase : fnpbase m = nfree + nmods fd.
Proof.
  unfold fnpbase. rewrite (wf_npb _ _ _ W), (wf_fix _ _ _ W). unfold zk. rewrite map_length.
  pose proof (freeidx_length n fd (wf_nd _ _ _ W) (wf_rg _ _ _ W)). unfold nfree. lia.
Qed.

Lemma expand_spec x param : length param = nfree + nmods fd ->
  exists full, expand m x param = Some full /\ length full = n + nmods fd /\
    (forall i, i < length param -> nth (nth i (freeidx (n + nmods fd) fd) 0) full 0%R = nth i param 0%R) /\
    (forall fd1 k v fd2, fd = fd1 ++ (k, v) :: fd2 ->
       nth k full 0%R = fval x param (nfree + nmods fd1) v).
Proof.
  intro L. unfold expand.
  rewrite (wf_par _ _ _ W), (wf_npb _ _ _ W), (wf_fix _ _ _ W), (wf_ml _ _ _ W), (wf_max _ _ _ W).
  unfold npassign at 1. rewrite map_length, wf_free_length, L, Nat.eqb_refl.
  set (fr := freeidx (n + nmods fd) fd).
  assert (Lf : length fr = nfree + nmods fd) by apply wf_free_length.
  destruct (pysets_spec fr param (repeat 0%R (n + nmods fd))) as [l1 [A [B [C D]]]].
  { apply freeidx_NoDup. }
  { rewrite repeat_length. apply Forall_forall. intros k Hk. apply freeidx_In in Hk. lia. }
  { lia. }
  rewrite A. rewrite repeat_length in B.
  assert (Fk : Forall (fun i => i < length l1) (map fst fd)).
  { eapply Forall_impl; [|apply W]. cbn. intros; lia. }
  assert (Lz : length (zk fd) = length fd) by (unfold zk; apply map_length).
  destruct (map fst (filter (fun kv => ismod (snd kv)) (zk fd))) as [|z zs] eqn:Em.
  - pose proof (nomods fd Em) as NM.
    unfold npassign. rewrite !map_length, Nat.eqb_refl.
    unfold zk. rewrite !map_map. cbn [fst snd].
    rewrite <- (map_map fst Z.of_nat).
    set (vs := map (fun kv => match snd kv with FVal r => r | _ => 0%R end) fd).
    destruct (pysets_spec (map fst fd) vs l1) as [l2 [A2 [B2 [C2 D2]]]].
    { apply W. } { exact Fk. } { unfold vs. rewrite !map_length. reflexivity. }
    exists l2. split; [exact A2|]. split; [lia|]. split.
    + intros i Hi. rewrite D2.
      * apply C. lia.
      * assert (I : In (nth i fr 0) fr) by (apply nth_In; lia). apply freeidx_In in I. tauto.
    + intros fd1 k v fd2 E. specialize (C2 (length fd1)). rewrite map_length in C2.
      assert (Hl : length fd1 < length fd) by (rewrite E, app_length; cbn; lia).
      specialize (C2 Hl).
      assert (K : nth (length fd1) (map fst fd) 0 = k).
      { rewrite E, map_app. rewrite app_nth2; rewrite map_length; [|lia]. rewrite Nat.sub_diag. reflexivity. }
      assert (V : nth (length fd1) vs 0%R = match v with FVal r => r | _ => 0%R end).
      { unfold vs. rewrite E, map_app. rewrite app_nth2; rewrite map_length; [|lia]. rewrite Nat.sub_diag. reflexivity. }
      rewrite K, V in C2. rewrite C2.
      destruct (NM k v) as [c ->]; [rewrite E; apply in_or_app; right; left; reflexivity|]. reflexivity.
  - rewrite Lz. destruct (exp_loop_spec x param fd (n - length fd) l1) as [l2 [A2 [B2 [C2 D2]]]].
    { apply W. } { exact Fk. }
    exists l2. split; [exact A2|]. split; [lia|]. split.
    + intros i Hi. rewrite D2.
      * apply C. lia.
      * assert (I : In (nth i fr 0) fr) by (apply nth_In; lia). apply freeidx_In in I. tauto.
    + exact C2.
Qed.

End WF.

Lemma nth_setp i k t p d : k < length p -> nth i (setp k t p) d = if Nat.eqb i k then t else nth i p d.
Proof.
  revert i k. induction p as [|a p IH]; intros i k H; cbn in H; [lia|].
  destruct k as [|k]; unfold setp in *.
  - cbn. destruct i; reflexivity.
  - cbn [firstn app skipn]. destruct i as [|i]; [reflexivity|]. cbn [nth Nat.eqb].
    apply (IH i k). lia.
Qed.

Lemma nmods_app a b : nmods (a ++ b) = nmods a + nmods b.
Proof. unfold nmods. rewrite map_app, list_sum_app. reflexivity. Qed.

Lemma nmods_cons k v b : nmods ((k, v) :: b) = fv_np v + nmods b.
Proof. reflexivity. Qed.

Lemma part_loop_length x fd full g nb :
  (forall fd1 k ne f df fd2, fd = fd1 ++ (k, FMod ne f df) :: fd2 ->
     length (df x (firstn ne (skipn (nb + nmods fd1) full))) = ne) ->
  length (part_loop x (zk fd) full g nb) = nmods fd.
Proof.
  revert nb. induction fd as [|[k v] fd IH]; intros nb H; [reflexivity|].
  rewrite nmods_cons. destruct v as [c|ne f df]; cbn [zk map part_loop fst snd fv_np].
  - apply IH. intros fd1 k' ne f df fd2 E. apply (H ((k, FVal c) :: fd1) k' ne f df fd2). rewrite E. reflexivity.
  - rewrite app_length, map_length. f_equal.
    + pose proof (H [] k ne f df fd eq_refl) as Q. unfold nmods in Q. cbn in Q. rewrite Nat.add_0_r in Q. exact Q.
    + apply IH. intros fd1 k' ne' f' df' fd2 E.
      pose proof (H ((k, FMod ne f df) :: fd1) k' ne' f' df' fd2) as Q.
      rewrite nmods_cons in Q. cbn [fv_np] in Q. rewrite Nat.add_assoc in Q. apply Q. rewrite E. reflexivity.
Qed.

Lemma part_loop_nth x full g fd : forall nb,
  (forall fd1 k ne f df fd2, fd = fd1 ++ (k, FMod ne f df) :: fd2 ->
     length (df x (firstn ne (skipn (nb + nmods fd1) full))) = ne) ->
  forall fd1 k ne f df fd2 i, fd = fd1 ++ (k, FMod ne f df) :: fd2 -> i < ne ->
  nth (nmods fd1 + i) (part_loop x (zk fd) full g nb) 0%R =
  (nth k g 0 * nth i (df x (firstn ne (skipn (nb + nmods fd1) full))) 0)%R.
Proof.
  induction fd as [|[k0 v0] fd IH]; intros nb H fd1 k ne f df fd2 i E Hi; [destruct fd1; discriminate|].
  assert (L0 : forall ne0 f0 df0, v0 = FMod ne0 f0 df0 -> length (df0 x (firstn ne0 (skipn nb full))) = ne0).
  { intros ne0 f0 df0 ->. pose proof (H [] k0 ne0 f0 df0 fd eq_refl) as Q.
    unfold nmods in Q. cbn in Q. rewrite Nat.add_0_r in Q. exact Q. }
  assert (H' : forall fd1 k ne f df fd2, fd = fd1 ++ (k, FMod ne f df) :: fd2 ->
     length (df x (firstn ne (skipn (nb + fv_np v0 + nmods fd1) full))) = ne).
  { intros fd1' k' ne' f' df' fd2' E'. pose proof (H ((k0, v0) :: fd1') k' ne' f' df' fd2') as Q.
    rewrite nmods_cons in Q. rewrite Nat.add_assoc in Q. apply Q. rewrite E'. reflexivity. }
  destruct fd1 as [|[k1 v1] fd1]; cbn [app] in E; inversion E; subst.
  - unfold nmods. cbn [map list_sum fold_right zk part_loop fst snd]. rewrite Nat.add_0_r. cbn [Nat.add].
    specialize (L0 ne f df eq_refl).
    rewrite app_nth1 by (rewrite map_length; lia).
    rewrite (nth_indep _ 0%R ((fun d => nth (Z.to_nat (Z.of_nat k)) g 0 * d)%R 0%R)) by (rewrite map_length; lia).
    rewrite map_nth. rewrite Nat2Z.id. reflexivity.
  - rewrite nmods_cons. destruct v1 as [c|ne1 f1 df1]; cbn [zk map part_loop fst snd fv_np] in *.
    + rewrite Nat.add_0_r in H'. rewrite Nat.add_0_l. eapply IH; eauto.
    + specialize (L0 ne1 f1 df1 eq_refl).
      rewrite app_nth2 by (rewrite map_length, L0; lia). rewrite map_length, L0.
      replace (ne1 + nmods fd1 + i - ne1) with (nmods fd1 + i) by lia.
      rewrite Nat.add_assoc. eapply IH; eauto.
Qed.

Lemma fd_positions (fd : list (nat * fixval)) : NoDup (map fst fd) ->
  forall fd1 k v fd2 fd1' k' v' fd2', fd = fd1 ++ (k, v) :: fd2 -> fd = fd1' ++ (k', v') :: fd2' ->
  k <> k' -> nmods fd1' + fv_np v' <= nmods fd1 \/ nmods fd1 + fv_np v <= nmods fd1'.
Proof.
  induction fd as [|[a b] fd IH]; intros N fd1 k v fd2 fd1' k' v' fd2' E E' Hk; [destruct fd1; discriminate|].
  inversion N; subst.
  destruct fd1 as [|[a1 b1] fd1]; destruct fd1' as [|[a2 b2] fd1']; cbn [app] in E, E'.
  - inversion E; inversion E'; subst. congruence.
  - inversion E; inversion E'; subst. right. rewrite nmods_cons. unfold nmods at 1. cbn. lia.
  - inversion E; inversion E'; subst. left. rewrite nmods_cons. unfold nmods at 1. cbn. lia.
  - inversion E; inversion E'; subst. rewrite !nmods_cons.
    destruct (IH H2 fd1 k v fd2 fd1' k' v' fd2' eq_refl ltac:(assumption) Hk); lia.
Qed.

Lemma fd_find fd j : j < nmods fd ->
  exists fd1 k ne f df fd2 i, fd = fd1 ++ (k, FMod ne f df) :: fd2 /\ i < ne /\ j = nmods fd1 + i.
Proof.
  revert j. induction fd as [|[k v] fd IH]; intros j H.
  - unfold nmods in H. cbn in H. lia.
  - rewrite nmods_cons in H. destruct (Nat.lt_ge_cases j (fv_np v)) as [J|J].
    + destruct v as [c|ne f df]; cbn in J; [lia|]. exists [], k, ne, f, df, fd, j.
      repeat split; auto.
    + destruct (IH (j - fv_np v)) as [fd1 [k' [ne [f [df [fd2 [i [E [Hi Ej]]]]]]]]]; [lia|].
      exists ((k, v) :: fd1), k', ne, f, df, fd2, i. split; [rewrite E; reflexivity|]. split; [exact Hi|].
      rewrite nmods_cons. lia.
Qed.

Section WF2.
Context (n : nat) (fd : list (nat * fixval)) (m : fmodel) (W : wf n fd m).
Notation nf := (nfree n fd).

Lemma free_low i : i < nf -> nth i (freeidx (n + nmods fd) fd) 0 = nth i (freeidx n fd) 0.
Proof.
  intro H. rewrite freeidx_split by apply W. rewrite app_nth1; [reflexivity|].
  rewrite (proj1 (freeidx_length n fd (wf_nd _ _ _ W) (wf_rg _ _ _ W))). exact H.
Qed.

Lemma free_high i : i < nmods fd -> nth (nf + i) (freeidx (n + nmods fd) fd) 0 = n + i.
Proof.
  intro H. rewrite freeidx_split by apply W.
  pose proof (proj1 (freeidx_length n fd (wf_nd _ _ _ W) (wf_rg _ _ _ W))) as L.
  rewrite app_nth2; rewrite L; [|unfold nfree; lia].
  replace (nf + i - (n - length fd)) with i by (unfold nfree; lia).
  apply seq_nth. exact H.
Qed.

Lemma skipn_full x param full : expand m x param = Some full -> length param = nf + nmods fd ->
  skipn n full = skipn nf param.
Proof.
  intros E L. destruct (expand_spec n fd m W x param L) as [full' [E' [Lf [C D]]]].
  rewrite E in E'. inversion E'; subst full'. clear E'.
  apply nth_ext with (d := 0%R) (d' := 0%R).
  - rewrite !skipn_length. lia.
  - intros i Hi. rewrite skipn_length in Hi. rewrite !nth_skipn'.
    rewrite <- free_high by lia. apply C. lia.
Qed.

(** How the full list changes with one parameter. *)
Lemma expand_low x param full j t : expand m x param = Some full -> length param = nf + nmods fd ->
  j < nf ->
  exists full', expand m x (setp j t param) = Some full' /\
    firstn n full' = setp (nth j (freeidx n fd) 0) t (firstn n full).
Proof.
  intros E L Hj. destruct (expand_spec n fd m W x param L) as [full0 [E0 [Lf [C D]]]].
  rewrite E in E0. inversion E0; subst full0. clear E0.
  destruct (expand_spec n fd m W x (setp j t param)) as [full' [E' [Lf' [C' D']]]].
  { rewrite setp_length by lia. exact L. }
  exists full'. split; [exact E'|].
  set (idx := nth j (freeidx n fd) 0).
  pose proof (freeidx_length n fd (wf_nd _ _ _ W) (wf_rg _ _ _ W)) as [Lfr _].
  assert (Ii : In idx (freeidx n fd)) by (apply nth_In; fold nf in Lfr; unfold nfree in *; lia).
  pose proof (proj1 (freeidx_In n fd idx) Ii) as [I1 I2].
  assert (L1 : length (firstn n full) = n) by (rewrite firstn_length; lia).
  apply nth_ext with (d := 0%R) (d' := 0%R).
  - rewrite setp_length by lia. rewrite !firstn_length. lia.
  - intros k Hk. rewrite firstn_length in Hk. rewrite nth_setp by lia.
    rewrite !nth_firstn_lt' by lia.
    destruct (in_dec Nat.eq_dec k (map fst fd)) as [K|K].
    + destruct (Nat.eqb_spec k idx) as [->|_]; [tauto|].
      apply in_map_iff in K. destruct K as [[k0 v] [Ek K]]. cbn in Ek. subst k0.
      apply in_split in K. destruct K as [fd1 [fd2 Ef]].
      rewrite (D _ _ _ _ Ef), (D' _ _ _ _ Ef). unfold fval.
      destruct v as [c|np f df]; [reflexivity|].
      destruct (setp_first (nf + nmods fd1) j t param) as [_ B]; [lia| |rewrite B; reflexivity].
      assert (Lm : nmods fd = nmods fd1 + nmods ((k, FMod np f df) :: fd2)) by (rewrite Ef at 1; apply nmods_app).
      lia.
    + assert (Kf : In k (freeidx n fd)) by (apply freeidx_In; split; [lia|exact K]).
      destruct (In_nth _ _ 0 Kf) as [i [Hi Ei]]. rewrite Lfr in Hi. fold nf in Hi.
      rewrite <- Ei. rewrite <- !free_low by exact Hi.
      rewrite (C' i) by (rewrite setp_length by lia; lia). rewrite C by lia.
      rewrite nth_setp by lia. rewrite free_low by exact Hi. unfold idx.
      destruct (Nat.eqb_spec i j) as [->|N]; [rewrite Nat.eqb_refl; reflexivity|].
      destruct (Nat.eqb_spec (nth i (freeidx n fd) 0) (nth j (freeidx n fd) 0)) as [Q|Q]; [|reflexivity].
      exfalso. apply N. eapply (proj1 (NoDup_nth _ 0)); [apply freeidx_NoDup| | |exact Q];
        unfold nfree in *; lia.
Qed.

Lemma expand_high x param full fd1 k ne f df fd2 i t :
  expand m x param = Some full -> length param = nf + nmods fd ->
  fd = fd1 ++ (k, FMod ne f df) :: fd2 -> i < ne ->
  exists full', expand m x (setp (nf + nmods fd1 + i) t param) = Some full' /\
    firstn n full' = setp k (f x (setp i t (firstn ne (skipn (nf + nmods fd1) param)))) (firstn n full).
Proof.
  intros E L Ef Hi. destruct (expand_spec n fd m W x param L) as [full0 [E0 [Lf [C D]]]].
  rewrite E in E0. inversion E0; subst full0. clear E0.
  assert (Lm : nmods fd = nmods fd1 + (ne + nmods fd2)) by (rewrite Ef at 1; rewrite nmods_app, nmods_cons; reflexivity).
  set (j := nf + nmods fd1 + i).
  assert (Hj : j < length param) by (unfold j; lia).
  destruct (expand_spec n fd m W x (setp j t param)) as [full' [E' [Lf' [C' D']]]].
  { rewrite setp_length by lia. exact L. }
  exists full'. split; [exact E'|].
  pose proof (freeidx_length n fd (wf_nd _ _ _ W) (wf_rg _ _ _ W)) as [Lfr _].
  assert (Kn : k < n).
  { pose proof (wf_rg _ _ _ W) as Rg. rewrite Forall_forall in Rg. apply Rg. rewrite Ef, map_app.
    apply in_or_app. right. left. reflexivity. }
  assert (Kin : In k (map fst fd)).
  { rewrite Ef, map_app. apply in_or_app. right. left. reflexivity. }
  assert (L1 : length (firstn n full) = n) by (rewrite firstn_length; lia).
  apply nth_ext with (d := 0%R) (d' := 0%R).
  - rewrite setp_length by lia. rewrite !firstn_length. lia.
  - intros k0 Hk. rewrite firstn_length in Hk. rewrite nth_setp by lia.
    rewrite !nth_firstn_lt' by lia.
    destruct (Nat.eqb_spec k0 k) as [->|N].
    + rewrite (D' _ _ _ _ Ef). cbn [fval]. f_equal.
      destruct (setp_second (nf + nmods fd1) j t param) as [_ B]; [unfold j; lia|lia|].
      rewrite B. replace (j - (nf + nmods fd1)) with i by (unfold j; lia).
      apply setp_first; [exact Hi|]. rewrite skipn_length. lia.
    + destruct (in_dec Nat.eq_dec k0 (map fst fd)) as [K|K].
      * apply in_map_iff in K. destruct K as [[k1 v] [Ek K]]. cbn in Ek. subst k1.
        apply in_split in K. destruct K as [fd1' [fd2' Ef']].
        rewrite (D _ _ _ _ Ef'), (D' _ _ _ _ Ef'). unfold fval.
        destruct v as [c|ne' f' df']; [reflexivity|].
        assert (Lm' : nmods fd = nmods fd1' + (ne' + nmods fd2')) by (rewrite Ef' at 1; rewrite nmods_app, nmods_cons; reflexivity).
        destruct (fd_positions fd (wf_nd _ _ _ W) _ _ _ _ _ _ _ _ Ef Ef') as [P|P]; [congruence| |].
        { cbn [fv_np] in P. f_equal.
          destruct (setp_second (nf + nmods fd1') j t param) as [_ B]; [unfold j; lia|lia|].
          rewrite B.
          destruct (setp_second ne' (j - (nf + nmods fd1')) t (skipn (nf + nmods fd1') param)) as [A _];
            [unfold j; lia|rewrite skipn_length; lia|]. exact A. }
        { cbn [fv_np] in P.
          destruct (setp_first (nf + nmods fd1') j t param) as [_ B]; [unfold j; lia|lia|].
          rewrite B. reflexivity. }
      * assert (Kf : In k0 (freeidx n fd)) by (apply freeidx_In; split; [lia|exact K]).
        destruct (In_nth _ _ 0 Kf) as [i0 [Hi0 Ei]]. rewrite Lfr in Hi0. fold nf in Hi0.
        rewrite <- Ei. rewrite <- !free_low by exact Hi0.
        rewrite (C' i0) by (rewrite setp_length by lia; lia). rewrite C by lia.
        rewrite nth_setp by lia. unfold nfree in *.
        destruct (Nat.eqb_spec i0 j) as [->|Nj]; [unfold j in *; lia|]. reflexivity.
Qed.

Lemma fpartial_eq DF x param full : expand m x param = Some full -> length param = nf + nmods fd ->
  fpartial DF m x param =
  Some (sel_cols (DF x (firstn n full)) (map Z.of_nat (freeidx n fd)) ++
        part_loop x (zk fd) full (DF x (firstn n full)) n).
Proof.
  intros E L. unfold fpartial. rewrite E.
  rewrite (wf_par _ _ _ W), (wf_fix _ _ _ W), (wf_ml _ _ _ W), (wf_max _ _ _ W).
  pose proof (freeidx_length n fd (wf_nd _ _ _ W) (wf_rg _ _ _ W)) as [Lfr _].
  destruct (map fst (filter (fun kv => ismod (snd kv)) (zk fd))) as [|z zs] eqn:Em.
  - pose proof (nomods fd Em) as NM. f_equal.
    assert (Z0 : nmods fd = 0).
    { clear - NM. induction fd as [|[k v] l IH]; [reflexivity|]. rewrite nmods_cons.
      destruct (NM k v) as [c ->]; [left; reflexivity|]. cbn. apply IH. intros. apply (NM k0 v). right. assumption. }
    assert (P0 : part_loop x (zk fd) full (DF x (firstn n full)) n = []).
    { clear - NM. generalize n at 2. induction fd as [|[k v] l IH]; intro n0; [reflexivity|].
      destruct (NM k v) as [c ->]; [left; reflexivity|]. cbn [zk map part_loop fst snd].
      apply IH. intros. apply (NM k0 v). right. assumption. }
    rewrite P0, app_nil_r, Z0, Nat.add_0_r. reflexivity.
  - assert (Lz : length (zk fd) = length fd) by (unfold zk; apply map_length).
    cbn zeta. rewrite Lz.
    rewrite freeidx_split by apply W. rewrite map_app.
    rewrite firstn_app. rewrite map_length, Lfr, Nat.sub_diag. cbn [firstn].
    rewrite app_nil_r. rewrite (firstn_all2 (map Z.of_nat (freeidx n fd))) by (rewrite map_length; lia). reflexivity.
Qed.

Local Open Scope R_scope.

Theorem fixed_gradient F DF x param full :
  expand m x param = Some full -> length param = (nf + nmods fd)%nat ->
  gradient (F x) (firstn n full) (DF x (firstn n full)) ->
  (forall fd1 k ne f df fd2, fd = fd1 ++ (k, FMod ne f df) :: fd2 ->
     let s := firstn ne (skipn (nf + nmods fd1) param) in gradient (f x) s (df x s)) ->
  exists g, fpartial DF m x param = Some g /\
    gradient (fun p => match fresult F m x p with Some v => v | None => 0 end) param g.
Proof.
  intros E L [LG HG] HM. eexists. split; [apply (fpartial_eq DF x param full E L)|].
  set (full0 := firstn n full) in *. set (G := DF x full0) in *.
  destruct (expand_spec n fd m W x param L) as [full' [E' [Lf [C D]]]].
  rewrite E in E'. inversion E'; subst full'. clear E'.
  assert (L0 : length full0 = n) by (unfold full0; rewrite firstn_length; lia).
  rewrite L0 in LG.
  pose proof (freeidx_length n fd (wf_nd _ _ _ W) (wf_rg _ _ _ W)) as [Lfr _].
  pose proof (skipn_full x param full E L) as SF.
  assert (SL : forall fd1, firstn (n + nmods fd1) full = firstn (n + nmods fd1) full /\
               skipn (n + nmods fd1) full = skipn (nf + nmods fd1) param).
  { intro fd1. split; [reflexivity|].
    rewrite (Nat.add_comm n), (Nat.add_comm (nfree n fd)), <- !skipn_skipn, SF. reflexivity. }
  assert (HL : forall fd1 k ne f df fd2, fd = fd1 ++ (k, FMod ne f df) :: fd2 ->
     length (df x (firstn ne (skipn (n + nmods fd1) full))) = ne).
  { intros fd1 k ne f df fd2 Ef. destruct (HM fd1 k ne f df fd2 Ef) as [Q _].
    rewrite (proj2 (SL fd1)). rewrite Q, firstn_length, skipn_length.
    rewrite Ef, nmods_app, nmods_cons in L. cbn [fv_np] in L. rewrite <- Ef in L. lia. }
  assert (Lc : length (sel_cols G (map Z.of_nat (freeidx n fd))) = nf).
  { unfold sel_cols. rewrite !map_length. exact Lfr. }
  split.
  { rewrite app_length, Lc, (part_loop_length x fd full G n HL). lia. }
  intros j Hj. destruct (Nat.lt_ge_cases j nf) as [J|J].
  - rewrite app_nth1 by lia.
    set (idx := nth j (freeidx n fd) 0%nat).
    assert (Ii : In idx (freeidx n fd)) by (apply nth_In; unfold nfree in *; lia).
    pose proof (proj1 (freeidx_In n fd idx) Ii) as [I1 I2].
    assert (Eg : nth j (sel_cols G (map Z.of_nat (freeidx n fd))) 0 = nth idx G 0).
    { unfold sel_cols. rewrite map_map.
      rewrite (nth_indep _ 0 ((fun k => nth (Z.to_nat (Z.of_nat k)) G 0) 0%nat)) by (rewrite map_length; unfold nfree in *; lia).
      rewrite (map_nth (fun k => nth (Z.to_nat (Z.of_nat k)) G 0)). cbn beta. rewrite Nat2Z.id. reflexivity. }
    rewrite Eg. rewrite L0 in HG. specialize (HG idx I1).
    apply is_derive_ext with (f := fun t => F x (setp idx t full0)).
    + intro t. unfold fresult. destruct (expand_low x param full j t E L J) as [f' [A B]].
      rewrite A. cbn [option_map]. rewrite (wf_max _ _ _ W), B. reflexivity.
    + replace (nth j param 0) with (nth idx full0 0); [exact HG|].
      unfold full0, idx. rewrite nth_firstn_lt' by exact I1.
      rewrite <- free_low by exact J. apply C. lia.
  - rewrite app_nth2 by lia. rewrite Lc.
    destruct (fd_find fd (j - nf)) as [fd1 [k [ne [f [df [fd2 [i [Ef [Hi Ej]]]]]]]]]; [lia|].
    rewrite Ej. rewrite (part_loop_nth x full G fd n HL fd1 k ne f df fd2 i Ef Hi).
    rewrite (proj2 (SL fd1)).
    pose proof (HM fd1 k ne f df fd2 Ef) as [Ls Hs]. cbn zeta in *.
    set (s := firstn ne (skipn (nf + nmods fd1) param)) in *.
    assert (Lms : length s = ne).
    { unfold s. rewrite firstn_length, skipn_length.
      rewrite Ef, nmods_app, nmods_cons in L. cbn [fv_np] in L. rewrite <- Ef in L. lia. }
    rewrite Lms in Hs. specialize (Hs i Hi).
    assert (Kn : (k < n)%nat).
    { pose proof (wf_rg _ _ _ W) as Rg. rewrite Forall_forall in Rg. apply Rg. rewrite Ef, map_app.
      apply in_or_app. right. left. reflexivity. }
    rewrite L0 in HG. specialize (HG k Kn).
    assert (Ejj : j = (nf + nmods fd1 + i)%nat) by lia.
    assert (Esi : nth i s 0 = nth j param 0).
    { unfold s. rewrite nth_firstn_lt' by exact Hi. rewrite nth_skipn'. f_equal. lia. }
    apply is_derive_ext with (f := fun t => F x (setp k (f x (setp i t s)) full0)).
    + intro t. unfold fresult.
      destruct (expand_high x param full fd1 k ne f df fd2 i t E L Ef Hi) as [f' [A B]].
      rewrite Ejj, A. cbn [option_map]. rewrite (wf_max _ _ _ W), B. reflexivity.
    + evar_last.
      { apply (is_derive_comp (fun u => F x (setp k u full0)) (fun t => f x (setp i t s))).
        - instantiate (1 := nth k G 0).
          replace (f x (setp i (nth j param 0) s)) with (nth k full0 0); [exact HG|].
          rewrite <- Esi, setp_nth by lia. unfold full0. rewrite nth_firstn_lt' by exact Kn.
          rewrite (D _ _ _ _ Ef). reflexivity.
        - rewrite <- Esi. exact Hs. }
      unfold scal; cbn; unfold mult; cbn. ring.
Qed.

End WF2.
