(** Proofs about the linear fitters. *)
From Coq Require Import List Arith Reals Bool Lia Lra Psatz.
From Verif Require Import L_List L_Sum M_Fitter S_Fitter.
Import ListNotations.
Local Open Scope R_scope.

Lemma place_out index b k a j : ~ In j index -> place index b k a j = a j.
Proof.
  revert k a. induction index as [|i r IH]; intros k a H; [reflexivity|]. cbn [place]. rewrite IH by (intro; apply H; right; assumption).
  destruct (Nat.eqb_spec j i) as [->|]; [exfalso; apply H; left; reflexivity|reflexivity].
Qed.

Lemma place_base index b k a a' j : a j = a' j -> place index b k a j = place index b k a' j.
Proof.
  revert k a a'. induction index as [|i r IH]; intros k a a' H; [exact H|]. cbn [place]. apply IH. destruct (j =? i)%nat; [reflexivity|exact H].
Qed.

Lemma place_in index b k a i : NoDup index -> (i < length index)%nat -> place index b k a (nth i index 0%nat) = b (k + i)%nat.
Proof.
  revert k a i. induction index as [|j r IH]; intros k a i ND H; [cbn in H; lia|]. inversion ND; subst. cbn [place].
  destruct i as [|i]; cbn [nth].
  - rewrite place_out by assumption. rewrite Nat.eqb_refl, Nat.add_0_r. reflexivity.
  - rewrite IH; [f_equal; lia|assumption|cbn in H; lia].
Qed.

Lemma place_sum n c index b k a : NoDup index -> Forall (fun j => (j < n)%nat) index ->
  sum n (fun j => c j * place index b k a j) = sum n (fun j => c j * place index zeros k a j) + sum (length index) (fun i => c (nth i index 0%nat) * b (k + i)%nat).
Proof.
  revert k a. induction index as [|j0 r IH]; intros k a ND F; [cbn; lra|]. inversion ND; subst. inversion F; subst. cbn [place].
  rewrite IH by assumption.
  replace (sum (length (j0 :: r)) (fun i => c (nth i (j0 :: r) 0%nat) * b (k + i)%nat))
    with (c j0 * b k + sum (length r) (fun i => c (nth i r 0%nat) * b (S k + i)%nat)).
  2:{ change (length (j0 :: r)) with (1 + length r)%nat. rewrite sum_app. cbn [sum]. rewrite Nat.add_0_r. cbn [nth Nat.add]. rewrite Rplus_0_l. f_equal.
      apply sum_ext. intros i _. rewrite <- Nat.add_succ_comm. reflexivity. }
  rewrite <- Rplus_assoc. f_equal.
  transitivity (sum n (fun j => c j * place r zeros (S k) (fun i => if (i =? j0)%nat then zeros k else a i) j + (if (j =? j0)%nat then c j0 * b k else 0))).
  - apply sum_ext. intros j _. destruct (Nat.eqb_spec j j0) as [->|E].
    + rewrite !place_out by assumption. rewrite Nat.eqb_refl. unfold zeros. lra.
    + rewrite (place_base r zeros (S k) _ (fun i => if (i =? j0)%nat then zeros k else a i) j); [lra|]. cbn beta. apply Nat.eqb_neq in E. rewrite E. reflexivity.
  - rewrite sum_plus. f_equal. rewrite (sum_one n j0); [rewrite Nat.eqb_refl; reflexivity|assumption|]. intros j _ E. apply Nat.eqb_neq in E. rewrite E. reflexivity.
Qed.

(** indices as keepFixed makes them *)
Definition wfi (np : nat) (fi : list nat) : Prop := exists g, fi = filter g (seq 0 np).

Lemma wfi_nodup np fi : wfi np fi -> NoDup fi.
Proof. intros [g ->]. apply NoDup_filter, seq_NoDup. Qed.
Lemma wfi_range np fi : wfi np fi -> Forall (fun j => (j < np)%nat) fi.
Proof. intros [g ->]. apply Forall_forall. intros j H. apply filter_In in H. destruct H as [H _]. apply in_seq in H. lia. Qed.
Lemma filter_full {A} (g : A -> bool) l : length (filter g l) = length l -> filter g l = l.
Proof.
  induction l as [|a l IH]; [reflexivity|]. cbn. destruct (g a); cbn; intro H; [rewrite IH; [reflexivity|lia]|].
  assert (G : (length (filter g l) <= length l)%nat) by (clear; induction l as [|b l IH]; [apply le_n|cbn; destruct (g b); cbn; lia]). lia.
Qed.
Lemma wfi_full np fi : wfi np fi -> length fi = np -> fi = seq 0 np.
Proof. intros [g ->] H. apply filter_full. rewrite seq_length. exact H. Qed.

Lemma insert_place m q fi a j : wfi (m_np m) fi -> (j < m_np m)%nat -> insertParameters m q fi a j = place fi q 0 a j.
Proof.
  intros W H. unfold insertParameters. destruct (Nat.eqb_spec (length fi) (m_np m)) as [E|]; [|reflexivity].
  pose proof (place_in fi q 0 a j (wfi_nodup _ _ W)) as P. rewrite E in P. specialize (P H). rewrite (wfi_full _ _ W E) in P at 2. rewrite seq_nth in P by exact H. cbn in P. symmetry. exact P.
Qed.

(** all rows in one *)
Definition resid (m : pmodel) (s : fst8) (y p : vec) : vec :=
  append (m_n m) (fun i => y i - m_res m p i) (fun i => f_ndat s i - sum (m_np m) (fun j => f_ndf s i j * p j)).
Lemma goal_resid m s y w p : goal m s y w p = sum (rows m s) (fun i => append (m_n m) w (f_nwgt s) i * resid m s y p i ^ 2).
Proof.
  unfold goal, rows. rewrite sum_app. f_equal; apply sum_ext; intros i Hi; unfold resid, append.
  - apply Nat.ltb_lt in Hi. rewrite Hi. reflexivity.
  - destruct (Nat.ltb_spec (m_n m + i) (m_n m)); [lia|]. replace (m_n m + i - m_n m)%nat with i by lia. reflexivity.
Qed.

(** the residuals at parameters that differ only in the index *)
Lemma resid_place m off D s y fi q a par0 i : linear m off D -> wfi (m_np m) fi -> (i < rows m s)%nat ->
  (forall k, (k < f_nrow s)%nat -> sum (m_np m) (fun j => f_ndf s k j * place fi zeros 0 a j) = 0) ->
  resid m s y (place fi q 0 a) i =
  append (m_n m) (fun i => y i - m_res m (place fi zeros 0 a) i) (f_ndat s) i - sum (length fi) (fun k => getDesign m s par0 fi i k * q k).
Proof.
  intros L W Hi N. pose proof (wfi_nodup _ _ W) as ND. pose proof (wfi_range _ _ W) as RG.
  unfold resid, append, getDesign. destruct (Nat.ltb_spec i (m_n m)) as [Hn|Hn].
  - destruct (L (place fi q 0 a) i Hn) as [-> _]. destruct (L (place fi zeros 0 a) i Hn) as [-> _].
    rewrite (place_sum (m_np m) (fun j => D i j) fi q 0 a ND RG).
    rewrite (sum_ext (length fi) (fun k => append (m_n m) (m_par m par0) (f_ndf s) i (nth k fi 0%nat) * q k) (fun k => D i (nth k fi 0%nat) * q (0 + k)%nat)).
    + ring.
    + intros k Hk. unfold append. apply Nat.ltb_lt in Hn as Hb. rewrite Hb. destruct (L par0 i Hn) as [_ ->]; [reflexivity|].
      exact (proj1 (Forall_forall _ _) RG _ (nth_In _ _ Hk)).
  - rewrite (place_sum (m_np m) (fun j => f_ndf s (i - m_n m)%nat j) fi q 0 a ND RG), N by (unfold rows in Hi; lia).
    rewrite (sum_ext (length fi) (fun k => append (m_n m) (m_par m par0) (f_ndf s) i (nth k fi 0%nat) * q k) (fun k => f_ndf s (i - m_n m)%nat (nth k fi 0%nat) * q (0 + k)%nat)); [ring|].
    intros k Hk. unfold append. destruct (Nat.ltb_spec i (m_n m)); [lia|reflexivity].
Qed.

Lemma goal_ext m off D s y w p p' : linear m off D -> (forall j, (j < m_np m)%nat -> p j = p' j) -> goal m s y w p = goal m s y w p'.
Proof.
  intros L E. unfold goal. f_equal; apply sum_ext; intros i Hi.
  - destruct (L p i Hi) as [-> _]. destruct (L p' i Hi) as [-> _].
    rewrite (sum_ext (m_np m) (fun j => D i j * p j) (fun j => D i j * p' j)) by (intros j Hj; rewrite (E j Hj); reflexivity). reflexivity.
  - rewrite (sum_ext (m_np m) (fun j => f_ndf s i j * p j) (fun j => f_ndf s i j * p' j)) by (intros j Hj; rewrite (E j Hj); reflexivity). reflexivity.
Qed.

(** Normal equations make the optimum, for rows weighted with [W]. *)
Lemma optimum m off D s y fi q a par0 (w w2 : vec) p' : linear m off D -> wfi (m_np m) fi ->
  (forall k, (k < f_nrow s)%nat -> sum (m_np m) (fun j => f_ndf s k j * place fi zeros 0 a j) = 0) ->
  let W := append (m_n m) w w2 in
  (forall i, (i < rows m s)%nat -> 0 <= W i) ->
  (forall k, (k < length fi)%nat -> sum (rows m s) (fun i => getDesign m s par0 fi i k * (W i * resid m s y (place fi q 0 a) i)) = 0) ->
  (forall j, (j < m_np m)%nat -> ~ In j fi -> p' j = a j) ->
  sum (rows m s) (fun i => W i * resid m s y p' i ^ 2) =
  sum (rows m s) (fun i => W i * resid m s y (place fi q 0 a) i ^ 2) +
  sum (rows m s) (fun i => W i * sum (length fi) (fun k => getDesign m s par0 fi i k * (p' (nth k fi 0%nat) - q k)) ^ 2).
Proof.
  intros L WF N W WN NE K.
  assert (PL : forall j, (j < m_np m)%nat -> p' j = place fi (fun k => p' (nth k fi 0%nat)) 0 a j).
  { intros j Hj. destruct (in_dec Nat.eq_dec j fi) as [Hin|Hout].
    - destruct (In_nth _ _ 0%nat Hin) as (i & Hi & <-). rewrite place_in by (eauto using wfi_nodup). reflexivity.
    - rewrite place_out by exact Hout. apply K; assumption. }
  assert (RE : forall i, (i < rows m s)%nat -> resid m s y p' i = resid m s y (place fi (fun k => p' (nth k fi 0%nat)) 0 a) i).
  { intros i Hi. unfold resid, append. destruct (Nat.ltb_spec i (m_n m)) as [Hn|Hn].
    - destruct (L p' i Hn) as [-> _]. destruct (L (place fi (fun k => p' (nth k fi 0%nat)) 0 a) i Hn) as [-> _].
      rewrite (sum_ext (m_np m) (fun j => D i j * p' j) (fun j => D i j * place fi (fun k => p' (nth k fi 0%nat)) 0 a j)) by (intros j Hj; rewrite <- (PL j Hj); reflexivity). reflexivity.
    - rewrite (sum_ext (m_np m) (fun j => f_ndf s (i - m_n m)%nat j * p' j) (fun j => f_ndf s (i - m_n m)%nat j * place fi (fun k => p' (nth k fi 0%nat)) 0 a j)) by (intros j Hj; rewrite <- (PL j Hj); reflexivity). reflexivity. }
  rewrite <- (least_squares (rows m s) (length fi) W (resid m s y (place fi q 0 a)) (getDesign m s par0 fi) (fun k => p' (nth k fi 0%nat) - q k) WN NE).
  apply sum_ext. intros i Hi. rewrite (RE i Hi).
  rewrite (resid_place m off D s y fi _ a par0 i L WF Hi N), (resid_place m off D s y fi q a par0 i L WF Hi N).
  f_equal. f_equal. rewrite (sum_ext (length fi) (fun k => getDesign m s par0 fi i k * (p' (nth k fi 0%nat) - q k)) (fun k => getDesign m s par0 fi i k * p' (nth k fi 0%nat) - getDesign m s par0 fi i k * q k)) by (intros; ring).
  rewrite sum_minus. ring.
Qed.
