(** Theorems C44: CombiModel. *)
From Coquelicot Require Import Coquelicot.
From Coq Require Import List Arith Reals Bool Lia Lra.
From Verif Require Import L_List M_Order M_Chain S_Chain P_Chain M_Combi S_Combi P_Combi P_Combi2 T_Chain.
Import ListNotations.
Local Open Scope R_scope.

(** The constructor takes the dictionaries with keys below nmp and values of length nrepeat, and no others. *)
Theorem C44_accepts e nrep mulop add mul : user e -> (0 < enp e)%nat -> (0 < nrep)%nat ->
  (mkcombi (build e) nrep mulop add mul <> None <-> dict_ok (enp e) nrep add /\ dict_ok (enp e) nrep mul).
Proof.
  intros U N0 P. rewrite <- (C17_count e U) in *. split.
  - destruct (mkcombi _ _ _ _ _) as [c|] eqn:E; [|congruence]. intros _.
    destruct (mkcombi_spec _ _ _ _ _ _ P N0 E) as (A & M & _). auto.
  - intros [A M]. destruct (mkcombi_ok (build e) nrep mulop add mul P N0 A M) as [c ->]. discriminate.
Qed.
Print Assumptions C44_accepts.

(** The parameters of the combination: parameter k of copy r and parameter k' of copy r' are the same one
    exactly when k = k' and it is the same copy or k is tied; those of the first copy come first, in order;
    every parameter is used; new parameters come in order of copy and parameter. *)
Theorem C44_layout e nrep mulop add mul c : user e -> (0 < enp e)%nat -> (0 < nrep)%nat ->
  mkcombi (build e) nrep mulop add mul = Some c ->
  let nmp := enp e in
  (forall k r, (k < nmp)%nat -> (r < nrep)%nat ->
     nth_error (c_expand c) (k + r * nmp) = Some (pos nmp add mul (k + r * nmp)) /\
     (pos nmp add mul (k + r * nmp) < c_np c)%nat) /\
  (forall k r k' r', (k < nmp)%nat -> (k' < nmp)%nat ->
     (pos nmp add mul (k + r * nmp) = pos nmp add mul (k' + r' * nmp) <-> k = k' /\ (r = r' \/ tied add mul k = true))) /\
  (forall k, (k < nmp)%nat -> pos nmp add mul k = k) /\
  (forall q, (q < c_np c)%nat -> exists k r, (k < nmp)%nat /\ (r < nrep)%nat /\ pos nmp add mul (k + r * nmp) = q /\
     nth_error (c_select c) q = Some (k + r * nmp)%nat) /\
  (forall q q' j j', nth_error (c_select c) q = Some j -> nth_error (c_select c) q' = Some j' -> (q < q')%nat -> (j < j')%nat).
Proof.
  intros U N0 P E nmp. pose proof (C17_count e U) as NC. rewrite <- NC in N0.
  destruct (mkcombi_spec _ _ _ _ _ _ P N0 E) as (A & M & ->). rewrite NC in *. cbn [c_expand c_select]. unfold c_np. cbn [c_select].
  fold nmp in A, M, N0 |- *. change (length (filter (firstb nmp add mul) (seq 0 (nmp * nrep)))) with (cnt nmp add mul (nmp * nrep)).
  split; [|split; [|split; [|split]]].
  - intros k r K Hr. pose proof (flat_lt nmp nrep k r K Hr) as J. split; [|apply pos_lt; assumption].
    rewrite nth_error_map, (nth_error_nth' _ 0%nat) by (rewrite seq_length; exact J). rewrite seq_nth by exact J. reflexivity.
  - intros. apply pos_eq; assumption.
  - intros. apply pos_small; assumption.
  - intros q Hq. destruct (nth_error (filter (firstb nmp add mul) (seq 0 (nmp * nrep))) q) as [j|] eqn:Ej.
    2:{ apply nth_error_None in Ej. unfold cnt in Hq. lia. }
    destruct (select_pos nmp nrep add mul q j Ej) as (F & J & Q). exists (j mod nmp)%nat, (j / nmp)%nat.
    rewrite <- flat_eta by exact N0. split; [apply Nat.mod_upper_bound; lia|]. split; [apply Nat.div_lt_upper_bound; lia|]. split; [exact Q|reflexivity].
  - intros q q' j j' H H' L. destruct (select_pos _ _ _ _ _ _ H) as (F & _ & Q), (select_pos _ _ _ _ _ _ H') as (F' & _ & Q').
    destruct (Nat.lt_ge_cases j j') as [G|G]; [exact G|]. exfalso. pose proof (cnt_mono nmp add mul j' j G). unfold pos in Q, Q'. rewrite F in Q. rewrite F' in Q'. lia.
Qed.
Print Assumptions C44_layout.

Lemma inner_rep e nrep mulop add mul c : user e -> (0 < enp e)%nat -> (0 < nrep)%nat -> mkcombi (build e) nrep mulop add mul = Some c ->
  repc true (c_inner c) (ecopies (oper mulop) e (nrep - 1)).
Proof.
  intros U N0 P E. rewrite <- (C17_count e U) in N0. destruct (mkcombi_spec _ _ _ _ _ _ P N0 E) as (_ & _ & ->). cbn [c_inner].
  destruct (build_rep e U) as [B Rb]. apply (copies_rep B); [exact Rb|destruct mulop; discriminate|destruct mulop; discriminate].
Qed.

Lemma expanded_length nmp nrep add mul p : length (expanded nmp nrep add mul p) = (nmp * nrep)%nat.
Proof. unfold expanded. rewrite map_length, seq_length. reflexivity. Qed.

Lemma expand_of e nrep mulop add mul c p : user e -> (0 < enp e)%nat -> (0 < nrep)%nat ->
  mkcombi (build e) nrep mulop add mul = Some c -> NoDup (map fst add) -> NoDup (map fst mul) -> length p = c_np c ->
  expandParameters c p = Some (expanded (enp e) nrep add mul p) /\ dicts (enp e) nrep add mul /\
  length p = cnt (enp e) add mul (enp e * nrep).
Proof.
  intros U N0 P E NA NM L. pose proof (C17_count e U) as NC. rewrite <- NC in *.
  pose proof (mkcombi_spec _ _ _ _ _ _ P N0 E) as (A & M & Ec).
  assert (L' : length p = np (npchain (build e)) nrep add mul) by (rewrite L, Ec; reflexivity).
  split; [eapply expand_spec; eassumption|]. split; [repeat split; assumption|exact L'].
Qed.

Lemma comb_den e mulop x nrep add mul p : (0 < enp e)%nat -> (0 < nrep)%nat ->
  den (ecopies (oper mulop) e (nrep - 1)) x (expanded (enp e) nrep add mul p) = combined e nrep mulop add mul x p.
Proof.
  intros N0 P. rewrite ecopies_den by (rewrite expanded_length; f_equal; lia). unfold combined. rewrite <- cb_comb.
  replace (S (nrep - 1)) with nrep by lia. apply cb_ext. intros r Hr. rewrite expanded_block by assumption. reflexivity.
Qed.

(** The value: the sum or product over the copies of the model at (parameter + added) * multiplied. *)
Theorem C44_result e nrep mulop add mul c x p : user e -> (0 < enp e)%nat -> (0 < nrep)%nat ->
  mkcombi (build e) nrep mulop add mul = Some c -> NoDup (map fst add) -> NoDup (map fst mul) -> length p = c_np c ->
  combi_result c x p = Some (combined e nrep mulop add mul x p).
Proof.
  intros U N0 P E NA NM L. destruct (expand_of _ _ _ _ _ _ _ U N0 P E NA NM L) as (X & _ & _). unfold combi_result. rewrite X.
  pose proof (inner_rep _ _ _ _ _ _ U N0 P E) as Rp. unfold cres. rewrite (proj2 (rep_value true) _ _ Rp).
  2:{ rewrite ecopies_np, expanded_length. replace (S (nrep - 1)) with nrep by lia. lia. }
  rewrite firstn_all2 by (rewrite ecopies_np, expanded_length; replace (S (nrep - 1)) with nrep by lia; lia).
  rewrite comb_den by assumption. reflexivity.
Qed.
Print Assumptions C44_result.

(** The derivative to x. *)
Theorem C44_derivative e nrep mulop add mul c x p : user e -> (0 < enp e)%nat -> (0 < nrep)%nat ->
  mkcombi (build e) nrep mulop add mul = Some c -> NoDup (map fst add) -> NoDup (map fst mul) -> length p = c_np c ->
  (forall r, (r < nrep)%nat -> goodx e x (blk (enp e) add mul p r)) ->
  exists d, combi_deriv c x p = Some d /\ is_derive (fun t => combined e nrep mulop add mul t p) x d.
Proof.
  intros U N0 P E NA NM L G. destruct (expand_of _ _ _ _ _ _ _ U N0 P E NA NM L) as (X & _ & _). unfold combi_deriv. rewrite X.
  pose proof (inner_rep _ _ _ _ _ _ U N0 P E) as Rp.
  assert (LE : length (expanded (enp e) nrep add mul p) = (enp e * S (nrep - 1))%nat) by (rewrite expanded_length; f_equal; lia).
  assert (F : firstn (enp (ecopies (oper mulop) e (nrep - 1))) (expanded (enp e) nrep add mul p) = expanded (enp e) nrep add mul p).
  { apply firstn_all2. rewrite ecopies_np, LE. lia. }
  destruct (proj2 rep_der _ _ Rp x (expanded (enp e) nrep add mul p)) as (d & D1 & D2 & _).
  - rewrite ecopies_np, LE. lia.
  - rewrite F. apply ecopies_goodx; [exact LE|]. intros r Hr. rewrite expanded_block by (try assumption; lia). apply G. lia.
  - exists d. split; [exact D1|]. rewrite F in D2. unfold isder in D2.
    eapply is_derive_ext; [|exact D2]. intro t. cbn beta. apply comb_den; assumption.
Qed.
Print Assumptions C44_derivative.

Lemma nth_setp i k t p : (k < length p)%nat -> nth i (setp k t p) 0 = if (i =? k)%nat then t else nth i p 0.
Proof.
  intro K. unfold setp. destruct (Nat.eqb_spec i k) as [->|N].
  - rewrite app_nth2 by (rewrite firstn_length; lia). rewrite firstn_length, Nat.min_l by lia. rewrite Nat.sub_diag. reflexivity.
  - destruct (Nat.lt_ge_cases i k) as [H|H].
    + rewrite app_nth1 by (rewrite firstn_length; lia). apply nth_firstn_lt'. exact H.
    + rewrite app_nth2 by (rewrite firstn_length; lia). rewrite firstn_length, Nat.min_l by lia.
      destruct (i - k)%nat as [|d] eqn:Ed; [lia|]. cbn [nth]. rewrite nth_skipn'. f_equal. lia.
Qed.

Lemma blk_length nmp add mul p r : length (blk nmp add mul p r) = nmp.
Proof. unfold blk. rewrite map_length, seq_length. reflexivity. Qed.

Lemma blk_nth nmp add mul p r k : (k < nmp)%nat ->
  nth k (blk nmp add mul p r) 0 = (nth (pos nmp add mul (k + r * nmp)) p 0 + look add k r 0) * look mul k r 1.
Proof. intro K. unfold blk. rewrite nth_map_seq by exact K. reflexivity. Qed.

(** changing one parameter of the combination *)
Lemma blk_setp nmp add mul p q t k0 r0 r : (q < length p)%nat -> (k0 < nmp)%nat -> pos nmp add mul (k0 + r0 * nmp) = q ->
  blk nmp add mul (setp q t p) r =
  if (r =? r0)%nat || tied add mul k0 then setp k0 ((t + look add k0 r 0) * look mul k0 r 1) (blk nmp add mul p r) else blk nmp add mul p r.
Proof.
  intros Q K E. apply (nth_ext _ _ 0 0).
  - destruct (_ || _); rewrite ?setp_length, ?blk_length; rewrite ?blk_length; auto.
  - intros k Hk. rewrite blk_length in Hk. rewrite blk_nth by exact Hk. rewrite nth_setp by exact Q.
    pose proof (pos_eq nmp add mul r k r0 k0 Hk K) as PE. rewrite E in PE.
    destruct (Nat.eqb_spec (pos nmp add mul (k + r * nmp)) q) as [H|H].
    + apply PE in H. destruct H as [-> H]. replace ((r =? r0)%nat || tied add mul k0) with true.
      2:{ destruct H as [->| ->]; [rewrite Nat.eqb_refl; reflexivity|rewrite orb_true_r; reflexivity]. }
      rewrite nth_setp by (rewrite blk_length; exact K). rewrite Nat.eqb_refl. reflexivity.
    + destruct ((r =? r0)%nat || tied add mul k0) eqn:B.
      * rewrite nth_setp by (rewrite blk_length; exact K). destruct (Nat.eqb_spec k k0) as [->|N].
        -- exfalso. apply H, PE. split; [reflexivity|]. apply orb_true_iff in B. destruct B as [B|B]; [left; apply Nat.eqb_eq; exact B|right; exact B].
        -- rewrite blk_nth by exact Hk. reflexivity.
      * rewrite blk_nth by exact Hk. reflexivity.
Qed.

Lemma affine_derive (f : R -> R) (a m t d : R) : is_derive f ((t + a) * m) d -> is_derive (fun s => f ((s + a) * m)) t (m * d).
Proof.
  intro H. apply (is_derive_comp f (fun s => (s + a) * m)); [exact H|]. auto_derive; [exact Logic.I|]. ring.
Qed.

(** The partials, when no parameter is both in addCombi and in mulCombi. *)
Theorem C44_gradient e nrep mulop add mul c x p : user e -> nofixpipe false e -> (0 < enp e)%nat -> (0 < nrep)%nat ->
  mkcombi (build e) nrep mulop add mul = Some c -> NoDup (map fst add) -> NoDup (map fst mul) ->
  (forall k, has add k && has mul k = false) -> length p = c_np c ->
  (forall r, (r < nrep)%nat -> goodp e x (blk (enp e) add mul p r)) ->
  exists g, combi_partial c x p None = Some g /\ gradient (combined e nrep mulop add mul x) p g.
Proof.
  intros U NF N0 P E NA NM DJ L G. destruct (expand_of _ _ _ _ _ _ _ U N0 P E NA NM L) as (X & DD & LP).
  set (nmp := enp e) in *. set (ex := expanded nmp nrep add mul p) in *.
  pose proof (inner_rep _ _ _ _ _ _ U N0 P E) as Rp.
  assert (LE : length ex = (nmp * S (nrep - 1))%nat) by (unfold ex; rewrite expanded_length; f_equal; lia).
  assert (F : firstn (enp (ecopies (oper mulop) e (nrep - 1))) ex = ex) by (apply firstn_all2; rewrite ecopies_np, LE; unfold nmp; lia).
  assert (BL : forall r, (r < nrep)%nat -> firstn nmp (skipn (r * nmp) ex) = blk nmp add mul p r) by (intros r Hr; apply expanded_block; assumption).
  destruct (proj2 rep_par _ _ Rp x ex) as (full & F1 & F2 & _).
  { rewrite ecopies_np, LE. unfold nmp. lia. }
  { rewrite F. apply ecopies_goodp; [exact LE|]. intros r Hr. fold nmp. rewrite BL by lia. apply G. lia. }
  { apply ecopies_nofix; [exact NF|apply nofix_true; exact NF]. }
  rewrite F in F2.
  pose proof F2 as [LF _]. rewrite LE in LF. replace (S (nrep - 1)) with nrep in LF by lia.
  assert (DF : forall r, exists g, (r < nrep)%nat -> gradient (den e x) (blk nmp add mul p r) g).
  { intro r. destruct (Nat.lt_ge_cases r nrep) as [H|H].
    - destruct (goodp_gradient e x (blk nmp add mul p r) U (nofix_true _ NF) (blk_length _ _ _ _ _) (G r H)) as [g Hg]. eauto.
    - exists []. lia. }
  assert (CH : exists df : nat -> list R, forall r, (r < nrep)%nat -> gradient (den e x) (blk nmp add mul p r) (df r)).
  { clear - DF. assert (Q : forall n, exists df : nat -> list R, forall r, (r < n)%nat -> (r < nrep)%nat -> gradient (den e x) (blk nmp add mul p r) (df r)).
    { induction n as [|n [df H]]; [exists (fun _ => []); lia|]. destruct (DF n) as [g Hg].
      exists (fun r => if (r =? n)%nat then g else df r). intros r R1 R2. destruct (Nat.eqb_spec r n) as [->|N]; [auto|apply H; lia]. }
    destruct (Q nrep) as [df H]. exists df. auto. }
  destruct CH as [df Hdf].
  set (y := fun s => den e x (blk nmp add mul p s)).
  assert (GR : forall k r, (k < nmp)%nat -> (r < nrep)%nat -> nth (k + r * nmp) full 0 = dcb mulop y (delta r) nrep * nth k (df r) 0).
  { intros k r K Hr. pose proof (copies_gradient mulop e x (nrep - 1) ex full df N0 LE F2) as CG. fold nmp in CG.
    rewrite CG with (r := r) (k := k); [|intros s Hs; rewrite BL by lia; apply Hdf; lia|exact K|lia].
    replace (S (nrep - 1)) with nrep by lia. f_equal. apply dcb_ext. intros s Hs. rewrite BL by exact Hs. split; reflexivity. }
  unfold combi_partial. rewrite X. unfold cpar. rewrite F1.
  assert (Ec : exists inner, c = mkCombi inner nmp nrep (idxs nrep nmp add) (vals add) (idxs nrep nmp mul) (vals mul)
     (filter (firstb nmp add mul) (seq 0 (nmp * nrep))) (map (pos nmp add mul) (seq 0 (nmp * nrep)))).
  { pose proof (C17_count e U) as NC. pose proof N0 as N1. unfold nmp in N1. rewrite <- NC in N1. destruct (mkcombi_spec _ _ _ _ _ _ P N1 E) as (_ & _ & Ec).
    rewrite NC in Ec. eauto. }
  destruct Ec as [inner ->]. cbn [c_select c_nrep c_muli c_mulv c_addi] in *. rewrite take_map.
  2:{ apply Forall_forall. intros j Hj. apply filter_In in Hj. destruct Hj as [Hj _]. apply in_seq in Hj. rewrite LF. lia. }
  eexists. split; [reflexivity|]. fold (loops nmp nrep add mul full (map (fun k => nth k full 0) (filter (firstb nmp add mul) (seq 0 (nmp * nrep))))).
  split. { rewrite loops_length by exact P. rewrite map_length. symmetry. exact L. }
  intros q Hq. destruct (nth_error (filter (firstb nmp add mul) (seq 0 (nmp * nrep))) q) as [j|] eqn:Ej.
  2:{ apply nth_error_None in Ej. rewrite LP in Hq. unfold cnt in Hq. lia. }
  destruct (select_pos nmp nrep add mul q j Ej) as (Ff & J & Q). pose proof (partial_spec nmp nrep add mul full j P N0 DD DJ LF J Ff) as PS. rewrite Q in PS. rewrite PS. clear PS.
  set (k0 := (j mod nmp)%nat). set (r0 := (j / nmp)%nat).
  assert (K : (k0 < nmp)%nat) by (apply Nat.mod_upper_bound; lia).
  assert (Hr0 : (r0 < nrep)%nat) by (apply Nat.div_lt_upper_bound; lia).
  assert (EJ : j = (k0 + r0 * nmp)%nat) by (apply flat_eta; lia).
  assert (Q0 : pos nmp add mul (k0 + r0 * nmp) = q) by (rewrite <- EJ; exact Q).
  apply (is_derive_ext (fun t => cb mulop (fun r => den e x (blk nmp add mul (setp q t p) r)) nrep)).
  { intro t. unfold combined. fold nmp. apply cb_comb. }
  set (y' := fun r => if (r =? r0)%nat || tied add mul k0 then look mul k0 r 1 * nth k0 (df r) 0 else 0).
  assert (V : (if tied add mul k0 then sumr (fun r => nth (j + r * nmp) full 0 * look mul j r 1) (seq 0 nrep) else nth j full 0)
    = dcb mulop (fun r => den e x (blk nmp add mul (setp q (nth q p 0) p) r)) y' nrep).
  { rewrite (dcb_ext mulop _ y _ y') by (intros r _; rewrite setp_nth by exact Hq; split; reflexivity).
    destruct (tied add mul k0) eqn:T.
    - assert (j < nmp)%nat as HJ by (unfold firstb in Ff; fold k0 in Ff; rewrite T in Ff; cbn in Ff; rewrite orb_false_r in Ff; apply Nat.ltb_lt; exact Ff).
      assert (Ek : k0 = j) by (apply Nat.mod_small; exact HJ). rewrite dcb_linear. apply sumr_ext. intros r Hr. apply in_seq in Hr.
      unfold y'. rewrite orb_true_r. rewrite <- Ek. rewrite GR by (try exact K; lia). ring.
    - rewrite (dcb_ext mulop _ y _ (fun s => nth k0 (df r0) 0 * delta r0 s)).
      2:{ intros r Hr. split; [reflexivity|]. unfold y', delta. rewrite orb_false_r. destruct (Nat.eqb_spec r r0) as [->|N]; [|ring].
          unfold tied in T. apply orb_false_iff in T. rewrite look_nodup by apply T. ring. }
      rewrite dcb_scale. rewrite EJ. rewrite GR by assumption. ring. }
  rewrite V. apply (cb_derive mulop (fun r t => den e x (blk nmp add mul (setp q t p) r))). intros r Hr.
  apply (is_derive_ext (fun t => den e x (if (r =? r0)%nat || tied add mul k0 then setp k0 ((t + look add k0 r 0) * look mul k0 r 1) (blk nmp add mul p r) else blk nmp add mul p r))).
  { intro t. f_equal. symmetry. apply (blk_setp _ _ _ _ _ _ _ r0); assumption. }
  unfold y'. destruct ((r =? r0)%nat || tied add mul k0) eqn:B.
  - apply (affine_derive (fun s => den e x (setp k0 s (blk nmp add mul p r)))).
    destruct (Hdf r Hr) as [_ D]. specialize (D k0). rewrite blk_length in D. specialize (D K). rewrite blk_nth in D by exact K.
    assert (PQ : pos nmp add mul (k0 + r * nmp) = q).
    { rewrite <- Q0. apply pos_eq; [exact K|exact K|]. split; [reflexivity|]. apply orb_true_iff in B. destruct B as [B|B]; [left; apply Nat.eqb_eq; exact B|right; exact B]. }
    rewrite PQ in D. exact D.
  - apply (is_derive_const (K := R_AbsRing) (V := R_NormedModule)).
Qed.
Print Assumptions C44_gradient.

(** Three lines through tied slopes (1 more for each copy) and free constants. *)
Definition ex_add : dict := [(1%nat, [0; 1; 2])].

Example C44_example : exists c, mkcombi (build (EB line)) 3 false ex_add [] = Some c /\
  c_expand c = [0; 1; 2; 1; 3; 1]%nat /\ c_select c = [0; 1; 2; 4]%nat /\
  user (EB line) /\ nofixpipe false (EB line) /\ NoDup (map fst ex_add) /\ (forall k, has ex_add k && has [] k = false) /\
  combi_result c 2 [10; 5; 20; 30] = Some (10 + 5 * 2 + (20 + 6 * 2) + (30 + 7 * 2)) /\
  combi_partial c 2 [10; 5; 20; 30] None = Some [1; 6; 1; 1] /\
  (forall r, (r < 3)%nat -> goodp (EB line) 2 (blk 2 ex_add [] [10; 5; 20; 30] r)).
Proof.
  eexists. split; [reflexivity|]. split; [reflexivity|]. split; [reflexivity|]. split; [exact Logic.I|]. split; [exact Logic.I|].
  split; [repeat constructor; cbn; tauto|]. split; [intro k; apply andb_false_r|].
  split; [cbn; f_equal; ring|]. split; [cbn; repeat f_equal; ring|].
  intros r _. cbn [goodp]. split; [rewrite blk_length; reflexivity|]. rewrite blk_length. intros k K.
  destruct k as [|[|k]]; [| |lia]; unfold setp, blk; cbn [seq map firstn skipn app line b_f b_dp nth]; auto_derive; try exact Logic.I; ring.
Qed.

(** The example of the docstring: additive centers, multiplicative widths. *)
Definition gaussish : base := mkBase 3 false
  (fun x p => nth 0 p 0 * exp (- ((x - nth 1 p 0) / nth 2 p 1) ^ 2 / 2)) (fun x p => 0) (fun x p => [0; 0; 0]).
Example C44_docstring : exists c,
  mkcombi (build (EB gaussish)) 3 false [(1%nat, [0; 1 / 10; 3 / 10])] [(2%nat, [0; 0; 0])] = Some c /\
  c_np c = 5%nat /\ c_select c = [0; 1; 2; 3; 6]%nat /\ c_expand c = [0; 1; 2; 3; 1; 2; 4; 1; 2]%nat /\
  c_addi c = [1; 4; 7]%nat /\ c_muli c = [2; 5; 8]%nat.
Proof. eexists. repeat split. Qed.

(** A parameter both in addCombi and in mulCombi: its partial is too large. *)
Theorem C44_both_refuted : exists c g,
  mkcombi (build (EB const)) 2 false [(0%nat, [0; 0])] [(0%nat, [1; 1])] = Some c /\
  combi_partial c 0 [1] None = Some g /\
  (forall t, combi_result c 0 [t] = Some (2 * t)) /\ g = [3] /\
  ~ gradient (combined (EB const) 2 false [(0%nat, [0; 0])] [(0%nat, [1; 1])] 0) [1] g.
Proof.
  eexists. eexists. split; [reflexivity|]. split; [reflexivity|]. split; [intro t; cbn; f_equal; ring|].
  split; [cbn; f_equal; ring|]. intros [_ D]. specialize (D 0%nat Nat.lt_0_1).
  assert (D2 : is_derive (fun t => combined (EB const) 2 false [(0%nat, [0; 0])] [(0%nat, [1; 1])] 0 (setp 0 t [1])) (nth 0 [1] 0) 2).
  { unfold combined, setp. cbn. auto_derive; [exact Logic.I|ring]. }
  apply is_derive_unique in D. apply is_derive_unique in D2. rewrite D2 in D. cbn in D. lra.
Qed.
Print Assumptions C44_both_refuted.

(** The copy of a combination of a simple model is the same. *)
Lemma copies_base o b n : copies o (build (EB b)) n = (NOP, true, MBase b) :: repeat (o, true, MBase b) n.
Proof.
  induction n as [|n IH]; [reflexivity|]. cbn [copies]. rewrite IH. cbn [build single ccopy map mcopy fst snd appendModel].
  cbn [app]. f_equal. symmetry. apply repeat_cons.
Qed.

Theorem C44_copy b nrep mulop add mul c : (0 < b_np b)%nat -> (0 < nrep)%nat ->
  mkcombi (build (EB b)) nrep mulop add mul = Some c -> combi_copy c = Some c.
Proof.
  intros N0 P E. assert (NC : npchain (build (EB b)) = b_np b) by (apply C17_count; exact Logic.I).
  rewrite <- NC in N0. destruct (mkcombi_spec _ _ _ _ _ _ P N0 E) as (A & M & ->).
  unfold combi_copy. cbn [c_inner c_nrep c_select c_expand c_addi c_addv c_muli c_mulv]. rewrite copies_base.
  set (m2 := match repeat (oper mulop, true, MBase b) (nrep - 1) with (MUL, _, _) :: _ => true | _ => false end).
  cbn [mcopy]. change [(NOP, true, MBase b)] with (build (EB b)).
  destruct (mkcombi_ok (build (EB b)) nrep m2 [] [] P N0) as [c2 E2]; [constructor|constructor|]. rewrite E2.
  destruct (mkcombi_spec _ _ _ _ _ _ P N0 E2) as (_ & _ & ->). cbn [c_nmp c_nrep c_inner].
  replace (forallb _ _) with true.
  2:{ symmetry. apply forallb_forall. intros j Hj. apply filter_In in Hj. destruct Hj as [Hj _]. apply in_seq in Hj. apply Nat.ltb_lt. lia. }
  do 2 f_equal. rewrite copies_base. f_equal. unfold m2. destruct (nrep - 1)%nat; [reflexivity|]. cbn [repeat]. destruct mulop; reflexivity.
Qed.
Print Assumptions C44_copy.

(** The copy of a combination of a compound model is another model: only its first part is repeated,
    with the operation inside the compound, or it cannot be made at all. *)
Theorem C44_copy_refuted :
  (exists c, mkcombi (build (EOp MUL (EB const) (EB line))) 2 false [(0%nat, [0; 0]); (1%nat, [0; 0]); (2%nat, [0; 0])] [] = Some c /\
     combi_copy c = None) /\
  (exists c c', mkcombi (build (EOp MUL (EB const) (EB const))) 2 false [(0%nat, [0; 0]); (1%nat, [0; 0])] [] = Some c /\
     combi_copy c = Some c' /\ combi_result c 0 [2; 3] = Some 12 /\ combi_result c' 0 [2; 3] = Some 6).
Proof.
  split.
  - eexists. split; reflexivity.
  - eexists. eexists. split; [reflexivity|]. split; [reflexivity|]. split; cbn; f_equal; ring.
Qed.
Print Assumptions C44_copy_refuted.
