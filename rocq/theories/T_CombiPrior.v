(** C108: priors and names of the parameters of a CombiModel. *)
From Coq Require Import List Arith Reals Bool Lia Lra.
From Verif Require Import L_List M_Order M_Chain S_Chain P_Chain M_Combi S_Combi P_Combi P_Combi2 T_Chain T_Combi M_CombiPrior.
Import ListNotations.
Local Open Scope nat_scope.

Section Made.
Context (e : expr) (nrep : nat) (mulop : bool) (add mul : dict) (c : combi).
Context (U : user e) (N0 : 0 < enp e) (Hr : 0 < nrep) (E : mkcombi (build e) nrep mulop add mul = Some c).
Lemma made : c_nmp c = enp e /\ c_nrep c = nrep /\ c_addi c = idxs nrep (enp e) add /\ c_muli c = idxs nrep (enp e) mul
  /\ c_select c = filter (firstb (enp e) add mul) (seq 0 (enp e * nrep)).
Proof.
  pose proof (C17_count e U) as NC. rewrite <- NC in N0. destruct (mkcombi_spec _ _ _ _ _ _ Hr N0 E) as (_ & _ & ->). rewrite NC. repeat split.
Qed.
Lemma idx_has : forall d k, k < enp e -> existsb (Nat.eqb k) (idxs nrep (enp e) d) = has d k.
Proof.
  intros d k K. apply eq_true_iff_eq. rewrite existsb_exists. unfold has. rewrite existsb_exists. unfold idxs. split.
  - intros (x & I & X). apply Nat.eqb_eq in X. subst x. apply in_flat_map in I. destruct I as (kv & D & I). apply in_map_iff in I. destruct I as (r & Q & _).
    exists kv. split; [exact D|]. apply Nat.eqb_eq. destruct r; [lia|]. exfalso. simpl in Q. lia.
  - intros (kv & D & Q). apply Nat.eqb_eq in Q. exists k. split; [|apply Nat.eqb_refl]. apply in_flat_map. exists kv. split; [exact D|]. apply in_map_iff. exists 0. split; [lia|]. apply in_seq. lia.
Qed.

(** ** Priors *)
(** The parameters of the first copy have the priors of the repeated model *)
Theorem C108_first_copy : forall (P : Type) (prior : nat -> option P) k, k < enp e -> combiPrior c prior k = prior k.
Proof.
  intros P prior k K. destruct made as (A & B & _ & _ & S). unfold combiPrior, innerPrior. rewrite A, B. assert (L : k < enp e * nrep) by nia.
  destruct (Nat.ltb_spec k (enp e * nrep)); [|lia]. rewrite (Nat.mod_small k) by exact K. destruct (prior k) eqn:Q; [reflexivity|].
  assert (F : firstb (enp e) add mul k = true) by (unfold firstb; destruct (Nat.ltb_spec k (enp e)); [reflexivity|lia]).
  pose proof (pos_select (enp e) nrep add mul k L F) as X. rewrite pos_small in X by exact K. rewrite S, X. rewrite !(Nat.mod_small k) by exact K.
  destruct (Nat.ltb_spec k (enp e * nrep)); [exact Q|reflexivity].
Qed.
(** In general it is the prior at that place in the list of the parameters of all copies, be they tied or not *)
Theorem C108_position : forall (P : Type) (prior : nat -> option P) k, k < enp e * nrep -> (forall i, i < enp e -> prior i <> None) ->
  combiPrior c prior k = prior (k mod enp e).
Proof.
  intros P prior k K D. destruct made as (A & B & _). unfold combiPrior, innerPrior. rewrite A, B. destruct (Nat.ltb_spec k (enp e * nrep)); [|lia].
  pose proof (D (k mod enp e) (Nat.mod_upper_bound k (enp e) ltac:(lia))) as Q. destruct (prior (k mod enp e)); [reflexivity|congruence].
Qed.
(** ** Names *)
(** The name of the parameter that is parameter k of copy r: with the number of the copy when it is not tied *)
Theorem C108_names : forall k r, k < enp e -> r < nrep ->
  combiName c (pos (enp e) add mul (k + r * enp e)) = Some (if tied add mul k then Plain k else Numbered k r).
Proof.
  intros k r K R. destruct made as (A & B & C1 & C2 & S). unfold combiName. rewrite A, C1, C2, S. pose proof (flat_lt (enp e) nrep k r K R) as J.
  assert (G : forall j, j < enp e * nrep -> firstb (enp e) add mul j = true -> nth_error (filter (firstb (enp e) add mul) (seq 0 (enp e * nrep))) (pos (enp e) add mul j) = Some j) by (intros; now apply pos_select).
  destruct (firstb (enp e) add mul (k + r * enp e)) eqn:F.
  - rewrite (G _ J F). cbv zeta. rewrite flat_mod, flat_div by exact K. rewrite !idx_has by exact K. fold (tied add mul k). destruct (tied add mul k); reflexivity.
  - assert (Q : pos (enp e) add mul (k + r * enp e) = k) by (unfold pos; rewrite F; apply flat_mod; exact K). rewrite Q.
    apply notfirst in F. destruct F as [_ T]. rewrite flat_mod in T by exact K.
    assert (F' : firstb (enp e) add mul k = true) by (unfold firstb; destruct (Nat.ltb_spec k (enp e)); [reflexivity|lia]).
    assert (K2 : k < enp e * nrep) by nia. pose proof (G k K2 F') as X. rewrite pos_small in X by exact K. rewrite X. cbv zeta. rewrite !(Nat.mod_small k) by exact K.
    rewrite !idx_has by exact K. fold (tied add mul k). rewrite T. reflexivity.
Qed.
(** No two parameters have the same name, and no others have one *)
Theorem C108_names_unique : forall q q' n, combiName c q = Some n -> combiName c q' = Some n -> q = q'.
Proof.
  intros q q' n H H'. destruct (C44_layout e nrep mulop add mul c U N0 Hr E) as (_ & Eq & _ & L & _). cbv zeta in *.
  assert (D : forall q n, combiName c q = Some n -> q < c_np c). { intros p m X. unfold combiName in X. unfold c_np. apply nth_error_Some. destruct (nth_error (c_select c) p); [discriminate|discriminate]. }
  destruct (L q (D _ _ H)) as (k & r & K & R & Q & _), (L q' (D _ _ H')) as (k' & r' & K' & R' & Q' & _). subst q q'.
  rewrite C108_names in H, H' by assumption. apply Eq; try assumption. injection H as H. injection H' as H'. rewrite <- H in H'.
  destruct (tied add mul k) eqn:T, (tied add mul k') eqn:T'; try discriminate; injection H' as ->.
  - split; [reflexivity|right; reflexivity].
  - split; [reflexivity|left; congruence].
Qed.
Theorem C108_names_all : forall q, combiName c q <> None <-> q < c_np c.
Proof.
  intros q. unfold combiName, c_np. rewrite <- nth_error_Some. destruct (nth_error (c_select c) q) as [j|]; [|tauto].
  split; [discriminate|]. intros _. destruct (negb _); discriminate.
Qed.
End Made.

(** Without ties each parameter has the prior of its place in the repeated model *)
Theorem C108_untied : forall e nrep mulop c (P : Type) (prior : nat -> option P), user e -> 0 < enp e -> 0 < nrep -> mkcombi (build e) nrep mulop [] [] = Some c ->
  (forall i, i < enp e -> prior i <> None) -> forall k r, k < enp e -> r < nrep ->
  combiName c (k + r * enp e) = Some (Numbered k r) /\ combiPrior c prior (k + r * enp e) = prior k.
Proof.
  intros e nrep mulop c P prior U N0 Hr E D k r K R. split.
  - assert (F : forall j, firstb (enp e) [] [] j = true) by (intros j; unfold firstb; cbn; apply orb_true_r).
    assert (Q : pos (enp e) [] [] (k + r * enp e) = k + r * enp e).
    { unfold pos. rewrite F. unfold cnt. generalize (k + r * enp e). intros n. rewrite (proj2 (filter_ext_in_iff _ (fun _ => true) _)); [|intros; apply F].
      rewrite <- (seq_length n 0) at 2. f_equal. induction (seq 0 n) as [|a l IH]; [reflexivity|]. cbn. now rewrite IH. }
    pose proof (C108_names e nrep mulop [] [] c U N0 Hr E k r K R) as X. rewrite Q in X. exact X.
  - rewrite (C108_position e nrep mulop [] [] c U N0 Hr E P prior) by (try exact D; apply flat_lt; assumption). now rewrite flat_mod.
Qed.

Definition three : base := mkBase 3 false (fun _ p => nth 0 p 0%R) (fun _ _ => 0%R) (fun _ _ => [1%R; 0%R; 0%R]).
(** With ties that is not so.  In the example of the documentation, three models of 3 parameters of which the second and the third are tied,
    the last parameter is the first one of the third copy, but its prior is that of the second one *)
Theorem C108_tied_refuted : exists c, mkcombi (build (EB three)) 3 false [(1, [0%R; 0%R; 0%R])] [(2, [1%R; 1%R; 1%R])] = Some c
  /\ c_select c = [0; 1; 2; 3; 6] /\ combiName c 4 = Some (Numbered 0 2)
  /\ forall (P : Type) (prior : nat -> option P), prior 1 <> None -> combiPrior c prior 4 = prior 1.
Proof.
  eexists. split; [reflexivity|]. split; [reflexivity|]. split; [reflexivity|]. intros P prior H. unfold combiPrior, innerPrior. cbn. destruct (prior 1); [reflexivity|congruence].
Qed.
(** With a CombiModel at the head of a chain the priors of the models after it are never found *)
Theorem C108_chain_refuted : exists c, mkcombi (build (EB three)) 3 false [(1, [0%R; 0%R; 0%R])] [(2, [1%R; 1%R; 1%R])] = Some c
  /\ c_np c = 5 /\ forall (P : Type) (prior next : nat -> option P) , (forall i, i < 3 -> prior i <> None) ->
  chainPrior c prior next (5 + 0) = prior 2 /\ chainPrior c prior next (5 + 4) = None.
Proof.
  eexists. split; [reflexivity|]. split; [reflexivity|]. intros P prior next D. unfold chainPrior, combiPrior, innerPrior. cbn. split; [|reflexivity].
  specialize (D 2 ltac:(lia)). destruct (prior 2); [reflexivity|congruence].
Qed.
Example C108_ex : exists c, mkcombi (build (EB three)) 2 true [] [(0, [1%R; 2%R])] = Some c /\ user (EB three) /\ enp (EB three) = 3
  /\ map (combiName c) [0; 1; 2; 3; 4; 5] = [Some (Plain 0); Some (Numbered 1 0); Some (Numbered 2 0); Some (Numbered 1 1); Some (Numbered 2 1); None].
Proof. eexists. repeat split. Qed.

Print Assumptions C108_first_copy.
Print Assumptions C108_position.
Print Assumptions C108_names.
Print Assumptions C108_names_unique.
Print Assumptions C108_names_all.
Print Assumptions C108_untied.
Print Assumptions C108_tied_refuted.
Print Assumptions C108_chain_refuted.
