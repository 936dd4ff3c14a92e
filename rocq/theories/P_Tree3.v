(** Decision trees: check. *)
From Coq Require Import List Arith ZArith Reals Bool Lia Lra.
From Verif Require Import L_List M_Order M_Dynamic M_Tree S_Tree P_Tree P_Tree2.
Import ListNotations.

Lemma check_at_path it f p : forall t u, sub_at p t = Some u -> check it t ->
  (check it u -> check it (f u)) -> check it (at_path f p t).
Proof.
  induction p as [|b p IH]; intros t u H C Hu.
  - assert (t = u) as -> by (destruct t; simpl in H; congruence).
    replace (at_path f [] u) with (f u) by (destruct u; reflexivity). auto.
  - destruct t as [|d s m l r]; [destruct b; discriminate|]. destruct b; simpl in *;
      destruct C as [C0 [C1 C2]]; (split; [exact C0|]); split; try assumption; eapply IH; eassumption.
Qed.

Lemma check_at_path_not it f p : forall t u, sub_at p t = Some u -> ~ check it (f u) -> ~ check it (at_path f p t).
Proof.
  induction p as [|b p IH]; intros t u H Hu C.
  - assert (t = u) as -> by (destruct t; simpl in H; congruence).
    replace (at_path f [] u) with (f u) in C by (destruct u; reflexivity). auto.
  - destruct t as [|d s m l r]; [destruct b; discriminate|]. destruct b; simpl in *;
      destruct C as [C0 [C1 C2]]; eapply IH; eassumption.
Qed.

Lemma new_mask_range itype split : (0 <= split < 1)%R -> (0 < new_mask itype split < 2 ^ (Z.of_nat itype + 1))%Z.
Proof.
  intros H. unfold new_mask. set (e := (2 ^ Z.of_nat itype)%Z).
  assert (He : (1 <= e)%Z) by (unfold e; pose proof (Z.pow_pos_nonneg 2 (Z.of_nat itype)); lia).
  assert (Hp : (2 ^ (Z.of_nat itype + 1) = 2 * e)%Z) by (unfold e; rewrite Z.pow_add_r by lia; lia).
  rewrite Hp. set (x := (split * IZR e + 1)%R). destruct (base_Int_part x) as [A B].
  apply IZR_le in He.
  assert (X1 : (1 <= x)%R) by (unfold x; assert (0 <= split * IZR e)%R by (apply Rmult_le_pos; lra); lra).
  assert (X2 : (x < IZR e + 1)%R).
  { unfold x. assert (split * IZR e < 1 * IZR e)%R by (apply Rmult_lt_compat_r; lra). lra. }
  split.
  - apply lt_IZR. lra.
  - apply le_IZR in He. enough (Int_part x < e + 1)%Z by lia. apply lt_IZR. rewrite plus_IZR. lra.
Qed.

Lemma sprout_check it kdim split u : (0 < split < 1)%R ->
  check it u -> check it (sprout (getItem it kdim 0) kdim split u).
Proof.
  intros Hs C. destruct u as [mk|]; [|exact C]. simpl. destruct (getItem it kdim 0 =? 0) eqn:E.
  - apply Nat.eqb_eq in E. simpl. auto.
  - apply Nat.eqb_neq in E. simpl. split; [|auto]. split; [lia|]. apply new_mask_range. lra.
Qed.

Lemma prune_check it u : check it u -> check it (prune u).
Proof. destruct u; simpl; auto. Qed.

Lemma lxor_range mk kr tp : (0 < mk < 2 ^ (Z.of_nat tp + 1))%Z -> (kr < tp)%nat ->
  (mk <> 2 ^ Z.of_nat kr)%Z -> (0 < Z.lxor mk (2 ^ Z.of_nat kr) < 2 ^ (Z.of_nat tp + 1))%Z.
Proof.
  intros H K N. set (b := (2 ^ Z.of_nat kr)%Z) in *.
  assert (Hb : (0 < b < 2 ^ (Z.of_nat tp + 1))%Z).
  { unfold b. split; [apply Z.pow_pos_nonneg; lia|]. apply Z.pow_lt_mono_r; lia. }
  assert (Nz : Z.lxor mk b <> 0%Z) by (intros E; apply Z.lxor_eq in E; contradiction).
  assert (Nn : (0 <= Z.lxor mk b)%Z) by (apply Z.lxor_nonneg; lia).
  split; [lia|]. apply Z.log2_lt_pow2; [lia|].
  eapply Z.le_lt_trans; [apply Z.log2_lxor; lia|].
  apply Z.max_lub_lt; apply Z.log2_lt_pow2; lia.
Qed.

Lemma findBranch_spec t : forall k, k < branches t ->
  exists p d s m l r, findBranch t k = Some p /\ sub_at p t = Some (Node d s m l r).
Proof.
  induction t as [mk|d s m l IHl r IHr]; intros k H; simpl in *; [lia|].
  destruct (k =? 0) eqn:E0.
  - exists [], d, s, m, l, r. auto.
  - apply Nat.eqb_neq in E0. destruct (k - 1 <? branches l) eqn:E.
    + apply Nat.ltb_lt in E. destruct (IHl _ E) as [p [d' [s' [m' [l' [r' [A B]]]]]]].
      exists (false :: p), d', s', m', l', r'. rewrite A. auto.
    + apply Nat.ltb_ge in E. destruct (IHr (k - 1 - branches l)) as [p [d' [s' [m' [l' [r' [A B]]]]]]]; [lia|].
      exists (true :: p), d', s', m', l', r'. rewrite A. auto.
Qed.

Lemma vary_leaves it ns kd mean u kr km t :
  leaves (vary_node it ns kd mean u kr km t) = leaves t /\
  branches (vary_node it ns kd mean u kr km t) = branches t.
Proof.
  destruct t as [|d s m l r]; [auto|]. unfold vary_node.
  destruct (getItem it _ 0) as [|[|n]]; auto.
Qed.

Lemma vary_check_float it ns kd mean u kr km d s m l r : (1 <= ns)%nat -> (0 < mean < 1)%R -> (0 <= u < 1)%R ->
  getItem it (match kd with Some k => k | None => d end) 0 = 0 ->
  check it (Node d s m l r) -> check it (vary_node it ns kd mean u kr km (Node d s m l r)).
Proof.
  intros Hn Hm Hu E [C [Cl Cr]]. unfold vary_node. rewrite E. simpl. rewrite E. split; [|auto].
  split; [reflexivity|]. destruct s as [sp|]; [|exact Hm]. destruct C as [_ C].
  apply le_INR in Hn. simpl INR in Hn. rewrite plus_INR. simpl INR. split.
  - apply Rdiv_lt_0_compat; [|lra]. assert (0 < INR ns * sp)%R by (apply Rmult_lt_0_compat; lra). lra.
  - apply Rmult_lt_reg_r with (INR ns + 1)%R; [lra|]. unfold Rdiv. rewrite Rmult_assoc, Rinv_l by lra.
    assert (INR ns * sp < INR ns * 1)%R by (apply Rmult_lt_compat_l; lra). lra.
Qed.

Lemma vary_check_mask it ns kd mean u kr km d mk l r :
  let tp := getItem it (match kd with Some k => k | None => d end) 0 in
  (0 < tp)%nat -> (1 < tp -> kr < tp /\ (mk < 2 ^ (Z.of_nat tp + 1))%Z /\ mk <> (2 ^ Z.of_nat kr)%Z) ->
  check it (Node d None (Some mk) l r) -> check it (vary_node it ns kd mean u kr km (Node d None (Some mk) l r)).
Proof.
  intros tp Ht Hk [[_ C] [Cl Cr]]. unfold vary_node. fold tp. destruct tp as [|[|n]] eqn:E; [lia| |].
  - simpl check. unfold tp in E. rewrite E. split; [|auto]. split; [lia|].
    destruct (mk =? 1)%Z; simpl; lia.
  - simpl check. unfold tp in E. rewrite E. split; [|auto]. split; [lia|].
    destruct Hk as [K1 [K2 K3]]; [lia|]. apply lxor_range; [lia|lia|exact K3].
Qed.

Lemma vary_check_split_mask it ns kd mean u kr km d sp m l r :
  (0 < getItem it (match kd with Some k => k | None => d end) 0)%nat ->
  ~ check it (vary_node it ns kd mean u kr km (Node d (Some sp) m l r)).
Proof.
  intros Ht C. unfold vary_node in C. destruct (getItem it _ 0) as [|[|n]] eqn:E; [lia| |];
    simpl check in C; rewrite E in C; destruct C as [[C _] _]; discriminate.
Qed.

Lemma vary_check_zero_mask it ns kd mean u kr km d l r :
  (1 < getItem it (match kd with Some k => k | None => d end) 0)%nat ->
  ~ check it (vary_node it ns kd mean u kr km (Node d None (Some (2 ^ Z.of_nat kr)%Z) l r)).
Proof.
  intros Ht C. unfold vary_node in C. destruct (getItem it _ 0) as [|[|n]] eqn:E; [lia|lia|].
  simpl check in C. rewrite Z.lxor_nilpotent in C. lia.
Qed.
