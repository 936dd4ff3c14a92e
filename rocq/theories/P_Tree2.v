(** Decision trees: coding, growing, shrinking, varying. *)
From Coq Require Import List Arith ZArith Reals Bool Lia Lra Permutation.
From Verif Require Import L_List M_Order P_Order M_Dynamic P_Dynamic M_Tree S_Tree P_Tree.
Import ListNotations.

(** ** encode and decode *)
Fixpoint canon (t : tree) : tree :=
  match t with
  | Leaf _ => Leaf None
  | Node d s m l r => Node d s (match s with Some _ => None | None => m end) (canon l) (canon r)
  end.

Lemma canon_same t : same_tree t (canon t).
Proof.
  induction t as [mk|d s m l IHl r IHr]; simpl; [exact Logic.I|].
  split; [reflexivity|]. split; [reflexivity|]. split; [intros ->; reflexivity|]. auto.
Qed.
Lemma canon_copy t : tree_copy t = canon t.
Proof. induction t as [mk|d s m l IHl r IHr]; simpl; congruence. Qed.
Lemma canon_leaf t : isLeaf (canon t) = isLeaf t.
Proof. destruct t; reflexivity. Qed.
Lemma isLeaf_inv t : isLeaf t = true -> exists m, t = Leaf m.
Proof. destruct t; [eauto|discriminate]. Qed.
Lemma split_mask_back s m : as_split (split_or_mask s m) = s /\
  as_mask (split_or_mask s m) = match s with Some _ => None | None => m end.
Proof. destruct s, m; auto. Qed.

Lemma encode_length t : let '(c, dd, ss) := encode t in length dd = branches t /\ length ss = branches t.
Proof.
  induction t as [mk|d s m l IHl r IHr]; simpl; [auto|].
  destruct (isLeaf l) eqn:El, (isLeaf r) eqn:Er; simpl.
  - apply isLeaf_inv in El. apply isLeaf_inv in Er. destruct El as [ml ->], Er as [mr ->]. simpl. auto.
  - apply isLeaf_inv in El. destruct El as [ml ->]. destruct (encode r) as [[c dd] ss]. simpl. lia.
  - apply isLeaf_inv in Er. destruct Er as [mr ->]. destruct (encode l) as [[c dd] ss]. simpl. lia.
  - destruct (encode l) as [[c1 d1] s1]. destruct (encode r) as [[c2 d2] s2].
    simpl. rewrite !app_length. lia.
Qed.

Lemma nth_error_mid {A} (a : list A) x b : nth_error (a ++ x :: b) (length a) = Some x.
Proof. rewrite nth_error_app2 by lia. rewrite Nat.sub_diag. reflexivity. Qed.

Lemma decode_encode t : forall da db sa sb, length da = length sa ->
  let '(c, dd, ss) := encode t in
  decode c (da ++ dd ++ db) (sa ++ ss ++ sb) (Z.of_nat (length da))
    = Some (canon t, (Z.of_nat (length da) + Z.of_nat (branches t) - 1)%Z).
Proof.
  induction t as [mk|d s m l IHl r IHr]; intros da db sa sb L; cbn [encode].
  - simpl. do 2 f_equal. lia.
  - destruct (split_mask_back s m) as [B1 B2]. set (v := split_or_mask s m) in *.
    destruct (isLeaf l) eqn:El, (isLeaf r) eqn:Er; simpl andb; cbv iota.
    + apply isLeaf_inv in El. apply isLeaf_inv in Er. destruct El as [ml ->], Er as [mr ->].
      simpl. rewrite Nat2Z.id, nth_error_mid, L, nth_error_mid, B1, B2. do 2 f_equal. lia.
    + apply isLeaf_inv in El. destruct El as [ml ->]. 
      specialize (IHr (da ++ [d]) db (sa ++ [v]) sb). destruct (encode r) as [[c dd] ss]. simpl.
      rewrite Nat2Z.id, nth_error_mid, L, nth_error_mid, B1, B2.
      rewrite !app_length in IHr. simpl in IHr. rewrite <- !app_assoc in IHr. simpl in IHr.
      replace (Z.of_nat (length sa) + 1 - 1 + 1)%Z with (Z.of_nat (length da + 1)) by lia.
      rewrite IHr by lia. do 2 f_equal. lia.
    + apply isLeaf_inv in Er. destruct Er as [mr ->].
      specialize (IHl (da ++ [d]) db (sa ++ [v]) sb). destruct (encode l) as [[c dd] ss]. simpl.
      rewrite Nat2Z.id, nth_error_mid, L, nth_error_mid, B1, B2.
      rewrite !app_length in IHl. simpl in IHl. rewrite <- !app_assoc in IHl. simpl in IHl.
      replace (Z.of_nat (length sa) + 1)%Z with (Z.of_nat (length da + 1)) by lia.
      rewrite IHl by lia. do 2 f_equal. lia.
    + pose proof (encode_length l) as Nl.
      specialize (fun db sb => IHl (da ++ [d]) db (sa ++ [v]) sb). destruct (encode l) as [[c1 d1] s1].
      specialize (fun H => IHr (da ++ [d] ++ d1) db (sa ++ [v] ++ s1) sb H).
      destruct (encode r) as [[c2 d2] s2]. destruct Nl as [N1 N2]. simpl.
      rewrite Nat2Z.id, nth_error_mid, L, nth_error_mid, B1, B2.
      specialize (IHl (d2 ++ db) (s2 ++ sb)).
      rewrite !app_length in *. simpl in IHl, IHr. rewrite <- ?app_assoc in IHl. rewrite <- ?app_assoc in IHr. simpl in IHl, IHr.
      rewrite <- !app_assoc.
      replace (Z.of_nat (length sa) + 1)%Z with (Z.of_nat (length da + 1)) by lia.
      rewrite IHl by lia. rewrite <- ?app_assoc in IHr.
      replace (Z.of_nat (length da + 1) + Z.of_nat (branches l) - 1 + 1)%Z
        with (Z.of_nat (length da + S (length d1))) by lia.
      rewrite IHr by lia. do 2 f_equal. lia.
Qed.

Lemma same_tree_encode a : forall b, same_tree a b -> encode a = encode b.
Proof.
  assert (Lf : forall a b, same_tree a b -> isLeaf a = isLeaf b).
  { intros [|] [|]; simpl; intros; tauto || reflexivity. }
  induction a as [mk|d s m l IHl r IHr]; intros [mk'|d' s' m' l' r']; simpl; try contradiction; [reflexivity|].
  intros [-> [-> [Hm [Hl Hr]]]]. rewrite (Lf l l' Hl), (Lf r r' Hr), (IHl l' Hl), (IHr r' Hr).
  replace (split_or_mask s' m) with (split_or_mask s' m'); [reflexivity|].
  destruct s'; [reflexivity|]. rewrite Hm; reflexivity.
Qed.

Lemma same_tree_join c : forall a b, same_tree a c -> same_tree b c -> same_tree a b.
Proof.
  induction c as [mk|d s m l IHl r IHr]; intros [?|da sa ma la ra] [?|db sb mb lb rb]; simpl; try tauto.
  intros [-> [-> [A1 [A2 A3]]]] [-> [-> [B1 [B2 B3]]]]. repeat (split; [reflexivity|]).
  split; [intros H; rewrite A1, B1; auto|]. auto.
Qed.

Lemma same_tree_leaves a : forall b, same_tree a b -> leaves a = leaves b.
Proof.
  induction a as [mk|d s m l IHl r IHr]; intros [mk'|d' s' m' l' r']; simpl; try contradiction; [reflexivity|].
  intros [-> [-> [Hm [Hl Hr]]]]. rewrite (IHl l' Hl), (IHr r' Hr). reflexivity.
Qed.

Lemma same_partition xdata d s m m' pl : (s = None -> m = m') ->
  partitionList xdata d s m pl = partitionList xdata d s m' pl.
Proof.
  intros H. unfold partitionList, cmp. destruct s as [s|]; [reflexivity|]. rewrite H; reflexivity.
Qed.

Lemma same_result xdata params a : forall b kpar pl res, same_tree a b ->
  recursiveResult a xdata params kpar pl res = recursiveResult b xdata params kpar pl res.
Proof.
  induction a as [mk|d s m l IHl r IHr]; intros [mk'|d' s' m' l' r'] kpar pl res; simpl; try contradiction;
    [reflexivity|].
  intros [<- [<- [Hm [Hl Hr]]]]. rewrite (same_partition xdata d s m m' pl Hm).
  destruct (partitionList xdata d s m' pl) as [[p1 p2]|]; [|reflexivity].
  rewrite (IHl l' kpar p1 res Hl). destruct (recursiveResult l' xdata params kpar p1 res) as [[q k]|]; [|reflexivity].
  apply IHr, Hr.
Qed.
Lemma same_base_result xdata params a b : same_tree a b -> baseResult a xdata params = baseResult b xdata params.
Proof.
  intros H. unfold baseResult. destruct a, b; simpl in H; try contradiction; [reflexivity|].
  f_equal. apply same_result. exact H.
Qed.

(** ** substitution of a subtree *)
Fixpoint first_leaf (p : list bool) (t : tree) : nat :=
  match p, t with
  | false :: p, Node _ _ _ l _ => first_leaf p l
  | true :: p, Node _ _ _ l r => leaves l + first_leaf p r
  | _, _ => 0
  end.

Lemma subst_leaves f p : forall t u, sub_at p t = Some u ->
  leaves (at_path f p t) + leaves u = leaves t + leaves (f u) /\
  first_leaf p t + leaves u <= leaves t.
Proof.
  induction p as [|b p IH]; intros t u H.
  - destruct t; simpl in *; injection H as <-; simpl; lia.
  - destruct t as [|d s m l r]; [destruct b; discriminate|]. destruct b; simpl in *;
      destruct (IH _ _ H); lia.
Qed.

Lemma subst_branches f p : forall t u, sub_at p t = Some u ->
  branches (at_path f p t) + branches u = branches t + branches (f u).
Proof.
  induction p as [|b p IH]; intros t u H.
  - destruct t; simpl in *; injection H as <-; simpl; lia.
  - destruct t as [|d s m l r]; [destruct b; discriminate|]. destruct b; simpl in *;
      specialize (IH _ _ H); lia.
Qed.

Section Subst.
Context (f : tree -> tree) (xdata : list (list cell)).

Lemma subst_in_leaf p : forall t u (P : nat -> Prop), sub_at p t = Some u ->
  exists Q : nat -> Prop,
    let a := first_leaf p t in
    (forall k i, k < a -> in_leaf t xdata P k i -> in_leaf (at_path f p t) xdata P k i) /\
    (forall k i, a <= k < a + leaves u -> in_leaf t xdata P k i -> in_leaf u xdata Q (k - a) i) /\
    (forall k i, a + leaves u <= k -> in_leaf t xdata P k i ->
        in_leaf (at_path f p t) xdata P (k - leaves u + leaves (f u)) i) /\
    (forall j i, in_leaf (f u) xdata Q j i -> in_leaf (at_path f p t) xdata P (a + j) i).
Proof.
  induction p as [|b p IH]; intros t u P H.
  - assert (t = u) as -> by (destruct t; simpl in H; congruence).
    exists P. assert (first_leaf [] u = 0) as -> by (destruct u; reflexivity).
    assert (at_path f [] u = f u) as -> by (destruct u; reflexivity). simpl.
    split; [intros; lia|]. split; [|split].
    + intros k i _ Hk. rewrite Nat.sub_0_r. exact Hk.
    + intros k i L Hk. apply in_leaf_In in Hk. lia.
    + auto.
  - destruct t as [|d s m l r]; [destruct b; discriminate|]. destruct b; cbn [sub_at first_leaf at_path] in *.
    + destruct (IH r u (fun j => P j /\ ~ goes_left xdata d s m P j) H) as [Q [A [B [C D]]]].
      destruct (subst_leaves f p r u H) as [N1 N2].
      exists Q. cbn zeta in *. cbn [in_leaf]. split; [|split; [|split]].
      * intros k i Hk [X|[X1 X2]]; [left; exact X|]. right. split; [exact X1|]. apply A; [lia|exact X2].
      * intros k i Hk [[X1 X2]|[X1 X2]]; [lia|].
        replace (k - (leaves l + first_leaf p r)) with (k - leaves l - first_leaf p r) by lia.
        apply B; [lia|exact X2].
      * intros k i Hk [[X1 X2]|[X1 X2]]; [lia|]. right. split; [lia|].
        replace (k - leaves u + leaves (f u) - leaves l) with (k - leaves l - leaves u + leaves (f u)) by lia.
        apply C; [lia|exact X2].
      * intros j i Hj. right. split; [lia|].
        replace (leaves l + first_leaf p r + j - leaves l) with (first_leaf p r + j) by lia. apply D, Hj.
    + destruct (IH l u (fun j => P j /\ goes_left xdata d s m P j) H) as [Q [A [B [C D]]]].
      destruct (subst_leaves f p l u H) as [N1 N2].
      exists Q. cbn zeta in *. cbn [in_leaf]. split; [|split; [|split]].
      * intros k i Hk [[X1 X2]|[X1 X2]]; [|lia]. left.
        assert (X3 : in_leaf (at_path f p l) xdata (fun j => P j /\ goes_left xdata d s m P j) k i)
          by (apply A; assumption).
        split; [apply in_leaf_In in X3; apply X3|exact X3].
      * intros k i Hk [[X1 X2]|[X1 X2]]; [|lia]. apply B; assumption.
      * intros k i Hk [[X1 X2]|[X1 X2]].
        -- left. assert (X3 : in_leaf (at_path f p l) xdata (fun j => P j /\ goes_left xdata d s m P j)
                                (k - leaves u + leaves (f u)) i) by (apply C; assumption).
           split; [apply in_leaf_In in X3; apply X3|exact X3].
        -- right. split; [lia|].
           replace (k - leaves u + leaves (f u) - leaves (at_path f p l)) with (k - leaves l) by lia. exact X2.
      * intros j i Hj. left. apply D in Hj. split; [apply in_leaf_In in Hj; apply Hj|exact Hj].
Qed.
End Subst.

Lemma findLeaf_spec t : forall k, k < leaves t ->
  exists p mk, findLeaf t k = Some p /\ sub_at p t = Some (Leaf mk) /\ first_leaf p t = k.
Proof.
  induction t as [mk|d s m l IHl r IHr]; intros k H; simpl in *.
  - exists [], mk. assert (k = 0) as -> by lia. auto.
  - destruct (k <? leaves l) eqn:E.
    + apply Nat.ltb_lt in E. destruct (IHl k E) as [p [mk [A [B C]]]].
      exists (false :: p), mk. rewrite A. auto.
    + apply Nat.ltb_ge in E. destruct (IHr (k - leaves l)) as [p [mk [A [B C]]]]; [lia|].
      exists (true :: p), mk. rewrite A. simpl. split; [reflexivity|]. split; [exact B|lia].
Qed.

Lemma findLeaf_parent t k a b : parent_range t k a b ->
  exists p d s m l r, findLeaf t k = Some p /\ p <> [] /\ sub_at (removelast p) t = Some (Node d s m l r) /\
    first_leaf (removelast p) t = a /\ leaves (Node d s m l r) = b - a /\ a < b /\ b <= leaves t /\ a <= k < b /\
    (k = a \/ k = b - 1).
Proof.
  intros H. induction H as [d s m mk r|d s m mk l|d s m l r k a b H IH|d s m l r k a b H IH].
  - exists [false], d, s, m, (Leaf mk), r. simpl.
    split; [reflexivity|]. split; [discriminate|]. split; [reflexivity|]. lia.
  - exists [true], d, s, m, l, (Leaf mk). simpl.
    destruct (leaves l <? leaves l) eqn:E; [apply Nat.ltb_lt in E; lia|]. rewrite Nat.sub_diag. simpl.
    split; [reflexivity|]. split; [discriminate|]. split; [reflexivity|]. lia.
  - destruct IH as [p [d' [s' [m' [l' [r' [A [Np [B [C [D [E [F [G G']]]]]]]]]]]]]].
    exists (false :: p), d', s', m', l', r'. simpl findLeaf.
    destruct (k <? leaves l) eqn:Ek; [|apply Nat.ltb_ge in Ek; lia]. rewrite A.
    destruct p as [|b0 p]; [congruence|].
    split; [reflexivity|]. split; [discriminate|].
    change (removelast (false :: b0 :: p)) with (false :: removelast (b0 :: p)). cbn [sub_at first_leaf].
    split; [exact B|]. split; [exact C|]. split; [exact D|]. simpl. lia.
  - destruct IH as [p [d' [s' [m' [l' [r' [A [Np [B [C [D [E [F [G G']]]]]]]]]]]]]].
    exists (true :: p), d', s', m', l', r'. simpl findLeaf.
    destruct (leaves l + k <? leaves l) eqn:Ek; [apply Nat.ltb_lt in Ek; lia|].
    replace (leaves l + k - leaves l) with k by lia. rewrite A.
    destruct p as [|b0 p]; [congruence|].
    split; [reflexivity|]. split; [discriminate|].
    change (removelast (true :: b0 :: p)) with (true :: removelast (b0 :: p)). cbn [sub_at first_leaf].
    split; [exact B|]. split; [lia|]. split; [rewrite D; lia|]. simpl. lia.
Qed.

Lemma parent_range_exists t : forall k, k < leaves t -> 0 < branches t -> exists a b, parent_range t k a b.
Proof.
  induction t as [mk|d s m l IHl r IHr]; intros k H Hb; simpl in *; [lia|].
  destruct (Nat.lt_ge_cases k (leaves l)) as [Q|Q].
  - destruct l as [ml|dl sl mml ll lr].
    + simpl in Q. assert (k = 0) as -> by lia. eexists _, _. constructor.
    + destruct (IHl k Q) as [a [b Hab]]; [simpl; lia|]. exists a, b. constructor. exact Hab.
  - destruct r as [mr|dr sr mmr rl rr].
    + simpl in H. assert (k = leaves l) as -> by lia. eexists _, _. constructor.
    + destruct (IHr (k - leaves l)) as [a [b Hab]]; [lia|simpl; lia|].
      exists (leaves l + a), (leaves l + b). replace k with (leaves l + (k - leaves l)) by lia.
      apply pr_in_rite. exact Hab.
Qed.

(** ** grow *)
Definition consistent (s : tstate) : Prop :=
  ts_np s = leaves (ts_tree s) /\ ts_ncomp s = branches (ts_tree s) /\ length (ts_pars s) = leaves (ts_tree s).

Definition may_grow (dynamic : bool) (maxComp : option nat) (s : tstate) : Prop :=
  dynamic = true /\ match maxComp with Some m => ts_ncomp s < m | None => True end.
Definition may_shrink (minComp : option nat) (s : tstate) : Prop :=
  1 <= ts_ncomp s /\ match minComp with Some m => m < ts_ncomp s | None => True end.

Lemma sprout_leaves itype kdim split mk :
  leaves (sprout itype kdim split (Leaf mk)) = 2 /\ branches (sprout itype kdim split (Leaf mk)) = 1.
Proof. simpl. destruct (itype =? 0); auto. Qed.

Lemma grow_spec dynamic maxComp itypes location kdim split value s :
  consistent s -> may_grow dynamic maxComp s -> location < leaves (ts_tree s) ->
  exists p mk, findLeaf (ts_tree s) location = Some p /\ sub_at p (ts_tree s) = Some (Leaf mk) /\
    first_leaf p (ts_tree s) = location /\
    tree_grow dynamic maxComp itypes location kdim split value s
      = Some (mkT (at_path (sprout (getItem itypes kdim 0) kdim split) p (ts_tree s))
                  (S (ts_np s)) (S (ts_ncomp s))
                  (firstn location (ts_pars s) ++ value :: skipn location (ts_pars s)), true).
Proof.
  intros [C1 [C2 C3]] [-> M] L. destruct (findLeaf_spec (ts_tree s) location L) as [p [mk [A [B C]]]].
  exists p, mk. split; [exact A|]. split; [exact B|]. split; [exact C|].
  unfold tree_grow. simpl negb. cbv iota.
  replace (match maxComp with Some m => m <=? ts_ncomp s | None => false end) with false.
  2:{ destruct maxComp as [mc|]; [|reflexivity]. symmetry. apply Nat.leb_gt. exact M. }
  rewrite A. cbv zeta. set (f := sprout (getItem itypes kdim 0) kdim split).
  destruct (subst_leaves f p _ _ B) as [N _]. pose proof (subst_branches f p _ _ B) as Nb.
  destruct (sprout_leaves (getItem itypes kdim 0) kdim split mk) as [S1 S2]. fold f in S1, S2.
  rewrite S1 in N. rewrite S2 in Nb. simpl in N, Nb.
  replace (Z.of_nat (leaves (at_path f p (ts_tree s))) - Z.of_nat (ts_np s))%Z with (Z.of_nat 1) by lia.
  rewrite alter_grow_some; [|lia|simpl; lia|reflexivity]. simpl "+". simpl repeat.
  do 3 f_equal; lia.
Qed.

Lemma shrink_spec minComp location s a b :
  consistent s -> may_shrink minComp s -> parent_range (ts_tree s) location a b ->
  exists p u, sub_at p (ts_tree s) = Some u /\ first_leaf p (ts_tree s) = a /\
    leaves u = b - a /\ a + 2 <= b <= leaves (ts_tree s) /\ (location = a \/ location = b - 1) /\ leaves (prune u) = 1 /\
    let last := Nat.min (location + (b - a - 1)) (leaves (ts_tree s)) in
    b - a - 1 <= last /\
    tree_shrink minComp location s
      = Some (mkT (at_path prune p (ts_tree s)) (ts_np s - (b - a - 1)) (branches (at_path prune p (ts_tree s)))
                  (firstn (last - (b - a - 1)) (ts_pars s) ++ skipn last (ts_pars s)), true) /\
    leaves (at_path prune p (ts_tree s)) = leaves (ts_tree s) - (b - a - 1).
Proof.
  intros [C1 [C2 C3]] [M1 M2] HR.
  destruct (findLeaf_parent _ _ _ _ HR) as [p [d [sp [m [l [r [A [Np [B [C [D [E [F [G G']]]]]]]]]]]]]].
  exists (removelast p), (Node d sp m l r). pose proof (leaves_pos l). pose proof (leaves_pos r).
  split; [exact B|]. split; [exact C|]. split; [exact D|]. simpl in D. split; [lia|]. split; [lia|].
  split; [reflexivity|]. cbv zeta.
  destruct (subst_leaves prune _ _ _ B) as [N _]. simpl in N.
  set (t' := at_path prune (removelast p) (ts_tree s)) in *.
  assert (Nt : leaves t' = leaves (ts_tree s) - (b - a - 1)) by lia.
  split; [lia|]. split; [|exact Nt].
  unfold tree_shrink.
  replace ((ts_ncomp s <? 1) || match minComp with Some m => ts_ncomp s <=? m | None => false end) with false.
  2:{ symmetry. apply orb_false_iff. split; [apply Nat.ltb_ge; lia|].
      destruct minComp; [apply Nat.leb_gt; exact M2|reflexivity]. }
  rewrite A. destruct p as [|b0 p]; [congruence|]. fold t'.
  replace (Z.of_nat (leaves t') - Z.of_nat (ts_np s))%Z with (- Z.of_nat (b - a - 1))%Z by lia.
  replace (Z.to_nat (Z.min (Z.of_nat location - - Z.of_nat (b - a - 1)) (Z.of_nat (ts_np s))))
    with (Nat.min (location + (b - a - 1)) (leaves (ts_tree s))) by lia.
  rewrite alter_shrink_some by (simpl; lia). simpl "+". do 3 f_equal; lia.
Qed.
