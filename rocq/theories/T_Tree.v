(** C34, C35, C36, C50: decision trees. *)
From Coq Require Import List Arith ZArith Reals Bool Lia Lra Permutation.
From Verif Require Import L_List M_Order P_Order M_Dynamic M_Tree S_Tree P_Tree P_Tree2 P_Tree3.
Import ListNotations.

(** ** C34 *)

(** A branch divides any selection of rows in two: every row goes to exactly one side, the order of
    the rows is kept, and the left side has the rows above the cut (or with the mask). *)
Theorem C34_partition xdata d s m plist :
  fits (Node d s m (Leaf None) (Leaf None)) xdata -> (forall i, In i plist -> i < length xdata) ->
  exists pl1 pl2, partitionList xdata d s m plist = Some (pl1, pl2) /\
    Permutation (pl1 ++ pl2) plist /\ sublist pl1 plist /\ sublist pl2 plist /\
    forall i, (In i pl1 <-> In i plist /\ goes_left xdata d s m (fun j => In j plist) i) /\
              (In i pl2 <-> In i plist /\ ~ goes_left xdata d s m (fun j => In j plist) i).
Proof.
  intros [Hd [Hsm _]] H. apply partition_spec; [exact Hd|exact Hsm|]. apply Forall_forall. exact H.
Qed.

(** Every row ends in exactly one leaf. *)
Theorem C34_one_leaf t xdata i : i < length xdata ->
  exists k, k < leaves t /\ in_leaf t xdata (all_rows xdata) k i /\
            forall k', in_leaf t xdata (all_rows xdata) k' i -> k' = k.
Proof.
  intros H. destruct (in_leaf_exists t xdata (all_rows xdata) i H) as [k Hk]. exists k.
  split; [apply in_leaf_In in Hk; apply Hk|]. split; [exact Hk|].
  intros k' H'. eapply in_leaf_unique; eassumption.
Qed.

(** The result exists, and is for every row the parameter of its leaf. *)
Theorem C34_result t xdata params : fits t xdata -> length params = leaves t ->
  exists y, baseResult t xdata params = Some y /\ length y = length xdata /\
    forall i k, in_leaf t xdata (all_rows xdata) k i -> nth_error y i = nth_error params k.
Proof. apply base_result. Qed.

(** The partial is 1 at the leaf of the row, and 0 elsewhere. *)
Theorem C34_partials t xdata : fits t xdata ->
  exists part, basePartial t (leaves t) xdata None = Some part /\ length part = length xdata /\
    forall i k row, in_leaf t xdata (all_rows xdata) k i -> nth_error part i = Some row ->
      length row = leaves t /\
      forall j, j < leaves t -> nth j row 0%R = if j =? k then 1%R else 0%R.
Proof.
  intros Hf. destruct (base_partial t xdata Hf) as [part [E [L H]]]. exists part.
  split; [exact E|]. split; [exact L|]. intros i k row Hi Hr. rewrite (H i k Hi) in Hr. injection Hr as <-.
  split; [rewrite upd_length; apply repeat_length|]. intros j Hj.
  assert (Ej : nth_error (upd k 1%R (repeat 0%R (leaves t))) j = Some (if j =? k then 1%R else 0%R)).
  { destruct (j =? k) eqn:Q.
    - apply Nat.eqb_eq in Q. subst. apply upd_nth_same. rewrite repeat_length. exact Hj.
    - apply Nat.eqb_neq in Q. rewrite upd_nth_other by congruence. apply nth_error_repeat. exact Hj. }
  apply nth_error_nth. exact Ej.
Qed.

(** The model is linear: the result is the partials times the parameters. *)
Fixpoint dot (a b : list R) : R :=
  match a, b with x :: a, y :: b => (x * y + dot a b)%R | _, _ => 0%R end.

Lemma dot_zero n p : dot (repeat 0%R n) p = 0%R.
Proof. revert p. induction n as [|n IH]; intros [|y p]; simpl; try reflexivity. rewrite IH. ring. Qed.
Lemma dot_unit n : forall k p v, nth_error p k = Some v -> length p = n ->
  dot (upd k 1%R (repeat 0%R n)) p = v.
Proof.
  induction n as [|n IH]; intros k p v H L; destruct p as [|y p]; try discriminate; [destruct k; discriminate|].
  injection L as L. destruct k as [|k]; simpl in *.
  - injection H as <-. rewrite dot_zero. ring.
  - rewrite (IH k p v H L). ring.
Qed.

Theorem C34_linear t xdata params y part : fits t xdata -> length params = leaves t ->
  baseResult t xdata params = Some y -> basePartial t (leaves t) xdata None = Some part ->
  y = map (fun row => dot row params) part.
Proof.
  intros Hf L Ey Ep. destruct (base_result t xdata params Hf L) as [y' [E1 [L1 H1]]].
  destruct (base_partial t xdata Hf) as [part' [E2 [L2 H2]]].
  rewrite Ey in E1. injection E1 as <-. rewrite Ep in E2. injection E2 as <-.
  apply nth_error_ext. intros i. destruct (Nat.lt_ge_cases i (length xdata)) as [Q|Q].
  - destruct (in_leaf_exists t xdata (all_rows xdata) i Q) as [k Hk]. rewrite (H1 i k Hk).
    rewrite (map_nth_error _ _ _ (H2 i k Hk)).
    destruct (nth_error params k) as [v|] eqn:Ev.
    + f_equal. symmetry. apply dot_unit; [exact Ev|exact L].
    + apply nth_error_None in Ev. apply in_leaf_In in Hk. lia.
  - rewrite (proj2 (nth_error_None y i)) by lia. symmetry. apply nth_error_None. rewrite map_length. lia.
Qed.

(** sortXdata: all rows once, the rows of a leaf together, the leafs from left to right *)
Theorem C34_sort t xdata : fits t xdata ->
  exists o, sortXdata t xdata = Some o /\ Permutation o (seq 0 (length xdata)) /\
    (forall n n' i i' k k', n < n' -> nth_error o n = Some i -> nth_error o n' = Some i' ->
      in_leaf t xdata (all_rows xdata) k i -> in_leaf t xdata (all_rows xdata) k' i' -> k <= k').
Proof.
  intros Hf. destruct (order_spec t xdata Hf (seq 0 (length xdata)) (seq_lt _)) as [o [E [P H]]].
  exists o. split; [exact E|]. split; [exact P|].
  intros n n' i i' k k' Hn Ei Ei' Hk Hk'. apply in_leaf_rows in Hk. apply in_leaf_rows in Hk'. eauto.
Qed.

(** One NaN in the column sends all rows to the same side of a split (the comment in the code promises
    that only the NaNs go to the smallest part). *)
Theorem C34_nan_refuted xdata d s m plist :
  (forall row, In row xdata -> d < length row) -> (forall i, In i plist -> i < length xdata) ->
  (exists i, In i plist /\ value_at xdata i d = None) ->
  partitionList xdata d (Some s) m plist = Some ([], plist) \/
  partitionList xdata d (Some s) m plist = Some (plist, []).
Proof.
  intros Hd Hp [i0 [I0 V0]].
  assert (Fo : Forall (fun i => i < length xdata) plist) by (apply Forall_forall; exact Hp).
  destruct (column_some xdata d plist Hd Fo) as [xd [E [L Hx]]].
  assert (Nan : In None (map num xd)).
  { apply In_nth_error in I0. destruct I0 as [n Hn]. destruct (Hx n i0 Hn) as [H1 H2].
    unfold value_at in V0. destruct (cell_at xdata i0 d) as [c|]; [|congruence].
    rewrite <- V0. apply in_map. eapply nth_error_In. exact H1. }
  assert (PL : partitionList xdata d (Some s) m plist =
     match cmp (Some s) m xd with
     | None => None
     | Some b => Some (where_true plist b, where_true plist (map negb b)) end).
  { unfold partitionList. destruct plist; [contradiction|]. rewrite E. reflexivity. }
  rewrite PL. unfold cmp. rewrite !(extreme_nan _ _ Nan). simpl lift2.
  assert (Hw : forall b (f : option R -> bool), (forall x, f x = b) -> forall p c, length c = length p ->
            where_true p (map f c) = if b then p else []).
  { clear. intros b f Hf. induction p as [|j p IH]; intros [|y c] Lc; simpl in *; try discriminate;
      [destruct b; reflexivity|]. injection Lc as Lc. rewrite Hf, (IH c Lc). destruct b; reflexivity. }
  assert (Lv : length (map num xd) = length plist) by (rewrite map_length; exact L).
  cbv zeta. revert Lv. generalize (map num xd). intros v Lv. rewrite map_map. destruct (Rlt_dec s (1/2)) as [Q|Q].
  - left. rewrite (Hw false) by (try exact Lv; intros [x|]; reflexivity).
    rewrite (Hw true) by (try exact Lv; intros [x|]; reflexivity). reflexivity.
  - right. rewrite (Hw true) by (try exact Lv; intros [x|]; reflexivity).
    rewrite (Hw false) by (try exact Lv; intros [x|]; reflexivity). reflexivity.
Qed.

(** Asked for the partial of parameter 1 only (parlist = [1]), the tree gives the partials of row 1 only. *)
Definition ex_tree : tree := Node 0 None (Some 2%Z) (Leaf None) (Node 1 None (Some 1%Z) (Leaf None) (Leaf None)).
Definition ex_data : list (list cell) := [[I 1; I 1]; [I 3; I 0]; [I 0; I 0]]%Z.

Theorem C34_parlist_refuted :
  basePartial ex_tree 3 ex_data None = Some [[0;1;0];[1;0;0];[0;0;1]]%R /\
  basePartial ex_tree 3 ex_data (Some [1]) = Some [[0;0;0];[1;0;0];[0;0;0]]%R.
Proof.
  split; unfold basePartial, ex_tree; cbn -[partitionList].
  - replace (partitionList ex_data 0 None (Some 2%Z) [0;1;2]) with (Some ([1], [0;2])) by reflexivity.
    replace (partitionList ex_data 1 None (Some 1%Z) [0;2]) with (Some ([0], [2])); [reflexivity|].
    unfold partitionList, cmp. simpl column. simpl.
    destruct (Req_EM_T 1 1) as [_|N]; [|exfalso; apply N; reflexivity].
    destruct (Req_EM_T 0 1) as [F|_]; [exfalso; lra|]. reflexivity.
  - replace (partitionList ex_data 0 None (Some 2%Z) [1]) with (Some ([1], @nil nat)) by reflexivity.
    reflexivity.
Qed.

Example C34_example : fits ex_tree ex_data /\ leaves ex_tree = 3 /\
  in_leaf ex_tree ex_data (all_rows ex_data) 0 1.
Proof.
  assert (Hr : forall row, In row ex_data -> exists a b, row = [I a; I b]).
  { intros row [<-|[<-|[<-|[]]]]; eauto. }
  split.
  - simpl. split; [intros row H; destruct (Hr row H) as [a [b ->]]; simpl; lia|].
    split; [intros _ row H; destruct (Hr row H) as [a [b ->]]; simpl; eauto|].
    split; [exact Logic.I|]. split; [intros row H; destruct (Hr row H) as [a [b ->]]; simpl; lia|].
    split; [lia|]. auto.
  - split; [reflexivity|]. simpl. left. split; [lia|]. split; [reflexivity|].
    split; [unfold all_rows; simpl; lia|]. exists 3%Z. split; [reflexivity|discriminate].
Qed.

(** a float column with a split: 3 is above the cut 1 + (3-1)/2 *)
Example C34_example_split : goes_left [[F (Some 1)]; [F (Some 3)]]%R 0 (Some (1/2))%R None
  (fun j => In j [0;1]) 1.
Proof.
  right. exists 1%R, 3%R, 3%R. unfold value_at, cell_at. simpl.
  split; [intros i [<-|[<-|[]]]; simpl; eexists; (split; [reflexivity|lra])|].
  split; [exists 0; auto|]. split; [exists 1; auto|]. split; [reflexivity|lra].
Qed.

(** ** C35 *)

(** Decoding the code of a tree gives the tree again, with the same code and the same results. *)
Theorem C35_round_trip t : let '(c, dims, splits) := encode t in
  exists t' k, decode c dims splits 0 = Some (t', k) /\ same_tree t t' /\ encode t' = encode t /\
    forall xdata params, baseResult t' xdata params = baseResult t xdata params.
Proof.
  pose proof (decode_encode t [] [] [] [] eq_refl) as H. destruct (encode t) as [[c dims] splits] eqn:E.
  rewrite !app_nil_r in H. simpl in H. eexists _, _. split; [exact H|]. split; [apply canon_same|].
  split; [rewrite <- E; symmetry; apply same_tree_encode, canon_same|].
  intros. symmetry. apply same_base_result, canon_same.
Qed.

(** Two trees with the same code are the same. *)
Theorem C35_injective a b : encode a = encode b -> same_tree a b.
Proof.
  intros E. pose proof (decode_encode a [] [] [] [] eq_refl) as Ha.
  pose proof (decode_encode b [] [] [] [] eq_refl) as Hb. rewrite E in Ha.
  destruct (encode b) as [[c d] s]. rewrite Ha in Hb. injection Hb as Hb _.
  apply same_tree_join with (canon a); [apply canon_same|]. rewrite Hb. apply canon_same.
Qed.

(** The lists of dimensions and splits have one entry for each branch. *)
Theorem C35_lengths t : let '(c, dims, splits) := encode t in
  length dims = branches t /\ length splits = branches t.
Proof. apply encode_length. Qed.

(** A copy is the same tree, with the same results. *)
Theorem C35_copy t : same_tree t (tree_copy t) /\
  forall xdata params, baseResult (tree_copy t) xdata params = baseResult t xdata params.
Proof.
  rewrite canon_copy. split; [apply canon_same|]. intros. symmetry. apply same_base_result, canon_same.
Qed.

(** The copy of a tree that may not grow or shrink, may. *)
Theorem C35_copy_dynamic_refuted modifiable : copy_flags false modifiable = (true, modifiable).
Proof. reflexivity. Qed.

(** A tree made from a code has the wrong number of parameters and components, as soon as there is one
    branch, and its partials raise an IndexError. *)
Theorem C35_decoded_size_refuted t : 0 < branches t ->
  let '(c, dims, splits) := encode t in
  exists t' np nc, from_code c dims splits = Some (t', np, nc) /\ same_tree t t' /\
    np < leaves t' /\ nc < branches t' /\
    forall xdata, fits t' xdata -> basePartial t' np xdata None = None.
Proof.
  intros Hb. pose proof (decode_encode t [] [] [] [] eq_refl) as H.
  destruct (encode t) as [[c dims] splits]. rewrite !app_nil_r in H. simpl in H.
  exists (canon t), 1, 0. unfold from_code. rewrite H. split; [reflexivity|]. split; [apply canon_same|].
  pose proof (same_tree_leaves t (canon t) (canon_same t)) as L.
  pose proof (leaves_branches t). pose proof (leaves_branches (canon t)).
  split; [lia|]. split; [lia|]. intros xdata Hf. unfold basePartial.
  destruct (canon t) as [|d s m l r] eqn:Ec; [simpl in *; lia|].
  rewrite (partial_short 1 _ xdata Hf 0); [reflexivity|apply seq_lt|apply repeat_length|lia|lia].
Qed.

Example C35_example : encode ex_tree = (CC C1 C2, [0; 1], [MaskV 2; MaskV 1]) /\ 0 < branches ex_tree.
Proof. split; [reflexivity|simpl; lia]. Qed.

(** ** C36 *)

(** Growing at a leaf: the number of parameters and components go up by one, the rows of other leafs keep
    their parameter; the rows of the leaf are divided over two leafs, one with the new value and one
    with the old one. *)
Theorem C36_grow dynamic maxComp itypes location kdim split value s xdata :
  consistent s -> may_grow dynamic maxComp s -> location < leaves (ts_tree s) ->
  exists s', tree_grow dynamic maxComp itypes location kdim split value s = Some (s', true) /\
    consistent s' /\ ts_ncomp s' = S (ts_ncomp s) /\ ts_np s' = S (ts_np s) /\
    (forall k i, in_leaf (ts_tree s) xdata (all_rows xdata) k i -> k <> location ->
      exists k', in_leaf (ts_tree s') xdata (all_rows xdata) k' i /\
                 nth_error (ts_pars s') k' = nth_error (ts_pars s) k) /\
    (forall i, in_leaf (ts_tree s) xdata (all_rows xdata) location i ->
      exists k', (k' = location \/ k' = S location) /\ in_leaf (ts_tree s') xdata (all_rows xdata) k' i) /\
    nth_error (ts_pars s') location = Some value /\
    nth_error (ts_pars s') (S location) = nth_error (ts_pars s) location.
Proof.
  intros C M L. pose proof C as [C1 [C2 C3]].
  destruct (grow_spec dynamic maxComp itypes location kdim split value s C M L) as [p [mk [A [B [D E]]]]].
  set (f := sprout (getItem itypes kdim 0) kdim split) in *.
  destruct (subst_leaves f p _ _ B) as [N _]. pose proof (subst_branches f p _ _ B) as Nb.
  destruct (sprout_leaves (getItem itypes kdim 0) kdim split mk) as [S1 S2]. fold f in S1, S2.
  rewrite S1 in N. rewrite S2 in Nb. simpl in N, Nb.
  assert (Lf : length (firstn location (ts_pars s)) = location) by (rewrite firstn_length; lia).
  eexists. split; [exact E|]. unfold consistent. cbn [fst ts_tree ts_np ts_ncomp ts_pars].
  split; [rewrite app_length; simpl; rewrite Lf, skipn_length; lia|].
  split; [reflexivity|]. split; [reflexivity|].
  destruct (subst_in_leaf f xdata p _ _ (all_rows xdata) B) as [Q [X1 [X2 [X3 X4]]]].
  rewrite D in *. rewrite S1 in X3. change (leaves (Leaf mk)) with 1 in X2, X3. split; [|split; [|split]].
  - intros k i Hk Nk. destruct (Nat.lt_ge_cases k location) as [Q1|Q1].
    + exists k. split; [apply X1; assumption|]. rewrite nth_error_app1 by lia. apply nth_error_firstn'. exact Q1.
    + exists (k - 1 + 2). split; [apply X3; [lia|exact Hk]|].
      rewrite nth_error_app2 by lia. rewrite Lf.
      replace (k - 1 + 2 - location) with (S (k - location)) by lia. simpl.
      rewrite nth_error_skipn'. f_equal. lia.
  - intros i Hi. apply X2 in Hi; [|lia]. apply in_leaf_In in Hi. destruct Hi as [Hi _].
    destruct (in_leaf_exists (f (Leaf mk)) xdata Q i Hi) as [j Hj]. exists (location + j).
    pose proof (in_leaf_In _ _ _ _ _ Hj) as [_ Lj]. rewrite S1 in Lj.
    split; [lia|]. apply X4, Hj.
  - rewrite nth_error_app2 by lia. rewrite Lf, Nat.sub_diag. reflexivity.
  - rewrite nth_error_app2 by lia. rewrite Lf. replace (S location - location) with 1 by lia.
    change (nth_error (skipn location (ts_pars s)) 0 = nth_error (ts_pars s) location).
    rewrite nth_error_skipn', Nat.add_0_r. reflexivity.
Qed.

(** No growing beyond the maximum, or when not dynamic: then nothing changes. *)
Theorem C36_grow_refused dynamic maxComp itypes location kdim split value s :
  ~ may_grow dynamic maxComp s -> tree_grow dynamic maxComp itypes location kdim split value s = Some (s, false).
Proof.
  unfold may_grow, tree_grow. intros H. destruct dynamic; [|reflexivity]. simpl.
  destruct maxComp as [m|]; [|exfalso; auto]. destruct (m <=? ts_ncomp s) eqn:E; [reflexivity|].
  apply Nat.leb_gt in E. exfalso. auto.
Qed.

(** Shrinking at a leaf takes away the branch above it, with the leafs a up to b below that branch.
    When the leaf is the left child, or the branch has only two leafs, or there are no leafs further
    right: the rows elsewhere keep their parameter, and all rows below the branch get one parameter,
    which was one of theirs. *)
Theorem C36_shrink minComp location s xdata a b :
  consistent s -> may_shrink minComp s -> parent_range (ts_tree s) location a b ->
  location = a \/ b = a + 2 \/ b = leaves (ts_tree s) ->
  exists s', tree_shrink minComp location s = Some (s', true) /\
    consistent s' /\ ts_np s' = ts_np s - (b - a - 1) /\
    (forall k i, in_leaf (ts_tree s) xdata (all_rows xdata) k i -> ~ a <= k < b ->
      exists k', in_leaf (ts_tree s') xdata (all_rows xdata) k' i /\
                 nth_error (ts_pars s') k' = nth_error (ts_pars s) k) /\
    (forall k i, in_leaf (ts_tree s) xdata (all_rows xdata) k i -> a <= k < b ->
      in_leaf (ts_tree s') xdata (all_rows xdata) a i) /\
    (exists k, a <= k < b /\ nth_error (ts_pars s') a = nth_error (ts_pars s) k).
Proof.
  intros C M R H. pose proof C as [C1 [C2 C3]].
  destruct (shrink_spec minComp location s a b C M R) as [p [u [B [D [U [Hab [Loc [Pu [Ll [E N]]]]]]]]]].
  set (last := Nat.min (location + (b - a - 1)) (leaves (ts_tree s))) in *.
  set (t' := at_path prune p (ts_tree s)) in *.
  assert (Lf : length (firstn (last - (b - a - 1)) (ts_pars s)) = last - (b - a - 1)) by (rewrite firstn_length; lia).
  assert (Key : a <= last - (b - a - 1) <= a + 1 /\ (last - (b - a - 1) = a -> last = b - 1) /\
                (last - (b - a - 1) = a + 1 -> last = b)) by lia.
  destruct Key as [K1 [K2 K3]].
  assert (Hnth : forall k, nth_error (firstn (last - (b - a - 1)) (ts_pars s) ++ skipn last (ts_pars s)) k =
     nth_error (ts_pars s) (if k <? last - (b - a - 1) then k else k + (b - a - 1))).
  { intros k. destruct (k <? last - (b - a - 1)) eqn:Ek.
    - apply Nat.ltb_lt in Ek. rewrite nth_error_app1 by lia. apply nth_error_firstn'. exact Ek.
    - apply Nat.ltb_ge in Ek. rewrite nth_error_app2 by lia. rewrite Lf, nth_error_skipn'. f_equal. lia. }
  eexists. split; [exact E|]. unfold consistent. cbn [fst ts_tree ts_np ts_ncomp ts_pars].
  split. { split; [lia|]. split; [reflexivity|]. rewrite app_length, Lf, skipn_length. lia. }
  split; [reflexivity|].
  destruct (subst_in_leaf prune xdata p _ _ (all_rows xdata) B) as [Q [X1 [X2 [X3 X4]]]].
  rewrite D, ?U, ?Pu in *. fold t' in X1, X3, X4. split; [|split].
  - intros k i Hk Nk. destruct (Nat.lt_ge_cases k a) as [Q1|Q1].
    + exists k. split; [apply X1; assumption|]. rewrite Hnth.
      destruct (k <? last - (b - a - 1)) eqn:Ek; [reflexivity|]. apply Nat.ltb_ge in Ek. lia.
    + exists (k - (b - a) + 1). split; [apply X3; [lia|exact Hk]|]. rewrite Hnth.
      destruct (k - (b - a) + 1 <? last - (b - a - 1)) eqn:Ek.
      * apply Nat.ltb_lt in Ek. lia.
      * f_equal. lia.
  - intros k i Hk Kk. apply X2 in Hk; [|lia]. apply in_leaf_In in Hk. destruct Hk as [Hi _].
    destruct (in_leaf_exists (prune u) xdata Q i Hi) as [j Hj].
    pose proof (in_leaf_In _ _ _ _ _ Hj) as [_ Lj]. rewrite Pu in Lj. assert (j = 0) as -> by lia.
    apply X4 in Hj. rewrite Nat.add_0_r in Hj. exact Hj.
  - rewrite Hnth. destruct (a <? last - (b - a - 1)) eqn:Ek.
    + exists a. split; [lia|reflexivity].
    + exists (a + (b - a - 1)). split; [lia|reflexivity].
Qed.

(** In all other cases the rows of leaf b, which has nothing to do with the branch, lose their
    parameter and get that of a leaf that has gone. *)
Theorem C36_shrink_refuted minComp location s xdata a b :
  consistent s -> may_shrink minComp s -> parent_range (ts_tree s) location a b ->
  location <> a -> b <> a + 2 -> b <> leaves (ts_tree s) ->
  exists s', tree_shrink minComp location s = Some (s', true) /\
    forall i, in_leaf (ts_tree s) xdata (all_rows xdata) b i ->
      exists k', in_leaf (ts_tree s') xdata (all_rows xdata) k' i /\
        nth_error (ts_pars s') k' = nth_error (ts_pars s) (a + 1) /\ a + 1 < b.
Proof.
  intros C M R H1 H2 H3. pose proof C as [C1 [C2 C3]].
  destruct (shrink_spec minComp location s a b C M R) as [p [u [B [D [U [Hab [Loc [Pu [Ll [E N]]]]]]]]]].
  set (last := Nat.min (location + (b - a - 1)) (leaves (ts_tree s))) in *.
  set (t' := at_path prune p (ts_tree s)) in *.
  assert (Lf : length (firstn (last - (b - a - 1)) (ts_pars s)) = last - (b - a - 1)) by (rewrite firstn_length; lia).
  eexists. split; [exact E|]. cbn [ts_tree ts_pars]. intros i Hi.
  destruct (subst_in_leaf prune xdata p _ _ (all_rows xdata) B) as [Q [X1 [X2 [X3 X4]]]].
  rewrite D, ?U, ?Pu in *. fold t' in X1, X3, X4.
  exists (b - (b - a) + 1). split; [apply X3; [lia|exact Hi]|]. split; [|lia].
  rewrite nth_error_app1 by lia. rewrite nth_error_firstn' by lia. f_equal. lia.
Qed.

Theorem C36_shrink_refused minComp location s :
  ~ may_shrink minComp s -> tree_shrink minComp location s = Some (s, false).
Proof.
  unfold may_shrink, tree_shrink. intros H. destruct (ts_ncomp s <? 1) eqn:E; [reflexivity|].
  apply Nat.ltb_ge in E. simpl. destruct minComp as [m|]; [|exfalso; auto].
  destruct (ts_ncomp s <=? m) eqn:E2; [reflexivity|]. apply Nat.leb_gt in E2. exfalso. auto.
Qed.

(** After any number of steps: one parameter for each leaf, one component for each branch, and no
    exceptions. *)
Inductive step := Grow (location kdim : nat) (split value : R) | Shrink (location : nat)
  | Vary (location : nat) (kd : option nat) (mean u : R) (kr km : nat).

Definition do_step (dynamic : bool) (maxComp minComp : option nat) (itypes : list nat) (nsplit : nat)
    (st : option tstate) (x : step) : option tstate :=
  match st with
  | None => None
  | Some s =>
      option_map fst
        match x with
        | Grow location kdim split value =>        (* location = rng.randint( npbase ) *)
            tree_grow dynamic maxComp itypes (location mod ts_np s) kdim split value s
        | Shrink location => tree_shrink minComp (location mod ts_np s) s
        | Vary location kd mean u kr km =>           (* location = rng.randint( ncomp ) *)
            tree_vary itypes nsplit (location mod ts_ncomp s) kd mean u kr km s
        end
  end.

Lemma at_path_id_leaves f p t u : sub_at p t = Some u -> leaves (f u) = leaves u -> branches (f u) = branches u ->
  leaves (at_path f p t) = leaves t /\ branches (at_path f p t) = branches t.
Proof.
  intros H L B. destruct (subst_leaves f p t u H). pose proof (subst_branches f p t u H). lia.
Qed.

Theorem C36_history dynamic maxComp minComp itypes nsplit steps : forall s, consistent s ->
  exists s', fold_left (do_step dynamic maxComp minComp itypes nsplit) steps (Some s) = Some s' /\ consistent s'.
Proof.
  induction steps as [|x steps IH]; intros s C; [exists s; auto|]. cbn [fold_left].
  enough (exists s1, do_step dynamic maxComp minComp itypes nsplit (Some s) x = Some s1 /\ consistent s1)
    as [s1 [-> C1']] by (apply IH, C1').
  pose proof C as [C1 [C2 C3]]. pose proof (leaves_pos (ts_tree s)) as Lp.
  destruct x as [location kdim split value|location|location kd mean u kr km]; simpl do_step.
  - assert (L : location mod ts_np s < leaves (ts_tree s)) by (rewrite <- C1; apply Nat.mod_upper_bound; lia).
    assert (Dec : may_grow dynamic maxComp s \/ ~ may_grow dynamic maxComp s).
    { unfold may_grow. destruct dynamic; [|right; intros [F _]; discriminate].
      destruct maxComp as [m|]; [|left; auto]. destruct (Nat.lt_ge_cases (ts_ncomp s) m); [left; auto|right; lia]. }
    destruct Dec as [G|G].
    + destruct (C36_grow dynamic maxComp itypes (location mod ts_np s) kdim split value s [] C G L)
        as [s' [E [C' _]]]. rewrite E. exists s'. auto.
    + rewrite C36_grow_refused by exact G. exists s. auto.
  - assert (Dec : may_shrink minComp s \/ ~ may_shrink minComp s).
    { unfold may_shrink. destruct (Nat.le_gt_cases 1 (ts_ncomp s)); [|right; lia].
      destruct minComp as [m|]; [|left; auto]. destruct (Nat.lt_ge_cases m (ts_ncomp s)); [left; auto|right; lia]. }
    destruct Dec as [G|G].
    + assert (L : location mod ts_np s < leaves (ts_tree s)) by (rewrite <- C1; apply Nat.mod_upper_bound; lia).
      revert L. generalize (location mod ts_np s). intros loc L.
      destruct (parent_range_exists (ts_tree s) _ L) as [a [b R]]; [destruct G; lia|].
      destruct (shrink_spec minComp _ s a b C G R) as [p [v [B [D [U [Hab [Loc [Pu [Ll [E N]]]]]]]]]].
      rewrite E. eexists. split; [reflexivity|]. unfold consistent. cbn [fst ts_tree ts_np ts_ncomp ts_pars].
      split; [lia|]. split; [reflexivity|]. rewrite app_length, firstn_length, skipn_length. lia.
    + rewrite C36_shrink_refused by exact G. exists s. auto.
  - unfold tree_vary. destruct (ts_ncomp s <? 1) eqn:E; [exists s; auto|]. apply Nat.ltb_ge in E.
    destruct (findBranch_spec (ts_tree s) (location mod ts_ncomp s)) as [p [d [sp [m [l [r [A B]]]]]]].
    { rewrite <- C2. apply Nat.mod_upper_bound. lia. }
    rewrite A. eexists. split; [reflexivity|]. unfold consistent. cbn [fst ts_tree ts_np ts_ncomp ts_pars].
    destruct (vary_leaves itypes nsplit kd mean u kr km (Node d sp m l r)) as [V1 V2].
    destruct (at_path_id_leaves _ _ _ _ B V1 V2) as [-> ->]. auto.
Qed.

Definition ex_tree3 : tree := (* (((0,1),2),3) *)
  Node 0 None (Some 1%Z) (Node 0 None (Some 1%Z) (Node 0 None (Some 1%Z) (Leaf None) (Leaf None)) (Leaf None)) (Leaf None).

(** leaf 2 is removed with its parent, which has leafs 0, 1 and 2; leaf 3 gets parameter 1 *)
Example C36_example : parent_range ex_tree3 2 0 3 /\
  option_map (fun r => ts_pars (fst r)) (tree_shrink None 2 (mkT ex_tree3 4 3 [10; 11; 12; 13]%R)) = Some [10; 11]%R /\
  option_map (fun r => ts_pars (fst r)) (tree_shrink None 0 (mkT ex_tree3 4 3 [10; 11; 12; 13]%R)) = Some [11; 12; 13]%R /\
  option_map (fun r => ts_pars (fst r)) (tree_grow true None [0] 2 0 (1/2) 7 (mkT ex_tree3 4 3 [10; 11; 12; 13]%R))
    = Some [10; 11; 7; 12; 13]%R.
Proof.
  split; [apply pr_in_left; apply (pr_rite 0 None (Some 1%Z) None (Node 0 None (Some 1%Z) (Leaf None) (Leaf None)))|].
  auto.
Qed.

(** ** C50 *)

(** Growing and shrinking keep a valid tree valid. *)
Theorem C50_grow dynamic maxComp itypes location kdim split value s s' ok : (0 < split < 1)%R ->
  check itypes (ts_tree s) -> tree_grow dynamic maxComp itypes location kdim split value s = Some (s', ok) ->
  check itypes (ts_tree s').
Proof.
  intros Hs C. unfold tree_grow. destruct (negb dynamic); [intros E; injection E as <- _; exact C|].
  destruct (match maxComp with Some m => m <=? ts_ncomp s | None => false end);
    [intros E; injection E as <- _; exact C|].
  destruct (findLeaf (ts_tree s) location) as [p|] eqn:A; [|discriminate].
  assert (L : location < leaves (ts_tree s)).
  { clear - A. revert location p A. induction (ts_tree s) as [mk|d sp m l IHl r IHr]; intros k p; simpl.
    - destruct (k =? 0) eqn:E; [apply Nat.eqb_eq in E; lia|discriminate].
    - destruct (k <? leaves l) eqn:E; [apply Nat.ltb_lt in E; lia|].
      destruct (findLeaf r (k - leaves l)) eqn:F; [|discriminate]. apply IHr in F. lia. }
  destruct (findLeaf_spec _ _ L) as [p' [mk [A' [B _]]]]. rewrite A in A'. injection A' as <-.
  cbv zeta. destruct (alterParameters _ _ _ _ _); [|discriminate]. intros E. injection E as <- _. cbn [ts_tree].
  apply (check_at_path _ _ _ _ _ B C). apply sprout_check. exact Hs.
Qed.

Theorem C50_shrink minComp itypes location s s' ok :
  check itypes (ts_tree s) -> tree_shrink minComp location s = Some (s', ok) -> check itypes (ts_tree s').
Proof.
  intros C. unfold tree_shrink. destruct (_ || _); [intros E; injection E as <- _; exact C|].
  destruct (findLeaf (ts_tree s) location) as [[|b p]|]; [intros E; injection E as <- _; exact C| |discriminate].
  cbv zeta. destruct (alterParameters _ _ _ _ _); [|discriminate]. intros E. injection E as <- _.
  change (check itypes (at_path prune (removelast (b :: p)) (ts_tree s))).
  destruct (sub_at (removelast (b :: p)) (ts_tree s)) as [u|] eqn:B.
  - apply (check_at_path _ _ _ _ _ B C). apply prune_check.
  - clear - B C. revert B C. generalize (removelast (b :: p)) (ts_tree s). intros q.
    induction q as [|x q IH]; intros t B C; [destruct t; discriminate|].
    destruct t as [|d sp m l r]; [destruct x; exact C|]. destruct x; simpl in *;
      destruct C as [C0 [C1 C2]]; split; auto.
Qed.

(** Varying a branch keeps a valid tree valid when the new dimension is a float; when it is boolean and the
    old one was not a float; and when it is categorial, the old mask fits and the bit that is changed is not the
    only bit of the mask. *)
Theorem C50_vary itypes nsplit location kd mean u kr km s s' ok p d sp m l r :
  1 <= nsplit -> (0 < mean < 1)%R -> (0 <= u < 1)%R ->
  check itypes (ts_tree s) -> findBranch (ts_tree s) location = Some p ->
  sub_at p (ts_tree s) = Some (Node d sp m l r) ->
  let tp := getItem itypes (match kd with Some k => k | None => d end) 0 in
  tp = 0 \/ (sp = None /\ tp = 1) \/
  (sp = None /\ kr < tp /\ exists mk, m = Some mk /\ (mk < 2 ^ (Z.of_nat tp + 1))%Z /\ mk <> (2 ^ Z.of_nat kr)%Z) ->
  tree_vary itypes nsplit location kd mean u kr km s = Some (s', ok) -> check itypes (ts_tree s').
Proof.
  intros Hn Hm Hu C A B tp H. unfold tree_vary. destruct (ts_ncomp s <? 1); [intros E; injection E as <- _; exact C|].
  rewrite A. intros E. injection E as <- _. cbn [ts_tree]. apply (check_at_path _ _ _ _ _ B C). intros Cu.
  destruct H as [H|[[-> H]|[-> [Hk [mk [-> [H1 H2]]]]]]].
  - apply vary_check_float; assumption.
  - destruct m as [mk|]; [|destruct Cu as [[] _]]. apply vary_check_mask; [fold tp; lia|fold tp; intros F; lia|exact Cu].
  - apply vary_check_mask; [fold tp; lia| |exact Cu]. intros _. auto.
Qed.

(** A float branch that gets a boolean or categorial dimension keeps its split: the tree is not valid. *)
Theorem C50_vary_split_refuted itypes nsplit location kd mean u kr km s p d sp m l r :
  1 <= ts_ncomp s -> findBranch (ts_tree s) location = Some p ->
  sub_at p (ts_tree s) = Some (Node d (Some sp) m l r) ->
  0 < getItem itypes (match kd with Some k => k | None => d end) 0 ->
  exists s', tree_vary itypes nsplit location kd mean u kr km s = Some (s', true) /\ ~ check itypes (ts_tree s').
Proof.
  intros Hc A B H. unfold tree_vary. destruct (ts_ncomp s <? 1) eqn:E; [apply Nat.ltb_lt in E; lia|].
  rewrite A. eexists. split; [reflexivity|]. cbn [ts_tree]. apply (check_at_path_not _ _ _ _ _ B).
  apply vary_check_split_mask. exact H.
Qed.

(** A mask of one bit becomes 0 when that bit is changed: the tree is not valid. *)
Theorem C50_vary_mask_refuted itypes nsplit location kd mean u kr km s p d l r :
  1 <= ts_ncomp s -> findBranch (ts_tree s) location = Some p ->
  sub_at p (ts_tree s) = Some (Node d None (Some (2 ^ Z.of_nat kr)%Z) l r) ->
  1 < getItem itypes (match kd with Some k => k | None => d end) 0 ->
  exists s', tree_vary itypes nsplit location kd mean u kr km s = Some (s', true) /\ ~ check itypes (ts_tree s').
Proof.
  intros Hc A B H. unfold tree_vary. destruct (ts_ncomp s <? 1) eqn:E; [apply Nat.ltb_lt in E; lia|].
  rewrite A. eexists. split; [reflexivity|]. cbn [ts_tree]. apply (check_at_path_not _ _ _ _ _ B).
  apply vary_check_zero_mask. exact H.
Qed.

Example C50_example : check [0; 3] (Node 0 (Some (1/2))%R None (Leaf None) (Node 1 None (Some 4%Z) (Leaf None) (Leaf None))).
Proof. simpl. unfold getItem. simpl. repeat split; try lia; try lra. Qed.

Print Assumptions C34_result.
Print Assumptions C35_round_trip.
Print Assumptions C36_history.
Print Assumptions C50_vary.
