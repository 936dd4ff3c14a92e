(** C104: a decision tree of a given depth, and the text that describes a tree. *)
From Coq Require Import Reals List Arith ZArith Bool Lia Lra.
From Verif Require Import M_Tree S_Tree M_Treebuild P_Tree3.
Import ListNotations.
Local Open Scope nat_scope.

(** all leafs at depth d *)
Fixpoint full (d : nat) (t : tree) : Prop :=
  match d, t with
  | 0, Leaf m => m = None
  | S d, Node _ _ _ l r => full d l /\ full d r
  | _, _ => False
  end.
(** the branches in the order of walk *)
Fixpoint pre (t : tree) : list (nat * option R * option Z) :=
  match t with Leaf _ => [] | Node d s m l r => (d, s, m) :: pre l ++ pre r end.
(** an axis of floats has a split; the others have a mask *)
Definition branch (itypes : list nat) (k : nat) (s : R) : nat * option R * option Z :=
  if getItem itypes k 0 =? 0 then (k, Some s, None) else (k, None, Some (new_mask (getItem itypes k 0) s)).

Lemma pow_half : forall d, 2 ^ S d - 1 = S ((2 ^ d - 1) + (2 ^ d - 1)).
Proof. intros d. rewrite Nat.pow_succ_r'. assert (1 <= 2 ^ d) by (apply Nat.neq_0_lt_0, Nat.pow_nonzero; lia). lia. Qed.
Lemma full_counts : forall d t, full d t -> leaves t = 2 ^ d /\ branches t = 2 ^ d - 1 /\ length (pre t) = 2 ^ d - 1.
Proof.
  induction d as [|d IH]; intros [m|k s m l r] H; try contradiction; [repeat split|].
  destruct H as [A B]. destruct (IH l A) as (A1 & A2 & A3), (IH r B) as (B1 & B2 & B3). rewrite pow_half.
  cbn [leaves branches pre length]. rewrite app_length, Nat.pow_succ_r'. repeat split; lia.
Qed.

Lemma extend_id : forall sp n, n <= length sp -> extend sp n = Some sp.
Proof. intros sp n H. unfold extend. apply Nat.ltb_ge in H. rewrite H. reflexivity. Qed.
Lemma mark_some : forall k s itypes,
  mark (getItem itypes k 0) (Some s) = inr (snd (fst (branch itypes k s)), snd (branch itypes k s)) /\ fst (fst (branch itypes k s)) = k.
Proof. intros k s itypes. unfold mark, branch. destruct (getItem itypes k 0 =? 0); split; reflexivity. Qed.
Lemma skipn_map' : forall (A B : Type) (f : A -> B) n l, skipn n (map f l) = map f (skipn n l).
Proof. induction n as [|n IH]; intros [|x l]; cbn; try reflexivity. apply IH. Qed.
Lemma firstn_add : forall (A : Type) a b (l : list A), firstn (a + b) l = firstn a l ++ firstn b (skipn a l).
Proof. induction a as [|a IH]; intros b l; [reflexivity|]. destruct l as [|x l]; cbn; [now rewrite firstn_nil|]. f_equal. apply IH. Qed.
Lemma skipn_combine' : forall (A B : Type) n (a : list A) (b : list B), skipn n (combine a b) = combine (skipn n a) (skipn n b).
Proof.
  induction n as [|n IH]; intros a b; [reflexivity|]. destruct a as [|x a], b as [|y b]; cbn; try reflexivity.
  - now destruct (skipn n a).
  - apply IH.
Qed.
Lemma build_long : forall itypes d kd sp, 2 ^ d - 1 <= length kd -> length kd <= length sp ->
  exists t, build d itypes kd (map Some sp) = (inr t, map Some sp) /\ full d t /\
    pre t = map (fun p => branch itypes (fst p) (snd p)) (firstn (2 ^ d - 1) (combine kd sp)).
Proof.
  intros itypes. induction d as [|d IH]; intros kd sp H L.
  - exists (Leaf None). repeat split.
  - pose proof (pow_half d) as P. rewrite P in H. destruct kd as [|k kd]; [cbn in H; lia|]. destruct sp as [|s sp]; [cbn in L; lia|].
    cbn [length] in H, L. cbn [build]. rewrite extend_id by (rewrite map_length; cbn; lia). cbn [map hd tl].
    destruct (mark_some k s itypes) as [M1 M2]. rewrite M1.
    destruct (IH kd sp ltac:(lia) ltac:(lia)) as (l & L1 & L2 & L3). rewrite L1. cbv iota.
    destruct (IH (skipn (2 ^ d - 1) kd) (skipn (2 ^ d - 1) sp)) as (r & R1 & R2 & R3); [rewrite skipn_length; lia|rewrite !skipn_length; lia|].
    rewrite skipn_map', R1. eexists. split; [reflexivity|]. split; [split; assumption|].
    rewrite P. cbn [pre combine firstn map fst snd]. rewrite firstn_add, map_app, skipn_combine', <- L3, <- R3. f_equal.
    rewrite <- M2 at 1. destruct (branch itypes k s) as [[? ?] ?]. reflexivity.
Qed.
Lemma last_some : forall l, l <> [] -> last (map Some l) None = Some (last l 0%R).
Proof. induction l as [|a [|b l] IH]; intros H; [contradiction|reflexivity|]. change (last (map Some (b :: l)) None = Some (last (b :: l) 0%R)). apply IH. discriminate. Qed.
Lemma extend_some : forall sp n, sp <> [] -> extend (map Some sp) n = Some (map Some (sp ++ repeat (last sp 0%R) (n - length sp))).
Proof.
  intros sp n H. unfold extend. rewrite map_length. destruct (Nat.ltb_spec (length sp) n) as [L|L].
  - rewrite last_some by assumption. destruct sp as [|x sp]; [contradiction|]. cbn [map]. f_equal. rewrite map_app.
    change (Some x :: map Some sp) with (map Some (x :: sp)). f_equal. generalize (n - length (x :: sp)) as k. induction k as [|k IH]; [reflexivity|]. cbn [repeat map]. f_equal. exact IH.
  - replace (n - length sp) with 0 by lia. cbn. rewrite app_nil_r. reflexivity.
Qed.
Lemma nth_repeat' : forall (A : Type) (x d : A) n i, i < n -> nth i (repeat x n) d = x.
Proof. induction n as [|n IH]; intros i H; [lia|]. destruct i; [reflexivity|]. cbn. apply IH. lia. Qed.
Lemma last_nth : forall (A : Type) (d : A) l, last l d = nth (length l - 1) l d.
Proof. induction l as [|a [|b l] IH]; [reflexivity|reflexivity|]. change (last (b :: l) d = nth (length (b :: l)) (a :: b :: l) d). rewrite IH. cbn [length]. rewrite Nat.sub_succ, Nat.sub_0_r. reflexivity. Qed.
Lemma nth_extended : forall sp n i, sp <> [] -> i < n -> nth i (sp ++ repeat (last sp 0%R) (n - length sp)) 0%R = getItem sp i 0%R.
Proof.
  intros sp n i H I. assert (0 < length sp) by (destruct sp; [contradiction|cbn; lia]). unfold getItem. destruct (Nat.lt_ge_cases i (length sp)) as [A|A].
  - rewrite app_nth1 by assumption. f_equal. lia.
  - rewrite app_nth2, nth_repeat' by lia. rewrite Nat.min_r by lia. apply last_nth.
Qed.
Lemma firstn_seq : forall (A : Type) (d : A) n l, n <= length l -> firstn n l = map (fun i => nth i l d) (seq 0 n).
Proof.
  intros A d. induction n as [|n IH]; intros l H; [reflexivity|]. destruct l as [|x l]; [cbn in H; lia|]. cbn [firstn seq map nth]. f_equal.
  rewrite <- seq_shift, map_map. apply IH. cbn in H. lia.
Qed.

Lemma build_ok : forall d itypes kd sp, 2 ^ S d - 1 <= length kd -> sp <> [] ->
  exists t, build (S d) itypes kd (map Some sp) = (inr t, map Some (sp ++ repeat (last sp 0%R) (length kd - length sp))) /\ full (S d) t /\
    pre t = map (fun i => branch itypes (nth i kd 0) (getItem sp i 0%R)) (seq 0 (2 ^ S d - 1)).
Proof.
  intros d itypes kd sp H N. set (sp' := sp ++ repeat (last sp 0%R) (length kd - length sp)).
  assert (L : length kd <= length sp') by (unfold sp'; rewrite app_length, repeat_length; lia).
  assert (E : build (S d) itypes kd (map Some sp) = build (S d) itypes kd (map Some sp')).
  { destruct kd as [|k kd]; [pose proof (pow_half d); cbn [length] in H; lia|]. cbn [build]. rewrite extend_some by assumption. fold sp'.
    rewrite extend_id by (rewrite map_length; exact L). reflexivity. }
  destruct (build_long itypes (S d) kd sp' H L) as (t & T1 & T2 & T3). exists t. rewrite E, T1. split; [reflexivity|]. split; [exact T2|]. rewrite T3.
  assert (C : length (combine kd sp') = length kd) by (rewrite combine_length; lia).
  rewrite (firstn_seq _ (0, 0%R)) by (rewrite C; exact H). rewrite map_map. apply map_ext_in. intros i I. apply in_seq in I.
  assert (G : nth i (combine kd sp') (0, 0%R) = (nth i kd 0, nth i sp' 0%R)).
  { assert (H0 : i < length kd) by lia. clearbody sp'. clear - L H0. revert i sp' L H0. induction kd as [|k kd IH]; intros i sp' L I; [cbn in I; lia|].
    destruct sp' as [|s sp']; [cbn in L; lia|]. destruct i; [reflexivity|]. cbn in *. apply IH; lia. }
  rewrite G. cbn [fst snd]. unfold sp'. rewrite nth_extended by (try assumption; lia). reflexivity.
Qed.

(** With an axis for each branch the tree has the depth asked for.  In the order of walk each branch has its own axis of kdim, and
    its own split; the last number is used for the rest *)
Definition splits (sp : splitArg) : list (option R) := match sp with SOne s => [s] | SList l => l end.
Theorem C104_built : forall depth itypes kd arg sp, splits arg = map Some sp -> sp <> [] -> 2 ^ depth - 1 <= length kd ->
  exists t arg', newTree depth itypes (KList kd) arg = (inr (t, branches t), arg') /\ full depth t /\
    leaves t = 2 ^ depth /\ branches t = 2 ^ depth - 1 /\
    pre t = map (fun i => branch itypes (nth i kd 0) (getItem sp i 0%R)) (seq 0 (2 ^ depth - 1)).
Proof.
  intros [|d] itypes kd arg sp A N H.
  - exists (Leaf None), arg. repeat split.
  - destruct (build_ok d itypes kd sp H N) as (t & T1 & T2 & T3). destruct (full_counts _ _ T2) as (F1 & F2 & _).
    unfold newTree. fold (splits arg). rewrite A, T1. exists t. eexists. rewrite <- F2 at 1. split; [reflexivity|]. split; [exact T2|]. split; [exact F1|]. split; [exact F2|]. exact T3.
Qed.
(** and it passes the check of the class *)
Lemma check_pre : forall itypes t, (forall d s m, In (d, s, m) (pre t) -> exists v, (0 < v < 1)%R /\ (d, s, m) = branch itypes d v) -> check itypes t.
Proof.
  intros itypes. induction t as [m|d s m l IHl r IHr]; intros H; [exact Logic.I|]. cbn [check]. split.
  - destruct (H d s m) as (v & V & E); [left; reflexivity|]. unfold branch in E. destruct (Nat.eqb_spec (getItem itypes d 0) 0) as [T|T]; injection E as -> ->.
    + split; [exact T|exact V].
    + split; [lia|]. apply new_mask_range. lra.
  - split; [apply IHl|apply IHr]; intros d' s' m' I'; apply H; right; apply in_or_app; tauto.
Qed.
Theorem C104_checked : forall depth itypes kd arg sp t n arg', splits arg = map Some sp -> sp <> [] -> 2 ^ depth - 1 <= length kd ->
  (forall s, In s sp -> (0 < s < 1)%R) -> newTree depth itypes (KList kd) arg = (inr (t, n), arg') -> check itypes t.
Proof.
  intros depth itypes kd arg sp t n arg' A N H V E.
  destruct (C104_built depth itypes kd arg sp A N H) as (t' & a' & E' & _ & _ & _ & P). rewrite E in E'. injection E' as <- _ _.
  apply check_pre. intros d s m I. rewrite P in I. apply in_map_iff in I. destruct I as (i & I & _).
  exists (getItem sp i 0%R). split.
  - apply V. unfold getItem. apply nth_In. destruct sp; [contradiction|cbn; lia].
  - rewrite <- I. f_equal. destruct (mark_some (nth i kd 0) (getItem sp i 0%R) itypes) as [_ M]. rewrite I in M. cbn in M. exact (eq_sym M).
Qed.
(** Too few axes: an IndexError *)
Lemma build_few : forall itypes d kd sp, length kd < 2 ^ d - 1 -> (forall s, In s sp -> s <> None) -> fst (build d itypes kd sp) = inl IndexErr.
Proof.
  intros itypes. induction d as [|d IH]; intros kd sp H V; [cbn in H; lia|]. rewrite pow_half in H.
  destruct kd as [|k kd]; [reflexivity|]. cbn [build].
  destruct (extend sp (length (k :: kd))) as [sp'|] eqn:E; [|reflexivity].
  assert (V' : forall s, In s sp' -> s <> None).
  { unfold extend in E. destruct (_ <? _); [|injection E as <-; exact V]. destruct sp as [|x sp]; [discriminate|]. injection E as <-. intros s I.
    apply (in_app_or (x :: sp)) in I. destruct I as [I|I]; [apply V; exact I|]. apply repeat_spec in I. subst s. apply V.
    clear. generalize x. induction sp as [|y sp IH]; intros z; [left; reflexivity|]. right. apply IH. }
  assert (L : length (k :: kd) <= length sp').
  { unfold extend in E. destruct (Nat.ltb_spec (length sp) (length (k :: kd))); [|injection E as <-; lia].
    destruct sp as [|x sp]; [discriminate|]. injection E as <-. rewrite app_comm_cons, app_length, repeat_length. cbn [length] in *. lia. }
  destruct sp' as [|s sp']; [cbn in L; lia|]. cbn [hd tl]. destruct s as [s|]; [|exfalso; apply (V' None); [left|]; reflexivity].
  destruct (mark_some k s itypes) as [-> _].
  assert (W : exists w, sp' = map Some w).
  { assert (V2 : forall s, In s sp' -> s <> None) by (intros; apply V'; right; assumption). clear - V2. induction sp' as [|[a|] sp' IH].
    - exists []. reflexivity.
    - destruct IH as [w ->]; [intros; apply V2; right; assumption|]. exists (a :: w). reflexivity.
    - exfalso. apply (V2 None); [left|]; reflexivity. }
  destruct W as [w ->]. cbn [length] in H, L. rewrite map_length in L.
  destruct (Nat.lt_ge_cases (length kd) (2 ^ d - 1)) as [A|A].
  - destruct (build d itypes kd (map Some w)) as [l sp1] eqn:B. specialize (IH kd (map Some w) A ltac:(intros ? I; apply in_map_iff in I; destruct I as (? & <- & _); discriminate)).
    rewrite B in IH. cbn in IH. subst l. destruct (build d itypes (skipn _ kd) _). reflexivity.
  - destruct (build_long itypes d kd w A ltac:(lia)) as (t & -> & _). cbv iota.
    specialize (IH (skipn (2 ^ d - 1) kd) (skipn (2 ^ d - 1) (map Some w)) ltac:(rewrite skipn_length; lia)
      ltac:(intros ? I; rewrite skipn_map' in I; apply in_map_iff in I; destruct I as (? & <- & _); discriminate)).
    destruct (build d itypes (skipn (2 ^ d - 1) kd) _) as [r0 sp2]. cbn in IH. subst r0. reflexivity.
Qed.
Theorem C104_few : forall depth itypes kd arg sp, splits arg = map Some sp -> length kd < 2 ^ depth - 1 ->
  fst (newTree depth itypes (KList kd) arg) = inl IndexErr.
Proof.
  intros [|d] itypes kd arg sp A H; [cbn in H; lia|]. unfold newTree. fold (splits arg). rewrite A.
  pose proof (build_few itypes (S d) kd (map Some sp) H ltac:(intros ? I; apply in_map_iff in I; destruct I as (? & <- & _); discriminate)) as B.
  destruct (build (S d) itypes kd (map Some sp)) as [r s]. cbn [fst] in *. now rewrite B.
Qed.
(** The default of kdim, or the documented None, can not be used for any depth but 0 *)
Theorem C104_default_refuted : forall depth itypes k split, 0 < depth ->
  fst (newTree depth itypes (KInt k) split) = inl TypeErr /\ fst (newTree depth itypes KNone split) = inl TypeErr.
Proof. intros [|d] itypes k split H; [lia|]. split; reflexivity. Qed.
(** split = None is allowed according to the documentation.  For an axis of floats it gives a branch without split or mask, of which the
    check says that it is wrong, and which has no result; for other axes it is a TypeError. *)
Theorem C104_none_refuted : forall itypes k kd, 
  (getItem itypes k 0 = 0 -> exists t, fst (newTree 1 itypes (KList (k :: kd)) (SOne None)) = inr (t, 1) /\ ~ check itypes t
     /\ forall row rows p, nth_error row k <> None -> baseResult t (row :: rows) p = None)
  /\ (getItem itypes k 0 <> 0 -> fst (newTree 1 itypes (KList (k :: kd)) (SOne None)) = inl TypeErr).
Proof.
  intros itypes k kd. unfold newTree. cbn [build]. destruct (extend [None] (length (k :: kd))) as [sp|] eqn:E.
  2: { unfold extend in E. destruct (_ <? _); discriminate. }
  assert (Hd : hd None sp = None) by (unfold extend in E; destruct (_ <? _); injection E as <-; reflexivity). rewrite Hd. unfold mark. split; intros T.
  - rewrite T. cbn. eexists. split; [reflexivity|]. split; [cbn; tauto|].
    intros row rows p C. unfold baseResult. cbn [isLeaf recursiveResult]. unfold partitionList. cbn [length seq].
    destruct (column _ _ _) as [c|]; reflexivity.
  - apply Nat.eqb_neq in T. rewrite T. reflexivity.
Qed.
(** The list of splits of the caller is made longer by the constructor *)
Theorem C104_argument_refuted : forall itypes k1 k2 k3 s, exists t, newTree 2 itypes (KList [k1; k2; k3]) (SList [Some s]) = (inr (t, 3), SList [Some s; Some s; Some s]).
Proof.
  intros itypes k1 k2 k3 s. destruct (build_ok 1 itypes [k1; k2; k3] [s] ltac:(cbn; lia) ltac:(discriminate)) as (t & T1 & _). exists t.
  unfold newTree. cbn [map] in T1. rewrite T1. reflexivity.
Qed.
(** but a number, or a list that is long enough, is not changed; and a second call with the same list gives the same tree *)
Theorem C104_argument : forall depth itypes kd arg sp, splits arg = map Some sp -> sp <> [] -> 2 ^ depth - 1 <= length kd ->
  let after := snd (newTree depth itypes (KList kd) arg) in
  ((exists s, arg = SOne s) \/ length kd <= length sp -> after = arg) /\ fst (newTree depth itypes (KList kd) after) = fst (newTree depth itypes (KList kd) arg).
Proof.
  intros [|d] itypes kd arg sp A N H after.
  - split; reflexivity.
  - destruct (build_ok d itypes kd sp H N) as (t & T1 & T2 & T3).
    assert (S1 : after = match arg with SOne s => arg | SList _ => SList (map Some (sp ++ repeat (last sp 0%R) (length kd - length sp))) end).
    { unfold after, newTree. fold (splits arg). rewrite A, T1. destruct arg; reflexivity. }
    split.
    + intros O. rewrite S1. destruct arg as [s|l]; [reflexivity|]. destruct O as [[s O]|O]; [discriminate|].
      replace (length kd - length sp) with 0 by lia. cbn. rewrite app_nil_r. cbn in A. now rewrite A.
    + rewrite S1. destruct arg as [s|l]; [reflexivity|]. unfold newTree. cbn in A. rewrite A, T1.
      set (sp' := sp ++ repeat (last sp 0%R) (length kd - length sp)).
      destruct (build_ok d itypes kd sp' H) as (t' & U1 & U2 & U3). { unfold sp'. destruct sp; [contradiction|discriminate]. }
      assert (E : build (S d) itypes kd (map Some sp) = build (S d) itypes kd (map Some sp')).
      { destruct kd as [|k kd]; [pose proof (pow_half d); cbn [length] in H; lia|]. cbn [build]. rewrite extend_some by assumption. fold sp'.
        rewrite extend_id; [reflexivity|]. rewrite map_length. unfold sp'. rewrite app_length, repeat_length. lia. }
      rewrite <- E, T1. reflexivity.
Qed.

(** ** The text *)
Fixpoint params (l : list piece) : list nat :=
  match l with [] => [] | Param k :: l => k :: params l | _ :: l => params l end.
Fixpoint marks (l : list piece) : nat :=
  match l with [] => 0 | (AtSplit _ _ | AtMask _ _) :: l => S (marks l) | _ :: l => marks l end.
Lemma params_app : forall a b, params (a ++ b) = params a ++ params b.
Proof. induction a as [|[] a IH]; intros b; cbn; rewrite ?IH; reflexivity. Qed.
Lemma marks_app : forall a b, marks (a ++ b) = marks a + marks b.
Proof. induction a as [|[] a IH]; intros b; cbn; rewrite ?IH; reflexivity. Qed.
Lemma name_counts : forall t ind k, snd (recursiveName t ind k) = k + leaves t /\ params (fst (recursiveName t ind k)) = seq k (leaves t)
  /\ marks (fst (recursiveName t ind k)) = branches t.
Proof.
  induction t as [m|d s m l IHl r IHr]; intros ind k; [cbn; repeat split; lia|]. cbn [recursiveName].
  specialize (IHl (ind + 4) k). destruct (recursiveName l (ind + 4) k) as [nl kl]. cbn [fst snd] in IHl. destruct IHl as (-> & P & M).
  specialize (IHr (ind + 4) (k + leaves l)). destruct (recursiveName r (ind + 4) (k + leaves l)) as [nr kr]. cbn [fst snd] in IHr. destruct IHr as (-> & Q & M2).
  cbn [fst snd leaves branches]. split; [lia|]. destruct s as [s|]; cbn [params marks]; rewrite params_app, marks_app; cbn [params marks]; rewrite P, Q, M, M2, seq_app; split; (reflexivity || lia).
Qed.
(** It has a line for each leaf, numbered from 0, and one for each branch *)
Theorem C104_lines : forall t, params (fullName t) = seq 0 (leaves t) /\ marks (fullName t) = branches t.
Proof. intros t. destruct (name_counts t 4 0) as (_ & A & B). split; assumption. Qed.
(** The number at a leaf is that of the parameter of the leaf; the line is indented in proportion to its depth *)
Lemma find_root : forall t j, findLeaf t j = Some [] -> exists m, t = Leaf m.
Proof.
  intros [m|d s m l r] j H; [exists m; reflexivity|]. exfalso. cbn [findLeaf] in H.
  destruct (j <? leaves l); [destruct (findLeaf l j)|destruct (findLeaf r (j - leaves l))]; discriminate.
Qed.
Lemma leaf_line : forall t ind k j p, findLeaf t j = Some p -> exists a b, fst (recursiveName t ind k) = a ++ Param (k + j) :: b /\
  (p <> [] -> exists a', a = a' ++ [if last p false then GoRight (ind + 4 * (length p - 1)) else GoLeft (ind + 4 * (length p - 1))]).
Proof.
  induction t as [m|d s m l IHl r IHr]; intros ind k j p H.
  - cbn in H. destruct (Nat.eqb_spec j 0) as [->|]; [|discriminate]. injection H as <-. exists [], []. rewrite Nat.add_0_r. split; [reflexivity|]. intros []. reflexivity.
  - cbn [findLeaf] in H. cbn [recursiveName].
    pose proof (name_counts l (ind + 4) k) as (Kl & _). destruct (recursiveName l (ind + 4) k) as [nl kl] eqn:El. cbn [snd] in Kl. subst kl.
    destruct (recursiveName r (ind + 4) (k + leaves l)) as [nr kr] eqn:Er. cbn [fst].
    set (h := match s with Some s => AtSplit d s | None => AtMask d m end).
    destruct (Nat.ltb_spec j (leaves l)) as [L|L].
    + destruct (findLeaf l j) as [q|] eqn:F; [|discriminate]. injection H as <-. destruct (IHl (ind + 4) k j q F) as (a & b & E & I). rewrite El in E. cbn [fst] in E. subst nl.
      exists (h :: GoLeft ind :: a), (b ++ GoRight ind :: nr). split; [cbn; now rewrite <- app_assoc|]. intros _. destruct q as [|b0 q].
      * assert (a = []) as ->. { destruct (find_root _ _ F) as [? ->]. cbn in El. injection El as El _. destruct a; [reflexivity|]. destruct a; discriminate. }
        exists [h]. cbn. now rewrite Nat.add_0_r.
      * destruct I as [a' ->]; [discriminate|]. replace (ind + 4 + 4 * (length (b0 :: q) - 1)) with (ind + 4 * (S (length (b0 :: q)) - 1)) by (cbn [length]; lia). exists (h :: GoLeft ind :: a'). reflexivity.
    + destruct (findLeaf r (j - leaves l)) as [q|] eqn:F; [|discriminate]. injection H as <-.
      destruct (IHr (ind + 4) (k + leaves l) (j - leaves l) q F) as (a & b & E & I). rewrite Er in E. cbn [fst] in E. subst nr.
      replace (k + leaves l + (j - leaves l)) with (k + j) in * by lia.
      exists (h :: GoLeft ind :: nl ++ GoRight ind :: a), b. split; [cbn; now rewrite <- app_assoc|]. intros _. destruct q as [|b0 q].
      * assert (a = []) as ->. { destruct (find_root _ _ F) as [? ->]. cbn in Er. injection Er as Er _. destruct a; [reflexivity|]. destruct a; discriminate. }
        exists (h :: GoLeft ind :: nl). cbn. now rewrite Nat.add_0_r.
      * destruct I as [a' ->]; [discriminate|]. replace (ind + 4 + 4 * (length (b0 :: q) - 1)) with (ind + 4 * (S (length (b0 :: q)) - 1)) by (cbn [length]; lia). exists (h :: GoLeft ind :: nl ++ GoRight ind :: a'). cbn [app]. rewrite <- app_assoc. reflexivity.
Qed.
Theorem C104_leaf_line : forall t j p, findLeaf t j = Some p -> exists a b, fullName t = a ++ Param j :: b /\
  (p <> [] -> exists a', a = a' ++ [if last p false then GoRight (4 * length p) else GoLeft (4 * length p)]).
Proof.
  intros t j p H. destruct (leaf_line t 4 0 j p H) as (a & b & E & I). exists a, b. split; [exact E|]. intros N. destruct (I N) as [a' ->]. exists a'.
  assert (0 < length p) by (destruct p; [contradiction|cbn; lia]). replace (4 + 4 * (length p - 1)) with (4 * length p) by lia. reflexivity.
Qed.
(** Different trees have different texts *)
Lemma name_unique : forall a b ind k x y, fst (recursiveName a ind k) ++ x = fst (recursiveName b ind k) ++ y -> same_tree a b /\ x = y.
Proof.
  induction a as [m|d s m l IHl r IHr]; intros [m'|d' s' m' l' r'] ind k x y H.
  - cbn in H. injection H as ->. split; [exact Logic.I|reflexivity].
  - cbn [recursiveName] in H. destruct (recursiveName l' (ind + 4) k) as [nl kl]. destruct (recursiveName r' (ind + 4) kl) as [nr kr]. cbn in H. destruct s'; discriminate.
  - cbn [recursiveName] in H. destruct (recursiveName l (ind + 4) k) as [nl kl]. destruct (recursiveName r (ind + 4) kl) as [nr kr]. cbn in H. destruct s; discriminate.
  - cbn [recursiveName] in H.
    pose proof (name_counts l (ind + 4) k) as (Kl & _). pose proof (name_counts l' (ind + 4) k) as (Kl' & _).
    specialize (IHl l' (ind + 4) k). destruct (recursiveName l (ind + 4) k) as [nl kl]. destruct (recursiveName l' (ind + 4) k) as [nl' kl']. cbn [fst snd] in *.
    destruct (recursiveName r (ind + 4) kl) as [nr kr] eqn:Er. destruct (recursiveName r' (ind + 4) kl') as [nr' kr'] eqn:Er'. cbn [fst] in H.
    cbn [app] in H. rewrite <- !app_assoc in H. cbn [app] in H. injection H as H0 H.
    destruct (IHl _ _ H) as [S1 H1]. injection H1 as H1.
    assert (LL : leaves l = leaves l').
    { clear - S1. revert l' S1. induction l as [|? ? ? l1 IH1 l2 IH2]; intros [|? ? ? l1' l2'] S; try contradiction; [reflexivity|]. destruct S as (_ & _ & _ & A & B). cbn. now rewrite (IH1 _ A), (IH2 _ B). }
    subst kl kl'. rewrite <- LL in Er'.
    specialize (IHr r' (ind + 4) (k + leaves l) x y). rewrite Er, Er' in IHr. destruct (IHr H1) as [S2 ->]. split; [|reflexivity].
    cbn [same_tree]. destruct s as [s|], s' as [s'|]; try discriminate; injection H0 as -> ->; repeat split; try assumption; intros; congruence.
Qed.
Theorem C104_text_unique : forall a b, fullName a = fullName b -> same_tree a b.
Proof. intros a b H. destruct (name_unique a b 4 0 [] []) as [S _]; [rewrite !app_nil_r; exact H|exact S]. Qed.

Example C104_built_ex : exists t arg, newTree 2 [0; 3] (KList [1; 0; 1]) (SOne (Some (1/2)%R)) = (inr (t, 3), arg) /\
  pre t = [(1, None, Some (new_mask 3 (1/2))); (0, Some (1/2)%R, None); (1, None, Some (new_mask 3 (1/2)))].
Proof. do 2 eexists. split; reflexivity. Qed.
Example C104_text_ex : fullName (Node 0 (Some (1/2)%R) None (Leaf None) (Node 1 None (Some 3%Z) (Leaf None) (Leaf (Some 1%Z))))
  = [AtSplit 0 (1/2); GoLeft 4; Param 0; GoRight 4; AtMask 1 (Some 3%Z); GoLeft 8; Param 1; GoRight 8; Param 2].
Proof. reflexivity. Qed.

Print Assumptions C104_built.
Print Assumptions C104_checked.
Print Assumptions C104_few.
Print Assumptions C104_none_refuted.
Print Assumptions C104_argument.
Print Assumptions C104_leaf_line.
Print Assumptions C104_text_unique.
