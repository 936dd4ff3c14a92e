(** C109: the priors of a RepeatingModel. *)
From Coq Require Import List Arith Bool Lia.
From Verif Require Import L_List M_Order M_Repeat M_RepPrior.
Import ListNotations.

Section R.
Context {P : Type}.
(** the addresses exist *)
Definition rok (w : rworld P) : Prop := (forall a, inner w = Some a -> a < length (h_lists w)) /\ (forall a, In (Some a) (own w) -> a < length (h_lists w)).

Lemma rup_nth : forall {A} k (p : A) l d, k < length l -> nth k (upd k p l) d = p.
Proof. induction k; intros p [|a l] d H; cbn in *; try lia; [reflexivity|]. apply IHk. lia. Qed.
Lemma rup_other : forall {A} k j (p : A) l d, k <> j -> nth j (upd k p l) d = nth j l d.
Proof. induction k; intros [|j] p [|a l] d H; cbn; try reflexivity; try congruence. apply IHk. lia. Qed.
Lemma rup_len : forall {A} k (p : A) l, length (upd k p l) = length l.
Proof. induction k; intros p [|a l]; cbn; auto. Qed.
Lemma inPrior_spec : forall (w : rworld P) k d, at_ w (inner w) <> [] ->
  inPrior w k = Some (nth (Nat.min k (length (at_ w (inner w)) - 1)) (at_ w (inner w)) d).
Proof.
  intros w k d H. unfold inPrior. destruct (at_ w (inner w)) as [|a l] eqn:E; [congruence|]. cbn [length]. rewrite (nth_error_nth' _ d).
  - f_equal. f_equal. cbn [Nat.sub]. destruct (Nat.ltb_spec k (S (length l))); lia.
  - cbn [length]. destruct (Nat.ltb_spec k (S (length l))); lia.
Qed.
Lemma inSet_lists : forall (w w' : rworld P) k make, rok w -> inSet w k make = inl w' ->
  let l := at_ w (inner w) in let p := make (inPrior w k) in
  k <= length l /\ at_ w' (inner w') = (if k =? length l then l ++ [p] else upd k p l) /\ own w' = own w /\ rok w'.
Proof.
  intros w w' k make [R1 R2] H l p. unfold inSet in H. fold l in H. destruct (Nat.ltb_spec (length l) k); [discriminate|]. split; [lia|].
  destruct (Nat.eqb_spec k (length l)) as [E|E].
  - injection H as <-. cbn. rewrite app_nth2 by lia. rewrite Nat.sub_diag. cbn. split; [reflexivity|]. split; [reflexivity|]. split; cbn.
    + intros a Q. injection Q as <-. rewrite app_length. cbn. lia.
    + intros a Q. apply R2 in Q. rewrite app_length. cbn. lia.
  - destruct (inner w) as [a|] eqn:A; [|discriminate]. injection H as <-. cbn. specialize (R1 a eq_refl). rewrite rup_nth by exact R1. split; [reflexivity|]. split; [reflexivity|].
    split; cbn; rewrite rup_len; [intros b Q; assert (b = a) by congruence; subst b; exact R1|exact R2].
Qed.

(** ** Setting and getting *)
(** Where the parameters are repeated, one call sets the prior of all repetitions; the priors of earlier parameters stay what they were,
    and those of later ones too unless it is the last of the list *)
Theorem C109_set : forall (w w' : rworld P) mnp index k make, rok w -> repSet mnp w k make = inl w' ->
  (forall q, fst (par2model mnp index q) = k -> repGet mnp index w' q = Some (make (inPrior w k))) /\
  (forall q, fst (par2model mnp index q) < k -> repGet mnp index w' q = repGet mnp index w q) /\
  (forall q, fst (par2model mnp index q) > k -> S k < length (at_ w (inner w)) -> repGet mnp index w' q = repGet mnp index w q).
Proof.
  intros w w' mnp index k make R H. unfold repSet in H. destruct (k <? mnp); [|discriminate]. destruct (inSet_lists w w' k make R H) as (L & E & _ & _).
  set (l := at_ w (inner w)) in *. set (p := make (inPrior w k)) in *. clearbody p. unfold repGet.
  assert (N : at_ w' (inner w') <> []). { rewrite E. destruct (k =? length l) eqn:Q; [now destruct l|]. apply Nat.eqb_neq in Q. intros X. assert (Z := f_equal (@length P) X). rewrite rup_len in Z. cbn in Z. lia. }
  assert (Len : length (at_ w' (inner w')) = Nat.max (S k) (length l)).
  { rewrite E. destruct (Nat.eqb_spec k (length l)); [rewrite app_length; cbn [length]; lia|rewrite rup_len; lia]. }
  assert (At : forall j d, nth j (at_ w' (inner w')) d = if j =? k then p else nth j l d).
  { intros j d. rewrite E. destruct (Nat.eqb_spec k (length l)) as [K|K].
    - destruct (Nat.eqb_spec j k); [subst; rewrite app_nth2, Nat.sub_diag by lia; reflexivity|]. destruct (Nat.lt_ge_cases j (length l)); [now rewrite app_nth1|]. rewrite !nth_overflow by (rewrite ?app_length; cbn; lia). reflexivity.
    - destruct (Nat.eqb_spec j k); [subst; apply rup_nth; lia|]. apply rup_other. congruence. }
  split; [|split].
  - intros q <-. rewrite (inPrior_spec w' _ p N). rewrite At. rewrite Len. replace (Nat.min _ _) with (fst (par2model mnp index q)) by lia. now rewrite Nat.eqb_refl.
  - intros q Q. assert (Nl : l <> []) by (intros X; rewrite X in L; cbn in L; lia). rewrite (inPrior_spec w' _ p N), (inPrior_spec w _ p Nl). rewrite At, Len. fold l.
    replace (Nat.min _ (Nat.max _ _ - 1)) with (fst (par2model mnp index q)) by lia. destruct (Nat.eqb_spec (fst (par2model mnp index q)) k); [lia|]. f_equal. f_equal. lia.
  - intros q Q K. assert (Nl : l <> []) by (intros X; rewrite X in K; cbn in K; lia). rewrite (inPrior_spec w' _ p N), (inPrior_spec w _ p Nl). rewrite At, Len. fold l.
    replace (Nat.max (S k) (length l)) with (length l) by lia. destruct (Nat.eqb_spec (Nat.min (fst (par2model mnp index q)) (length l - 1)) k); [lia|reflexivity].
Qed.
(** Which calls succeed: those for the parameters of the repeated model, in order *)
Theorem C109_succeeds : forall (w : rworld P) mnp k make, rok w ->
  (exists w', repSet mnp w k make = inl w') <-> k < mnp /\ k <= length (at_ w (inner w)).
Proof.
  intros w mnp k make R. split.
  - intros (w' & H). unfold repSet in H. destruct (Nat.ltb_spec k mnp); [|discriminate]. split; [lia|]. apply (inSet_lists w w' k make R H).
  - intros [K L]. unfold repSet. destruct (Nat.ltb_spec k mnp); [|lia]. unfold inSet. destruct (Nat.ltb_spec (length (at_ w (inner w))) k); [lia|].
    destruct (Nat.eqb_spec k (length (at_ w (inner w)))); [eexists; reflexivity|]. destruct (inner w); [eexists; reflexivity|]. cbn in *. lia.
Qed.
(** Finding: too high a number is not the IndexError that is documented *)
Theorem C109_error_refuted : forall (w : rworld P) mnp k make, mnp <= k -> repSet mnp w k make = inr AttributeError.
Proof. intros w mnp k make H. unfold repSet. destruct (Nat.ltb_spec k mnp); [lia|reflexivity]. Qed.
(** ** Copies *)
(** A copy has the priors of the original *)
Theorem C109_copy : forall (w : rworld P) i mnp index q, rok w -> repGet mnp index (repCopy w i) q = repGet mnp index w q.
Proof.
  intros w i mnp index q [R _]. unfold repGet, inPrior, at_, repCopy. destruct (nth i (own w) None) as [a|]; cbn; [|reflexivity].
  destruct (inner w) as [b|]; [|reflexivity]. rewrite app_nth1 by (now apply R). reflexivity.
Qed.
(** Finding: what is set in the copy is set in the original as well: they have the same repeated model, so that what any of them answers does
    not depend on which one was set *)
Theorem C109_copy_refuted : forall (w w' : rworld P) i mnp index k make, rok w -> k < mnp -> repSet mnp (repCopy w i) k make = inl w' ->
  repGet mnp index w' k = Some (make (repGet mnp index w k)).
Proof.
  intros w w' i mnp index k make R K H. assert (R' : rok (repCopy w i)).
  { destruct R as [R1 R2]. unfold repCopy. destruct (nth i (own w) None) as [a|] eqn:A; split; cbn; rewrite ?app_length; cbn.
    - intros b Q. apply R1 in Q. lia.
    - intros b Q. apply in_app_or in Q. destruct Q as [Q|[Q|[]]]; [apply R2 in Q; lia|injection Q as <-; lia].
    - exact R1.
    - intros b Q. apply in_app_or in Q. destruct Q as [Q|[Q|[]]]; [now apply R2|discriminate]. }
  assert (M : fst (par2model mnp index k) = k) by (unfold par2model; destruct (Nat.leb_spec mnp k); [lia|reflexivity]).
  destruct (C109_set (repCopy w i) w' mnp index k make R' H) as (S & _). rewrite (S k M). f_equal. f_equal.
  pose proof (C109_copy w i mnp index k R) as C. unfold repGet in C |- *. rewrite M in C |- *. exact C.
Qed.
(** ** Limits *)
(** When the repeated model has its priors before it is repeated, hasLimits tells whether they all have limits, also after any of them are replaced *)
Definition setAll (mnp : nat) := fix go (w : rworld P) (l : list (nat * (option P -> P))) : rworld P + rerr :=
  match l with [] => inl w | (k, make) :: l => match repSet mnp w k make with inl w => go w l | inr e => inr e end end.
Theorem C109_limits : forall lim (h : list (list P)) a mnp l w', a < length h -> mnp <= length (nth a h []) ->
  setAll mnp (repMake (mkRW h (Some a) [])) l = inl w' -> repHasLimits lim w' 0 = forallb lim (at_ w' (inner w')).
Proof.
  intros lim h a mnp l w' A M H. unfold repMake in H. cbn in H.
  assert (G : forall l w, inner w = Some a -> own w = [Some a] -> a < length (h_lists w) -> mnp <= length (nth a (h_lists w) []) -> setAll mnp w l = inl w' ->
     repHasLimits lim w' 0 = forallb lim (at_ w' (inner w'))).
  { clear. induction l as [|[k make] l IH]; intros w I O A M H.
    - injection H as <-. unfold repHasLimits. rewrite O, I. reflexivity.
    - cbn [setAll] in H. destruct (repSet mnp w k make) as [w1|] eqn:E; [|discriminate]. unfold repSet in E. destruct (Nat.ltb_spec k mnp); [|discriminate].
      unfold inSet in E. rewrite I in E. cbn [at_] in E. destruct (_ <? k); [discriminate|]. destruct (Nat.eqb_spec k (length (nth a (h_lists w) []))); [lia|]. injection E as <-.
      apply (IH _) in H; cbn; auto; rewrite ?rup_len; auto. rewrite rup_nth by exact A. now rewrite rup_len. }
  apply (G l (mkRW h (Some a) [Some a]) eq_refl eq_refl A M H).
Qed.
(** Finding: when the priors are set after that, as the method setPrior is for, hasLimits stays False whatever the priors, and so getEvidence
    (BaseFitter.py:934) does not see the limits *)
Theorem C109_limits_refuted : forall lim (make : nat -> option P -> P) mnp, 0 < mnp ->
  exists w', setAll mnp (repMake (mkRW [] None [])) (map (fun k => (k, make k)) (seq 0 mnp)) = inl w' /\
  length (at_ w' (inner w')) = mnp /\ (forall bound, (forall k o, bound (make k o) = true) -> repHasPriors bound w' = true) /\ repHasLimits lim w' 0 = false.
Proof.
  intros lim make mnp M.
  assert (G : forall n s w, rok w -> own w = [None] -> (s = 0 \/ inner w <> None) -> length (at_ w (inner w)) = s -> s + n <= mnp -> exists w', setAll mnp w (map (fun k => (k, make k)) (seq s n)) = inl w' /\
     length (at_ w' (inner w')) = s + n /\ own w' = [None] /\ (s + n = 0 \/ inner w' <> None) /\
     (forall bound, (forall k o, bound (make k o) = true) -> forallb bound (at_ w (inner w)) = true -> forallb bound (at_ w' (inner w')) = true)).
  { induction n as [|n IH]; intros s w R O I L B.
    - exists w. cbn. split; [reflexivity|]. split; [lia|]. split; [exact O|]. split; [|auto]. destruct I; [left; lia|now right].
    - cbn [seq map setAll]. unfold repSet. destruct (Nat.ltb_spec s mnp); [|lia]. destruct (inSet w s (make s)) as [w1|] eqn:E.
      + pose proof (inSet_lists w w1 s (make s) R E) as (_ & A & O1 & R1). cbn in A. rewrite L, Nat.eqb_refl in A.
        destruct (IH (S s) w1) as (w' & H1 & H2 & H3 & H4 & H5); [exact R1|congruence| |rewrite A, app_length, L; cbn; lia|lia|].
        * right. intros X. rewrite X in A. cbn in A. now apply app_cons_not_nil in A.
        * exists w'. split; [exact H1|]. split; [lia|]. split; [exact H3|]. split; [right; destruct H4; [lia|assumption]|]. intros bound Hb Hw. apply H5; [exact Hb|]. rewrite A, forallb_app, Hw. cbn. now rewrite Hb.
      + exfalso. unfold inSet in E. rewrite L in E. rewrite Nat.ltb_irrefl, Nat.eqb_refl in E. discriminate. }
  destruct (G mnp 0 (repMake (mkRW [] None []))) as (w' & H1 & H2 & H3 & H4 & H5); auto.
  { split; cbn; [discriminate|]. intros a [Q|[]]. discriminate. }
  exists w'. split; [exact H1|]. split; [exact H2|]. split.
  - intros bound Hb. specialize (H5 bound Hb eq_refl). unfold repHasPriors, at_ in *. destruct (inner w'); [exact H5|]. destruct H4; [lia|congruence].
  - unfold repHasLimits. rewrite H3. reflexivity.
Qed.
End R.

(** Two parameters, three components with the first one the same in all: priors 7 and 9; the second is then replaced by 11 *)
Example C109_ex : let w := repMake (mkRW [[7; 9]] (Some 0) []) in rok w /\
  map (repGet 2 [1] w) [0; 1; 2; 3] = [Some 7; Some 9; Some 9; Some 9] /\
  exists w', repSet 2 w 1 (fun _ => 11) = inl w' /\ map (repGet 2 [1] w') [0; 1; 2; 3] = [Some 7; Some 11; Some 11; Some 11] /\ repHasLimits (Nat.ltb 8) w' 0 = false /\ repHasLimits (Nat.ltb 6) w' 0 = true.
Proof.
  intros w. split; [split; cbn; [intros a Q; injection Q as <-; lia|intros a [Q|[]]; injection Q as <-; lia]|]. split; [reflexivity|]. eexists. repeat split.
Qed.
Example C109_copy_ex : let w := repMake (mkRW [[7; 9]] (Some 0) []) in exists w', repSet 2 (repCopy w 0) 1 (fun _ => 11) = inl w' /\ repGet 2 [1] w 1 = Some 9 /\ repGet 2 [1] w' 1 = Some 11
  /\ repHasLimits (fun p => p =? 9) (repCopy w 0) 1 = false /\ repHasLimits (fun p => p <=? 9) w' 1 = true /\ repHasLimits (fun p => p <=? 9) w' 0 = false.
Proof. intros w. eexists. repeat split. Qed.

Print Assumptions C109_set.
Print Assumptions C109_succeeds.
Print Assumptions C109_error_refuted.
Print Assumptions C109_copy.
Print Assumptions C109_copy_refuted.
Print Assumptions C109_limits.
Print Assumptions C109_limits_refuted.
